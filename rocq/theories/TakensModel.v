(** * Model of TSCTakensEmbedding (proof-free).

    Source: datafold/dynfold/transform.py 518-851 (cited as transform.py).
    Feature values of a row are a list over an arbitrary type [E] with a
    multiplication; the factor exp(-kappa j) is the parameter [decay j]
    ([None] for kappa = 0, where the code does not multiply).  Not modelled: the
    dtype conversion at 812-813, and the rendering of labels as strings. *)

From Coq Require Import List ZArith Bool Arith.
Import ListNotations.
From Verif Require Import Np TscModel.
Close Scope Z_scope.
Open Scope nat_scope.

(** [np.arange(start, stop, step)] for step >= 1: ceil((stop - start) / step)
    entries. *)
Definition np_arange3 (start stop step : nat) : list nat :=
  map (fun j => start + j * step) (seq 0 ((stop - start + step - 1) / step)).

(** transform.py 571-608 [_validate_parameter] (integers; the kappa check is
    about a float). *)
Definition takens_validate (lag delays frequency : Z) : result (nat * nat * nat) :=
  if (lag <? 0)%Z then Err ValueError
  else if (delays <? 1)%Z then Err ValueError
  else if (frequency <? 1)%Z then Err ValueError
  else if (1 <? frequency)%Z && (delays <=? 1)%Z then Err ValueError
  else Ok (Z.to_nat lag, Z.to_nat delays, Z.to_nat frequency).

(** transform.py 610-616 [_setup_delay_indices_array]. *)
Definition delay_indices (lag delays frequency : nat) : list nat :=
  map (fun a => lag + a) (np_arange3 1 (delays * frequency + 1) frequency).

(** Python's [max] of the indices. *)
Definition max_delay (ds : list nat) : nat := fold_right Nat.max 0 ds.

(** Column labels: [LOrig c] is the label of input column c, [LDelay c d] the
    label "c:dd" of transform.py 631-648. *)
Inductive label : Type := LOrig (c : nat) | LDelay (c d : nat).

Definition label_eqb (a b : label) : bool :=
  match a, b with
  | LOrig c, LOrig c' => c =? c'
  | LDelay c d, LDelay c' d' => (c =? c') && (d =? d')
  | _, _ => false
  end.

(** transform.py 625-655 [get_feature_names_out] for [nf] input columns. *)
Definition takens_names (nf : nat) (ds : list nat) : list label :=
  map LOrig (seq 0 nf) ++ flat_map (fun d => map (fun c => LDelay c d) (seq 0 nf)) ds.

Section Model.
Context {E : Type}.
Variable mul : E -> E -> E.
Notation frame := (list (row (list E))).

(** Python slice [a[start : -stop]] with stop >= 1. *)
Definition slice_neg {A : Type} (start stop : nat) (l : list A) : list A :=
  skipn start (firstn (length l - stop) l).

(** [np.hstack] of matrices with the same number of rows (row lists). *)
Fixpoint hstack2 (a b : list (list E)) : list (list E) :=
  match a, b with
  | x :: a', y :: b' => (x ++ y) :: hstack2 a' b'
  | _, _ => []
  end.

Definition hstack (blocks : list (list (list E))) : list (list E) :=
  match blocks with
  | [] => []
  | b :: r => fold_left hstack2 r b
  end.

(** Elementwise product with a row vector (broadcast over rows). *)
Fixpoint vec_mul (x y : list E) : list E :=
  match x, y with
  | a :: x', b :: y' => mul a b :: vec_mul x' y'
  | _, _ => []
  end.

(** transform.py 781-789: [np.repeat(decay(1..delays), n_features)]. *)
Definition kappa_vec (decay : nat -> E) (delays nf : nat) : list E :=
  flat_map (fun j => repeat (decay j) nf) (seq 1 delays).

(** transform.py 793-825: one time series. *)
Definition takens_series (ds : list nat) (delays nf : nat) (decay : option (nat -> E)) (G : frame) : frame :=
  let md := max_delay ds in
  let block := to_numpy G in
  let original := skipn md block in
  let delayed := hstack (map (fun d => slice_neg (md - d) d block) ds) in
  let delayed := match decay with
                 | None => delayed
                 | Some f => map (fun x => vec_mul x (kappa_vec f delays nf)) delayed
                 end in
  zip_rows (skipn md (ids_index G)) (skipn md (time_index G)) (hstack2 original delayed).

(** accessor.py 220-252 [check_required_time_delta], integer time values:
    [assert_allclose(actual, desired, rtol=1e-12, atol=1e-15)]. *)
Definition rtol12 (a b : Z) : bool := (Z.abs (a - b) * 1000000000000 <=? Z.abs b)%Z.

Definition check_required_time_delta (k : tkind) (F : frame) (d : Z) : result unit :=
  match delta_time k F with
  | Err e => Err e
  | Ok (DtScalar (Some x)) => if rtol12 x d then Ok tt else Err TSCException
  | Ok (DtScalar None) => Err TSCException
  | Ok (DtSeries l) =>
      if forallb (fun p => match snd p with Some x => rtol12 x d | None => false end) l
      then Ok tt else Err TSCException
  end.

(** Fitted state: delay indices, delays, number of features, delta_time. *)
Record takens : Type := mkTakens {
  tk_ds : list nat; tk_delays : nat; tk_nf : nat; tk_decay : option (nat -> E); tk_dt : Z }.

(** transform.py 657-700 [fit]: parameters, min_timesteps_ = max + 1, constant
    delta_time, then minimum number of time steps (check_tsc 110-135 checks the
    delta time first). *)
Definition takens_fit (k : tkind) (lag delays frequency : Z) (decay : option (nat -> E)) (nf : nat) (F : frame)
  : result takens :=
  match takens_validate lag delays frequency with
  | Err e => Err e
  | Ok (l, d, f) =>
      let ds := delay_indices l d f in
      match check_const_time_delta k F with
      | Err e => Err e
      | Ok dt =>
          match check_required_min_timesteps F (max_delay ds + 1) with
          | Err e => Err e
          | Ok _ => Ok (mkTakens ds d nf decay dt)
          end
      end
  end.

(** transform.py 729-828 [transform]; groupby visits IDs in increasing order. *)
Definition takens_transform (k : tkind) (T : takens) (F : frame) : result frame :=
  match check_required_time_delta k F (tk_dt T) with
  | Err e => Err e
  | Ok _ =>
      match check_required_min_timesteps F (max_delay (tk_ds T) + 1) with
      | Err e => Err e
      | Ok _ => tsc (flat_map (fun i => takens_series (tk_ds T) (tk_delays T) (tk_nf T) (tk_decay T) (group F i)) (ids F))
      end
  end.

(** Column selection [X.loc[:, names]] by label. *)
Fixpoint lookup_label (names : list label) (x : list E) (n : label) : option E :=
  match names, x with
  | m :: names', a :: x' => if label_eqb m n then Some a else lookup_label names' x' n
  | _, _ => None
  end.

Definition select_labels (names : list label) (x : list E) (want : list label) : list E :=
  flat_map (fun n => match lookup_label names x n with Some a => [a] | None => [] end) want.

(** transform.py 830-851 [inverse_transform]. *)
Definition takens_inverse (T : takens) (F : frame) : frame :=
  map (fun r => mkRow (rid r) (rtime r)
                  (select_labels (takens_names (tk_nf T) (tk_ds T)) (rval r) (map LOrig (seq 0 (tk_nf T))))) F.

End Model.
