(** * DiffusionMaps as a stateful estimator (proof-free).

    Source: datafold/dynfold/dmap.py (dmap.py), datafold/dynfold/base.py (base.py).

    The numerical parts are parameters: [eigs] computes the eigenpairs of the kernel matrix
    of the data (None: an exception is raised), [embed] the Nystroem extension, [coeff] the
    least squares coefficients of the pre-image and [pre] their application.  The kernel is
    copied at every fit (dmap.py 510-514), therefore [eigs] depends on the data only.
    [valid] stands for base.py 83-212 [_validate_datafold_data].
    Simplified: feature names are not modelled, only the number of features. *)

From Coq Require Import List ZArith Bool.
From Verif Require Import Np.
Import ListNotations.
Local Open Scope nat_scope.

(** [np.sort]. *)
Fixpoint insert_nat (a : nat) (l : list nat) : list nat :=
  match l with
  | [] => [a]
  | b :: l' => if a <=? b then a :: l else b :: insert_nat a l'
  end.
Fixpoint np_sort_nat (l : list nat) : list nat :=
  match l with [] => [] | a :: l' => insert_nat a (np_sort_nat l') end.

(** The calls of a user. *)
Inductive op (D : Type) : Type :=
| Fit (x : D) | SetTargetCoords (c : list nat) | Transform (z : D) | InverseTransform (z : D).
Arguments Fit {D} x.
Arguments SetTargetCoords {D} c.
Arguments Transform {D} z.
Arguments InverseTransform {D} z.

Section Model.
Variables D M W Y : Type.
Variable width : D -> nat.
Variable n_eigenpairs : nat.
Variable valid : D -> bool.
Variable eigs : D -> option M.
Variable embed : D -> M -> option (list nat) -> D -> Y.
Variable coeff : D -> M -> option (list nat) -> W.
Variable rows : W -> nat.
Variable pre : W -> D -> Y.

Record state := State {
  X_fit : option D;
  eigenpairs : option M;
  target_coords : option (list nat);
  inv_coeff_matrix : option W;
  n_features_in : option nat;
  n_features_out : option nat }.

Definition init : state := State None None None None None None.

Definition out := result (option Y).

(** dmap.py 458-464 [get_feature_names_out], its length. *)
Definition len_names (s : state) : nat :=
  match target_coords s with Some c => length c | None => n_eigenpairs end.

(** dmap.py 466-563 [fit] with base.py 251-279 [_setup_feature_attrs_fit]: the feature
    attributes are only set if they are missing; [X_fit_] is assigned before the
    eigenproblem is solved. *)
Definition do_fit (s : state) (x : D) : state * out :=
  let nin := match n_features_in s with None => Some (width x) | n => n end in
  let nout := match n_features_out s with None => Some (len_names s) | n => n end in
  if negb (valid x) then (s, Err ValueError)
  else match eigs x with
  | None => (State (Some x) (eigenpairs s) (target_coords s) (inv_coeff_matrix s) nin nout, Err RuntimeError)
  | Some m => (State (Some x) (Some m) (target_coords s) (inv_coeff_matrix s) nin nout, Ok None)
  end.

(** dmap.py 427-456 [set_target_coords]. *)
Definition do_set (s : state) (c : list nat) : state * out :=
  let c := np_sort_nat c in
  match c with
  | [] => (s, Err IndexError)
  | a :: _ =>
      if n_eigenpairs <=? last c a then (s, Err ValueError)
      else (State (X_fit s) (eigenpairs s) (Some c) (inv_coeff_matrix s) (n_features_in s) (Some (length c)), Ok None)
  end.

(** dmap.py 565-624 [transform] with base.py 281-306 [_validate_feature_input]; the kernel
    evaluation fails if the numbers of features of the fitted and the new data differ. *)
Definition do_transform (s : state) (z : D) : state * out :=
  match X_fit s, eigenpairs s, n_features_in s with
  | Some x, Some m, Some n =>
      if negb (width z =? n) then (s, Err ValueError)
      else if negb (width z =? width x) then (s, Err ValueError)
      else (s, Ok (Some (embed x m (target_coords s) z)))
  | _, _, _ => (s, Err AttributeError)
  end.

(** dmap.py 651-693 [inverse_transform]: the coefficients are computed once. *)
Definition do_inverse (s : state) (z : D) : state * out :=
  match X_fit s, eigenpairs s, n_features_out s with
  | Some x, Some m, Some n =>
      if negb (width z =? n) then (s, Err ValueError)
      else
        let w := match inv_coeff_matrix s with Some w => w | None => coeff x m (target_coords s) end in
        let s' := State (X_fit s) (eigenpairs s) (target_coords s) (Some w) (n_features_in s) (n_features_out s) in
        if width z =? rows w then (s', Ok (Some (pre w z))) else (s', Err ValueError)
  | _, _, _ => (s, Err AttributeError)
  end.

Definition step (s : state) (o : op D) : state * out :=
  match o with
  | Fit x => do_fit s x
  | SetTargetCoords c => do_set s c
  | Transform z => do_transform s z
  | InverseTransform z => do_inverse s z
  end.

Fixpoint run (s : state) (ops : list (op D)) : state * list out :=
  match ops with
  | [] => (s, [])
  | o :: ops' => let '(s', r) := step s o in let '(s'', rs) := run s' ops' in (s'', r :: rs)
  end.

End Model.

Arguments X_fit {D M W} s.
Arguments eigenpairs {D M W} s.
Arguments target_coords {D M W} s.
Arguments inv_coeff_matrix {D M W} s.
Arguments n_features_in {D M W} s.
Arguments n_features_out {D M W} s.
Arguments init {D M W}.
