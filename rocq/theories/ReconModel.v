(** * Model of the reconstruction of time series (proof-free).

    Source: datafold/appfold/edmd.py 712-772 and 1538-1551 (cited as edmd.py),
    datafold/dynfold/dmd.py 413-467 (dmd.py),
    datafold/pcfold/timeseries/collection.py 1849-1897 (collection.py),
    datafold/pcfold/timeseries/accessor.py 558-637 and 1265-1293 (accessor.py).

    Simplifications
    - the fitted model is an arbitrary function [pred] from the samples of an
      initial condition and the elapsed time (the time since its last sample) to
      the predicted state: DMD evaluates the flow map at [time_values -
      min(time_values)] (dmd.py 241, 251) and the dictionary of EDMD acts row by
      row on the result;
    - no control input (U is None), no qois. *)

From Coq Require Import List ZArith Bool Arith.
Import ListNotations.
From Verif Require Import Np TscModel.
Open Scope Z_scope.

(** Keys (start, end, delta_time) of collection.py 1878-1880; pandas sorts the
    groups lexicographically. *)
Definition rkey : Type := (Z * Z * Z)%type.

Definition key_ltb (a b : rkey) : bool :=
  let '(a1, a2, a3) := a in let '(b1, b2, b3) := b in
  (a1 <? b1) || ((a1 =? b1) && ((a2 <? b2) || ((a2 =? b2) && (a3 <? b3)))).

Definition key_eqb (a b : rkey) : bool :=
  let '(a1, a2, a3) := a in let '(b1, b2, b3) := b in
  (a1 =? b1) && (a2 =? b2) && (a3 =? b3).

Fixpoint insert_key (x : rkey) (l : list rkey) : list rkey :=
  match l with
  | [] => [x]
  | y :: r => if key_ltb x y then x :: l
              else if key_eqb x y then l
              else y :: insert_key x r
  end.

Definition sort_keys (l : list rkey) : list rkey := fold_right insert_key [] l.

Section Model.
Context {V : Type}.
Notation frame := (list (row V)).
Variable pred : list V -> Z -> V.

(** collection.py 1476-1491 [time_interval(id)]: min and max of the times of one
    ID (np.min / np.max; the IDs come from [ids], so the list is not empty). *)
Definition time_interval (F : frame) (i : Z) : Z * Z :=
  let t := np_unique (time_index (group F i)) in (hd 0 t, last t 0).

Fixpoint lookup (l : list (Z * option Z)) (i : Z) : option Z :=
  match l with
  | [] => None
  | (j, o) :: r => if j =? i then o else lookup r i
  end.

(** accessor.py 1265-1293 [time_values_overview]: a scalar delta_time is
    broadcast, a series is aligned by ID. *)
Definition time_values_overview (k : tkind) (F : frame)
  : result (list (Z * (Z * Z * option Z))) :=
  bind (delta_time k F) (fun dt =>
  Ok (map (fun i => (i, (time_interval F i,
                         match dt with DtScalar d => d | DtSeries l => lookup l i end)))
          (ids F))).

Definition row_key (e : Z * (Z * Z * option Z)) : option rkey :=
  let '(_, (se, d)) := e in
  match d with Some x => Some (se, x) | None => None end.

(** collection.py 1849-1897 [iter_reconstruct_ic]: the groups in the order of
    their keys; within a group the IDs are in the order of the table (sorted),
    and [X.loc[grouped_ids, :]] lists the series in that order. *)
Definition select_ids (F : frame) (l : list Z) : frame := flat_map (group F) l.

Definition iter_reconstruct_ic (k : tkind) (F : frame) (n : nat)
  : result (list (list Z * frame * list Z)) :=
  bind (check_required_min_timesteps F n) (fun _ =>
  bind (time_values_overview k F) (fun table =>
  if existsb (fun e => is_none (row_key e)) table then Err NotImplementedError
  else
    let keyed := flat_map (fun e => match row_key e with
                                    | Some key => [(key, fst e)] | None => [] end) table in
    map_result (fun key =>
      let gids := map snd (filter (fun p => key_eqb (fst p) key) keyed) in
      let G := select_ids F gids in
      bind (initial_states G n) (fun ic => Ok (gids, ic, skipn (n - 1) (time_values G))))
      (sort_keys (map fst keyed)))).

(** The prediction for one group: for every initial condition (in the order of
    the group) one row per time value; from_tensor (dynsystem.py 992-997). *)
Definition predict_group (g : list Z * frame * list Z) : frame :=
  let '(gids, ic, tv) := g in
  flat_map (fun i => map (fun t => mkRow i t (pred (to_numpy (group ic i)) (t - hd 0 tv))) tv) gids.

(** pd.concat of the predictions (dmd.py 466, edmd.py 759): the new collection is
    validated by its constructor (collection.py 280-325). *)
Definition concat_groups (gs : list (list Z * frame * list Z)) : result frame :=
  tsc (flat_map predict_group gs).

(** dmd.py 440-467. *)
Definition dmd_reconstruct (k : tkind) (F : frame) : result frame :=
  bind (check_const_time_delta k F) (fun _ =>
  bind (iter_reconstruct_ic k F 1) (fun gs => concat_groups gs)).

(** [np.round(t / d)]: nearest integer, ties to the even one. *)
Definition round_div (t d : Z) : Z :=
  let q := t / d in let rem := t mod d in
  if 2 * rem <? d then q else if d <? 2 * rem then q + 1
  else if Z.even q then q else q + 1.

(** [np.repeat(values, counts)]. *)
Definition np_repeat_each {A : Type} (l : list A) (c : list nat) : list A :=
  flat_map (fun p => repeat (fst p) (snd p)) (combine l c).

(** accessor.py 558-637 [shift_time_per_time_series(ensure_identical_values=True)]:
    the shift values are in storage order (initial_states), the numbers of time
    steps in the order of the sorted IDs.  The assignment of the index (630)
    validates it (collection.py 358-360).  625: division by a series of different length raises
    ValueError; a nan sampling (no regular series) gives nan times, represented by
    the NotImplementedError raised from them at collection.py 1874. *)
Definition shift_time_per_time_series (k : tkind) (F : frame) : result frame :=
  bind (initial_states F 1) (fun I =>
  let shifts := map (fun t => - t) (time_index I) in
  if existsb (fun s => negb (s =? 0)) shifts then
    let expanded := match n_timesteps F with
                    | NInt n => np_repeat shifts n
                    | NSeries l => np_repeat_each shifts (map snd l)
                    end in
    bind (delta_time k F) (fun dt =>
    match dt with
    | DtSeries _ => Err ValueError
    | DtScalar None => Err NotImplementedError
    | DtScalar (Some d) =>
        tsc (map (fun p => mkRow (rid (fst p)) (round_div (rtime (fst p) + snd p) d * d) (rval (fst p)))
                (combine F expanded))
    end)
  else Ok F).

(** collection.py 1221-1246 [set_index]: the result is wrapped in a new collection,
    which validates the index. *)
Definition set_index (F : frame) (idx : list (Z * Z)) : result frame :=
  if (length F =? length idx)%nat
  then tsc (map (fun p => mkRow (fst (snd p)) (snd (snd p)) (rval (fst p))) (combine F idx))
  else Err ValueError.

(** edmd.py 1540-1551 followed by 712-772. *)
Definition edmd_reconstruct (k : tkind) (F : frame) (n : nat) : result frame :=
  bind (check_required_min_timesteps F (n + 1)) (fun _ =>
  match k with
  | KDatetime =>
      bind (iter_reconstruct_ic k F n) (fun gs => concat_groups gs)
  | _ =>
      bind (shift_time_per_time_series k F) (fun Fs =>
      bind (iter_reconstruct_ic k Fs n) (fun gs =>
      bind (concat_groups gs) (fun R =>
      let recovered := if (1 <? n)%nat
                       then flat_map (fun i => skipn (n - 1) (index (group F i))) (ids F)
                       else index F in
      set_index R recovered)))
  end).

End Model.
