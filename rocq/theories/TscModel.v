(** * Model of TSCDataFrame and its accessor (proof-free).

    Source: datafold/pcfold/timeseries/collection.py (cited as collection.py)
    and datafold/pcfold/timeseries/accessor.py (cited as accessor.py).

    A frame is the list of its rows in storage order.  A row has the time
    series ID, the time value and the feature values.  The type [V] of feature
    values is arbitrary (one vector per row).

    Simplifications for the whole file
    - time values are integers: this covers the dtype kinds "i", "u" and "M"
      (datetime64[ns] is an integer count) exactly, and kind "f" for time
      values that are multiples of one fixed representable unit; rounding of
      float arithmetic is not modelled;
    - feature names (columns) are not part of the row model; they are handled
      separately where a function depends on them;
    - [fixed_delta] is None unless a definition says otherwise. *)

From Coq Require Import List ZArith Bool Arith.
Import ListNotations.
From Verif Require Import Np.
Open Scope Z_scope.

Record row (V : Type) : Type := mkRow { rid : Z; rtime : Z; rval : V }.
Arguments mkRow {V} rid rtime rval.
Arguments rid {V} r.
Arguments rtime {V} r.
Arguments rval {V} r.

(** dtype kind of the time index: collection.py 876-891. *)
Inductive tkind : Type := KInt | KFloat | KDatetime.

Section Model.
Context {V : Type}.
Notation frame := (list (row V)).

Definition ids_index (F : frame) : list Z := map rid F.
Definition time_index (F : frame) : list Z := map rtime F.
Definition index (F : frame) : list (Z * Z) := map (fun r => (rid r, rtime r)) F.
Definition to_numpy (F : frame) : list V := map rval F.

(** collection.py 832-923 [_validate_index], on an index with two integer
    levels (the type checks 833-842, 856-867 and 876-891 are outside the
    model; ids are integers).  The order of the checks is the code's:
    844 duplicates, 869 negative IDs, 896 negative times, 903-907 IDs that
    start more than once ([ids_index[bool_new_id]] fails with an IndexError on
    an empty index because [np.append(1, [])] has one entry), 914-922 time
    values not strictly increasing inside an ID. *)
Definition bool_new_id (ids : list Z) : list bool :=
  true :: map (fun d => negb (d =? 0)) (np_diff ids).

Definition cond_not_sorted (ids times : list Z) : list bool :=
  map (fun p => (fst p =? 0) && (snd p <=? 0)) (combine (np_diff ids) (np_diff times)).

Definition validate_index (ids times : list Z) : result unit :=
  if has_dup (combine ids times) then Err AttributeError
  else if existsb (fun i => i <? 0) ids then Err AttributeError
  else if existsb (fun t => t <? 0) times then Err AttributeError
  else match ids with
  | [] => Err IndexError
  | _ =>
    let starts := mask_select (bool_new_id ids) ids in
    if negb (length (np_unique starts) =? length starts)%nat then Err AttributeError
    else if existsb (fun b => b) (cond_not_sorted ids times) then Err AttributeError
    else Ok tt
  end.

(** collection.py 309-356 [TSCDataFrame(...)] with validate=True: the rows are
    stored as given. *)
Definition tsc (rows : frame) : result frame :=
  match validate_index (ids_index rows) (time_index rows) with
  | Ok _ => Ok rows
  | Err e => Err e
  end.

(** collection.py 977-982 [ids]: [remove_unused_levels().levels[0]], the sorted
    distinct IDs. *)
Definition ids (F : frame) : list Z := np_unique (ids_index F).

(** collection.py 967-970. *)
Definition n_timeseries (F : frame) : nat := length (ids F).

(** collection.py 1146-1165 [n_timesteps]. *)
Inductive nsteps : Type :=
| NInt (n : nat)
| NSeries (l : list (Z * nat)).

Definition nat_all_equal (l : list nat) : bool :=
  match l with
  | [] => false
  | x :: r => forallb (Nat.eqb x) r
  end.

Definition counts (F : frame) : list nat :=
  map (np_count (ids_index F)) (ids F).

Definition n_timesteps (F : frame) : nsteps :=
  if ((n_timeseries F =? 1)%nat || nat_all_equal (counts F))
  then NInt (hd 0%nat (counts F))
  else NSeries (combine (ids F) (counts F)).

(** [np.asarray(n_timesteps)]. *)
Definition nsteps_values (n : nsteps) : list nat :=
  match n with NInt k => [k] | NSeries l => map snd l end.

(** accessor.py 279-292 [check_required_min_timesteps]. *)
Definition check_required_min_timesteps (F : frame) (k : nat) : result unit :=
  if existsb (fun n => (n <? k)%nat) (nsteps_values (n_timesteps F))
  then Err TSCException else Ok tt.

(** collection.py 1324-1328 [is_equal_length]. *)
Definition is_equal_length (F : frame) : bool :=
  nat_all_equal (nsteps_values (n_timesteps F)).

(** collection.py 1493-1511 [time_values]. *)
Definition time_values (F : frame) : list Z := np_unique (time_index F).

(** collection.py 1349-1369 [is_same_time_values]. *)
Definition is_same_time_values (F : frame) : bool :=
  if (n_timeseries F =? 1)%nat then true
  else match n_timesteps F with
       | NSeries _ => false
       | NInt n => (n =? length (time_values F))%nat
       end.

(** collection.py 1387-1406 [degenerate_ids]; [None] if there is none. *)
Definition degenerate_ids (F : frame) : option (list Z) :=
  match n_timesteps F with
  | NSeries l =>
      match map fst (filter (fun p => (snd p =? 1)%nat) l) with
      | [] => None
      | d => Some d
      end
  | NInt n => if (n =? 1)%nat then Some (ids F) else None
  end.

(** ** delta_time: collection.py 984-1144

    [None] is nan/NaT.  The result is a scalar or a table indexed by [ids]. *)
Inductive dt_result : Type :=
| DtScalar (d : option Z)
| DtSeries (l : list (Z * option Z)).

(** 1078-1087: integer and timedelta branch: all entries equal the first one. *)
Definition row_dt_exact (d : list Z) : option Z :=
  match d with
  | [] => None
  | x :: r => if forallb (Z.eqb x) r then Some x else None
  end.

(** 1068-1077: float branch: the result is the minimum over the whole row, but
    only the columns [1:] are compared with it.  [within_atol] (1e-16) means
    equality and [within_rtol] (3e-12) is written without division; the minimum
    is positive because times strictly increase. *)
Definition list_min (d : list Z) : Z :=
  match d with [] => 0 | x :: r => fold_left Z.min r x end.

Definition row_dt_float (d : list Z) : option Z :=
  let m := list_min d in
  let within_atol := forallb (fun x => x =? m) (tl d) in
  let within_rtol := forallb (fun x => Z.abs (x - m) * 1000000000000 <? 3 * m) (tl d) in
  if within_atol || within_rtol then Some m else None.

(** [np.allclose(a, b, atol=1e-16, rtol=3e-12)] for one pair of integers:
    |a - b| <= atol + rtol*|b|, multiplied by 10^16. *)
Definition close (a b : Z) : bool :=
  Z.abs (a - b) * 10000000000000000 <=? 1 + 30000 * Z.abs b.

(** 1050, 1063-1065 and 1067-1089: one row of the reshaped differences. *)
Definition row_dt (k : tkind) (d : list Z) : option Z :=
  match d with
  | [] => None
  | [x] => Some x
  | _ => match k with KFloat => row_dt_float d | _ => row_dt_exact d end
  end.

(** 1094: positions of an ID in the index without the last one. *)
Definition positions (F : frame) (i : Z) : list nat :=
  map fst (filter (fun p => rid (snd p) =? i) (enumerate F)).

(** 1094-1104: one time series in the unequal-length path; the float branch
    calls [np.min] on an empty array for a degenerate time series, which
    raises a ValueError. *)
Definition series_dt (k : tkind) (F : frame) (i : Z) : result (option Z) :=
  let diffs := np_diff (time_index F) in
  let d := map (fun p => nth p diffs 0) (removelast (positions F i)) in
  match k with
  | KFloat =>
      match d with
      | [] => Err ValueError
      | x :: _ => if forallb (close (list_min d)) d then Ok (Some x) else Ok None
      end
  | _ => if (length (np_unique d) =? 1)%nat then Ok (Some (hd 0 d)) else Ok None
  end.

Fixpoint map_result {A B : Type} (f : A -> result B) (l : list A) : result (list B) :=
  match l with
  | [] => Ok []
  | x :: r => match f x with
              | Err e => Err e
              | Ok y => match map_result f r with
                        | Err e => Err e
                        | Ok ys => Ok (y :: ys)
                        end
              end
  end.

(** 1018-1104: the per-ID table, assigned positionally to the sorted IDs in the
    equal-length path (1065, 1089). *)
Definition dt_table (k : tkind) (F : frame) : result (list (Z * option Z)) :=
  match n_timesteps F with
  | NInt n =>
      if (n =? 1)%nat then Ok (map (fun i => (i, None)) (ids F))
      else
        let m := n_timeseries F in
        let idx_mask := repeat true (n - 1) ++ [false] in
        let mask := removelast (np_tile idx_mask m) in
        let d := mask_select mask (np_diff (time_index F)) in
        Ok (combine (ids F) (map (row_dt k) (reshape m (n - 1) d)))
  | NSeries _ =>
      map_result (fun i => match series_dt k F i with
                           | Ok d => Ok (i, d)
                           | Err e => Err e
                           end) (ids F)
  end.

Definition is_none {A} (o : option A) : bool :=
  match o with None => true | Some _ => false end.

Definition get_some (l : list (option Z)) : list Z :=
  flat_map (fun o => match o with Some x => [x] | None => [] end) l.

(** 1106-1123 [is_global_unique].  The series is of float dtype (it was
    initialised with nan) for numerical time values, so the [np.allclose] branch
    is taken: the minimum skips nan (pandas), nan compares unequal.  For
    timedelta the value is [len(np.unique(...))], non-zero hence true. *)
Definition is_global_unique (k : tkind) (l : list (option Z)) : bool :=
  if forallb is_none l then true
  else match k with
       | KDatetime => true
       | _ => forallb (fun o => match o with
                                | None => false
                                | Some x => close (list_min (get_some l)) x
                                end) l
       end.

(** 1125-1144. *)
Definition delta_time (k : tkind) (F : frame) : result dt_result :=
  match dt_table k F with
  | Err e => Err e
  | Ok l =>
      if (n_timeseries F =? 1)%nat || is_global_unique k (map snd l)
      then Ok (DtScalar (hd None (map snd l)))
      else Ok (DtSeries l)
  end.

(** collection.py 1330-1347 [is_const_delta_time]. *)
Definition is_const_delta_time (k : tkind) (F : frame) : result bool :=
  match delta_time k F with
  | Err e => Err e
  | Ok (DtSeries _) => Ok false
  | Ok (DtScalar None) => Ok false
  | Ok (DtScalar (Some _)) => Ok true
  end.

(** accessor.py 175-180 [check_const_time_delta]. *)
Definition check_const_time_delta (k : tkind) (F : frame) : result Z :=
  match delta_time k F with
  | Err e => Err e
  | Ok (DtScalar (Some d)) => Ok d
  | Ok _ => Err TSCException
  end.

(** ** shift_matrices: accessor.py 1181-1263 (row orientation; 'col' is the
    transpose of both results).  1218-1219 validation, 1224-1227 single series,
    1234-1235 pairs, 1237-1242 equal lengths, 1244-1250 unequal lengths (the
    cumulated counts are in the order of the sorted IDs). *)
Definition shift_raw (F : frame) : list V * list V :=
  let values := to_numpy F in
  if (n_timeseries F =? 1)%nat then (removelast values, tl values)
  else match n_timesteps F with
  | NInt n =>
      if (n =? 2)%nat then (slice_step 0 2 values, slice_step 1 2 values)
      else
        let idx := seq 0 (length values) in
        (np_delete values (slice_step (n - 1) n idx),
         np_delete values (slice_step 0 n idx))
  | NSeries l =>
      let idx := np_cumsum (0%nat :: map snd l) in
      (np_delete values (tl (map (fun i => (i - 1)%nat) idx)),
       np_delete values (removelast idx))
  end.

Definition shift_matrices (k : tkind) (F : frame) : result (list V * list V) :=
  match check_required_min_timesteps F 2 with
  | Err e => Err e
  | Ok _ => match check_const_time_delta k F with
            | Err e => Err e
            | Ok _ => Ok (shift_raw F)
            end
  end.

(** ** Constructors *)

(** collection.py 515-534 [from_shift_matrices] (row orientation): rows are
    interleaved (527-528), IDs are 0,0,1,1,... (530), times alternate (531). *)
Fixpoint interleave {A : Type} (l r : list A) : list A :=
  match l, r with
  | x :: l', y :: r' => x :: y :: interleave l' r'
  | _, _ => []
  end.

Definition zip_rows (i t : list Z) (v : list V) : frame :=
  map (fun p => mkRow (fst (fst p)) (snd (fst p)) (snd p)) (combine (combine i t) v).

Definition from_shift_matrices (t0 t1 : Z) (left right : list V) : result frame :=
  if negb (length left =? length right)%nat then Err ValueError
  else
    let n := length left in
    tsc (zip_rows (np_repeat (np_arange n) 2) (np_tile [t0; t1] n) (interleave left right)).

(** collection.py 413-465 [from_tensor]: the tensor is a list of time series,
    each a list of rows; [sort_index(level=0)] sorts by ID and then by time
    (sort_remaining=True), here a stable insertion sort. *)
Definition row_le (a b : row V) : bool :=
  (rid a <? rid b) || ((rid a =? rid b) && (rtime a <=? rtime b)).

Fixpoint insert_row (a : row V) (l : frame) : frame :=
  match l with
  | [] => [a]
  | b :: r => if row_le a b then a :: l else b :: insert_row a r
  end.

Definition sort_index (l : frame) : frame := fold_right insert_row [] l.

Definition from_tensor (tensor : list (list V)) (n_steps : nat)
    (ts_ids : option (list Z)) (tvals : option (list Z)) : result frame :=
  let m := length tensor in
  match (match ts_ids with
         | None => Ok (np_arange m)
         | Some l => if negb (length l =? m)%nat then Err ValueError
                     else if negb (length (np_unique l) =? length l)%nat then Err ValueError
                     else Ok l
         end) with
  | Err e => Err e
  | Ok i =>
      match (match tvals with
             | None => Ok (np_arange n_steps)
             | Some t => if negb (length t =? n_steps)%nat then Err ValueError else Ok t
             end) with
      | Err e => Err e
      | Ok t => tsc (sort_index (zip_rows (np_repeat i n_steps) (np_tile t m) (concat tensor)))
      end
  end.

(** collection.py 741-750 (with 724-739) [from_frame_list] for frames that are
    single time series given by (time, value) lists with equal columns (the
    column check 683-695 and the splitting of multi-series frames 710-717 are
    not modelled). *)
Definition series_rows (i : Z) (s : list (Z * V)) : frame :=
  map (fun p => mkRow i (fst p) (snd p)) s.

Definition from_frame_list (frames : list (list (Z * V))) (ts_ids : option (list Z))
  : result frame :=
  match frames with
  | [] => Err ValueError
  | _ =>
    let i := match ts_ids with None => np_arange (length frames) | Some l => l end in
    if negb (length i =? length frames)%nat
       || negb (length (np_unique i) =? length frames)%nat
    then Err ValueError
    else
      match map_result (fun p => tsc (series_rows (fst p) (snd p))) (combine i frames) with
      | Err e => Err e
      | Ok l => tsc (concat l)
      end
  end.

(** collection.py 1298-1322 [itertimeseries]: [groupby(level="ID")] visits the
    IDs in increasing order. *)
Definition series (F : frame) (i : Z) : list (Z * V) :=
  map (fun r => (rtime r, rval r)) (filter (fun r => rid r =? i) F).

Definition itertimeseries (F : frame) : list (Z * list (Z * V)) :=
  map (fun i => (i, series F i)) (ids F).

(** collection.py 1416-1474 [insert_ts]; [df] is a single time series given by
    its (time, value) rows.  Column and dtype checks are outside the model. *)
Definition zmax (l : list Z) : Z :=
  match l with [] => 0 | x :: r => fold_left Z.max r x end.

Definition insert_ts (F : frame) (df : list (Z * V)) (ts_id : option Z) : result frame :=
  let i := match ts_id with None => zmax (ids F) + 1 | Some i => i end in
  if existsb (Z.eqb i) (ids F) then Err ValueError
  else tsc (F ++ series_rows i df).

(** The ID used by [insert_ts]: collection.py 1438-1441 (see above). *)
Definition chosen_id (F : frame) (o : option Z) : Z :=
  match o with None => (zmax (ids F) + 1)%Z | Some i => i end.

(** A client that inserts one series after another: every operation must succeed; the log records the
    ID under which each series was stored *)
Fixpoint insert_all (F : frame) (ops : list (list (Z * V) * option Z))
  : result (frame * list (Z * list (Z * V))) :=
  match ops with
  | [] => Ok (F, [])
  | (s, o) :: r =>
      match insert_ts F s o with
      | Err e => Err e
      | Ok G => match insert_all G r with
                | Err e => Err e
                | Ok (H, log) => Ok (H, (chosen_id F o, s) :: log)
                end
      end
  end.

(** ** Selecting rows *)

(** pandas [groupby(level 0).head(n)] / [.tail(n)]: a row is kept if fewer than
    [n] rows of its group precede (follow) it; storage order is kept. *)
Fixpoint head_aux (n : nat) (before : list Z) (F : frame) : frame :=
  match F with
  | [] => []
  | r :: F' => if (np_count before (rid r) <? n)%nat
               then r :: head_aux n (rid r :: before) F'
               else head_aux n (rid r :: before) F'
  end.
Definition groupby_head (n : nat) (F : frame) : frame := head_aux n [] F.

Fixpoint groupby_tail (n : nat) (F : frame) : frame :=
  match F with
  | [] => []
  | r :: F' => if (np_count (ids_index F') (rid r) <? n)%nat
               then r :: groupby_tail n F' else groupby_tail n F'
  end.

(** collection.py 1610-1638 and 1640-1668; the result is again validated
    (constructor). *)
Definition initial_states (F : frame) (n : nat) : result frame :=
  if (n <? 1)%nat then Err ValueError
  else match check_required_min_timesteps F n with
       | Err e => Err e
       | Ok _ => tsc (groupby_head n F)
       end.

Definition final_states (F : frame) (n : nat) : result frame :=
  if (n <? 1)%nat then Err ValueError
  else match check_required_min_timesteps F n with
       | Err e => Err e
       | Ok _ => tsc (groupby_tail n F)
       end.

(** accessor.py 689-702 [drop_last_n_samples]: drop by label; labels are unique. *)
Definition drop_last_n_samples (F : frame) (n : nat) : result frame :=
  match check_required_min_timesteps F n with
  | Err e => Err e
  | Ok _ =>
      let drop := index (groupby_tail n F) in
      tsc (filter (fun r => negb (existsb (pair_eqb (rid r, rtime r)) drop)) F)
  end.

(** collection.py 1590-1608 [select_time_values] for rows that are sorted by ID and time:
    the rows whose time is in the (sorted) list, in storage order. *)
Definition select_time_values (F : frame) (ts : list Z) : frame :=
  filter (fun r => existsb (Z.eqb (rtime r)) ts) F.

Definition is_lexsorted (F : frame) : bool :=
  forallb (fun p => row_le (fst p) (snd p)) (combine F (tl F)).

(** The same for arbitrary rows: if the index is not sorted and more than one time value is
    selected, pandas orders the rows by the position of their time in the list (which has no
    duplicates), and rows with equal time in storage order. *)
Definition select_times (F : frame) (ts : list Z) : frame :=
  if is_lexsorted F || (length ts <=? 1)%nat then select_time_values F ts
  else flat_map (fun t => filter (fun r => rtime r =? t) F) ts.

(** accessor.py 457-467: the while loop over windows; [fuel] bounds the number
    of iterations (each one advances [start] by [offset] >= 1, so the number of
    time values plus one is enough: [window_fuel]). *)
Fixpoint window_loop (fuel start window offset : nat) (tv : list Z) : list (list Z) :=
  match fuel with
  | O => []
  | S f => if (start + window <=? length tv)%nat
           then firstn window (skipn start tv) :: window_loop f (start + offset) window offset tv
           else []
  end.

Definition windows_of (F : frame) (window offset : nat) : list frame :=
  let tv := time_values F in
  map (select_times F) (window_loop (S (length tv)) 0 window offset tv).

(** accessor.py 393-467 [iter_timevalue_window]; with per_time_series=True the
    groups are visited by increasing ID. *)
Definition group (F : frame) (i : Z) : frame := filter (fun r => rid r =? i) F.

Definition iter_timevalue_window (k : tkind) (F : frame) (window offset : Z)
    (per_time_series : bool) : result (list frame) :=
  match check_const_time_delta k F with
  | Err e => Err e
  | Ok _ =>
      if (window <=? 0) || (offset <=? 0) then Err ValueError
      else
        let w := Z.to_nat window in
        let o := Z.to_nat offset in
        if per_time_series
        then Ok (flat_map (fun i => windows_of (group F i) w o) (ids F))
        else Ok (windows_of F w o)
  end.

(** ** accessor.py 845-967 [assign_ids_train_test]

    The index arrays are lists of positions.  886: strictly increasing; 898-902
    disjoint; 905-906 an index out of range raises IndexError. *)
Fixpoint strictly_inc (l : list nat) : bool :=
  match l with
  | x :: ((y :: _) as r) => (x <? y)%nat && strictly_inc r
  | _ => true
  end.

Definition nat_mem (x : nat) (l : list nat) : bool := existsb (Nat.eqb x) l.

Definition bool_diff (l : list bool) : list bool :=
  map (fun p => xorb (fst p) (snd p)) (combine l (tl l)).

Definition train_test_new_ids (F : frame) (train test : list nat) : list nat :=
  let n := length F in
  let mask_test := map (fun i => nat_mem i test) (seq 0 n) in
  let change_fold := false :: bool_diff mask_test in
  let change_id := false :: map (fun d => negb (d =? 0)) (np_diff (ids_index F)) in
  let dropped := map (fun i => negb (nat_mem i train) && negb (nat_mem i test)) (seq 0 n) in
  let mask := map (fun p => (fst (fst p) || snd (fst p)) || snd p)
                  (combine (combine change_fold change_id) dropped) in
  np_cumsum (map (fun b : bool => if b then 1%nat else 0%nat) mask).

(** [iloc[indices]] of the re-labelled frame; the conversion to TSCDataFrame
    falls back to a plain DataFrame with the same rows (951-961), so the rows
    are returned in either case. *)
Definition assign_ids_train_test (F : frame) (train test : list nat)
  : result (frame * frame) :=
  if negb (strictly_inc train && strictly_inc test) then Err ValueError
  else if existsb (fun i => nat_mem i test) train then Err ValueError
  else if existsb (fun i => (length F <=? i)%nat) (train ++ test) then Err IndexError
  else
    let new := map Z.of_nat (train_test_new_ids F train test) in
    let G := zip_rows new (time_index F) (to_numpy F) in
    Ok (pick (fun i => nat_mem i train) G, pick (fun i => nat_mem i test) G).

End Model.
