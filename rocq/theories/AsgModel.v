(** * Model of assign_ids_const_delta and assign_ids_sequential (proof-free).

    Source: datafold/pcfold/timeseries/accessor.py (cited as accessor.py). *)

From Coq Require Import List ZArith Bool Arith.
Import ListNotations.
From Verif Require Import Np TscModel.
Open Scope nat_scope.

Section Model.
Context {V : Type}.
Notation frame := (list (row V)).

(** accessor.py 836-843 [assign_ids_sequential]: the sorted distinct IDs are replaced by
    0, 1, ... (new levels of the index, the codes stay). *)
Fixpoint position (x : Z) (l : list Z) : nat :=
  match l with
  | [] => 0
  | y :: r => if (x =? y)%Z then 0 else S (position x r)
  end.

Definition assign_ids_sequential (F : frame) : result frame :=
  tsc (map (fun r => mkRow (Z.of_nat (position (rid r) (ids F))) (rtime r) (rval r)) F).

(** [second_diff[mask] = 0]; only the truth values of [second_diff] are used. *)
Definition clear (mask s : list bool) : list bool :=
  map (fun p => negb (fst p) && snd p) (combine mask s).

(** accessor.py 1016-1056: the samples that start a new series.  [first_diff] begins with
    infinity, so the first second difference is not zero (1024-1027), a zero is appended
    (1028). *)
Definition indicator (times : list Z) : list bool :=
  let first_diff := np_diff times in
  let second_diff := true :: map (fun x => negb (x =? 0)%Z) (np_diff first_diff) ++ [false] in
  let both := map (fun p => fst p && snd p) (combine (removelast second_diff) (tl second_diff)) in
  let second_diff := clear (false :: both) second_diff in
  let second_diff := clear (both ++ [false]) second_diff in
  map (fun p => fst p || snd p) (combine (false :: both) second_diff).

(** accessor.py 1058-1059. *)
Definition new_ids (min_id : Z) (times : list Z) : list Z :=
  map (fun k => (Z.of_nat k + min_id)%Z)
      (np_cumsum (map (fun b : bool => if b then 1 else 0) (indicator times))).

(** accessor.py 1000-1091 [split_irregular_time_series]; [local] are the rows of one series,
    None means that all samples are dropped. *)
Definition split_irregular (drop_samples : bool) (min_id : Z) (local : frame)
  : result (option frame) :=
  match local with
  | [_] => if drop_samples then Ok None else Err ValueError
  | [_; _] => Ok (Some local)
  | _ =>
      let new := new_ids min_id (time_index local) in
      let rows := zip_rows new (time_index local) (to_numpy local) in
      if drop_samples then
        let kept := filter (fun r => negb (np_count new (rid r) =? 1)) rows in
        if length kept =? 2 then Ok None
        else match tsc kept with Err e => Err e | Ok G => Ok (Some G) end
      else if existsb (fun i => np_count new i =? 1) new then Err ValueError
      else match tsc rows with Err e => Err e | Ok G => Ok (Some G) end
  end.

(** accessor.py 1093-1111: the loop over the series by increasing ID.  A series with a sampling
    interval only receives a new ID (1099-1102). *)
Fixpoint assign_loop (k : tkind) (drop_samples : bool) (F : frame) (l : list Z) (min_id : Z)
  : result (list frame) :=
  match l with
  | [] => Ok []
  | i :: l' =>
      let local := group F i in
      match (match delta_time k local with
             | Err e => Err e
             | Ok (DtScalar None) => split_irregular drop_samples min_id local
             | Ok _ => match tsc (map (fun r => mkRow min_id (rtime r) (rval r)) local) with
                       | Err e => Err e
                       | Ok G => Ok (Some G)
                       end
             end) with
      | Err e => Err e
      | Ok None => if drop_samples then assign_loop k drop_samples F l' min_id else Err RuntimeError
      | Ok (Some G) =>
          match assign_loop k drop_samples F l' (zmax (ids G) + 1)%Z with
          | Err e => Err e
          | Ok Gs => Ok (G :: Gs)
          end
      end
  end.

(** accessor.py 969-1127 [assign_ids_const_delta] (the warning in 1117-1123 is not modelled);
    [pd.concat] validates the collection. *)
Definition assign_ids_const_delta (k : tkind) (drop_samples : bool) (F : frame)
  : result (option frame) :=
  match assign_loop k drop_samples F (ids F) 0 with
  | Err e => Err e
  | Ok [] => Ok None
  | Ok Gs => match tsc (concat Gs) with
             | Err e => Err e
             | Ok G => match assign_ids_sequential G with
                       | Err e => Err e
                       | Ok H => Ok (Some H)
                       end
             end
  end.

End Model.
