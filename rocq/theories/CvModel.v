(** * Model of the cross-validation splitters (proof-free).

    Source: datafold/pcfold/timeseries/metric.py (cited as metric.py).
    A split is a pair (train positions, test positions). *)

From Coq Require Import List ZArith Bool Arith.
Import ListNotations.
From Verif Require Import Np TscModel.
Close Scope Z_scope.
Open Scope nat_scope.

(** [np.sort] of positions. *)
Fixpoint nat_insert (x : nat) (l : list nat) : list nat :=
  match l with
  | [] => [x]
  | y :: r => if x <=? y then x :: l else y :: nat_insert x r
  end.
Definition nat_sort (l : list nat) : list nat := fold_right nat_insert [] l.

(** scikit-learn [KFold.split] (library, documented behaviour): with m samples
    and k splits the first [m mod k] folds have size [m / k + 1], the others
    [m / k]; folds are consecutive slices of the (possibly shuffled) index array
    [perm] ([perm = seq 0 m] for shuffle=False); train and test indices are
    obtained by a boolean mask, hence increasing. *)
Definition fold_sizes (m k : nat) : list nat :=
  map (fun j => m / k + (if j <? m mod k then 1 else 0)) (seq 0 k).

Fixpoint slices (sizes : list nat) (l : list nat) : list (list nat) :=
  match sizes with
  | [] => []
  | s :: r => firstn s l :: slices r (skipn s l)
  end.

Definition kfold (m k : nat) (perm : list nat) : result (list (list nat * list nat)) :=
  if k <=? 1 then Err ValueError
  else if m <? k then Err ValueError
  else Ok (map (fun fold => (filter (fun x => negb (nat_mem x fold)) (seq 0 m),
                             filter (fun x => nat_mem x fold) (seq 0 m)))
               (slices (fold_sizes m k) perm)).

Section Model.
Context {V : Type}.
Notation frame := (list (row V)).

(** [n_timesteps] where the guard made it an integer. *)
Definition steps_int (F : frame) : nat :=
  match n_timesteps F with NInt n => n | NSeries _ => 0 end.

(** metric.py 642-692 [TSCKfoldSeries.split]: [np.arange(N).reshape(m, n)] has
    row a = [a*n, ..., a*n + n - 1]. *)
Definition kfold_series (F : frame) (k : nat) (perm : list nat)
  : result (list (list nat * list nat)) :=
  if negb (is_equal_length F) then Err NotImplementedError
  else
    let m := n_timeseries F in
    let n := steps_int F in
    match kfold m k perm with
    | Err e => Err e
    | Ok l =>
        let rows := flat_map (fun a => seq (a * n) n) in
        Ok (map (fun p => (nat_sort (rows (fst p)), nat_sort (rows (snd p)))) l)
    end.

(** metric.py 733-769 [TSCKFoldTime.split]: [np.arange(N).reshape((n, m),
    order="F")] has entry (t, s) = s*n + t; KFold without shuffling. *)
Definition kfold_time (F : frame) (k : nat) : result (list (list nat * list nat)) :=
  if negb (is_same_time_values F) then Err NotImplementedError
  else
    let m := n_timeseries F in
    let n := steps_int F in
    match kfold n k (seq 0 n) with
    | Err e => Err e
    | Ok l =>
        let rows := flat_map (fun t => map (fun s => s * n + t) (seq 0 m)) in
        Ok (map (fun p => (nat_sort (rows (fst p)), nat_sort (rows (snd p)))) l)
    end.

(** ** TSCWindowFoldTime *)

(** [np.sort] of the reflected IDs. *)
Fixpoint z_insert (x : Z) (l : list Z) : list Z :=
  match l with
  | [] => [x]
  | y :: r => if (x <=? y)%Z then x :: l else y :: z_insert x r
  end.
Definition z_sort (l : list Z) : list Z := fold_right z_insert [] l.

(** metric.py 858-872 [_reversed_ids_and_indices_tsc]: IDs |id - max| sorted,
    times 0..N-1, value = position counted from the end. *)
Definition reversed_indices (F : frame) : list (row nat) :=
  let mx := zmax (ids F) in
  let N := length F in
  map (fun p => mkRow (fst (fst p)) (snd (fst p)) (snd p))
      (combine (combine (z_sort (map (fun i => Z.abs (i - mx)) (ids_index F))) (np_arange N))
               (rev (seq 0 N))).

(** accessor.py 303-315 [check_non_overlapping_timeseries]. *)
Definition check_non_overlapping (F : frame) : result unit :=
  if existsb (fun t => 1 <? np_count (time_index F) t) (time_values F)
  then Err TSCException else Ok tt.

(** metric.py 916-934: dropping pieces shorter than [min]; [None] if the split
    is skipped (935).  Dropping every series of the frame leaves an empty
    TSCDataFrame, whose constructor raises an IndexError (see [validate_index]). *)
Definition drop_short (Tr : list (row nat)) (mn : option nat) : result (list (row nat)) :=
  match mn with
  | None => Ok Tr
  | Some k =>
      match n_timesteps Tr with
      | NSeries l =>
          let keep := map fst (filter (fun p => negb (snd p <? k)) l) in
          if length keep =? length l then Ok Tr
          else tsc (filter (fun r => existsb (Z.eqb (rid r)) keep) Tr)
      | NInt n => if n <? k then Ok [] else Ok Tr
      end
  end.

(** metric.py 903-937: one window.  [drop(test_tsc.index)] constructs a frame
    and hence validates it (an empty one raises IndexError). *)
Definition window_split (G W : list (row nat)) (mn : option nat)
  : result (list (list nat * list nat)) :=
  let inW := fun r => existsb (pair_eqb (rid r, rtime r)) (index W) in
  match tsc (filter (fun r => negb (inW r)) G) with
  | Err e => Err e
  | Ok T =>
      match assign_ids_train_test G (map Z.to_nat (time_values T)) (map Z.to_nat (time_values W)) with
      | Err e => Err e
      | Ok (Tr, Te) =>
          match drop_short Tr mn with
          | Err e => Err e
          | Ok Tr' =>
              let train := rev (to_numpy Tr') in
              let test := rev (to_numpy Te) in
              if length train =? 0 then Ok [] else Ok [(nat_sort train, nat_sort test)]
          end
      end
  end.

(** metric.py 874-937 [TSCWindowFoldTime.split] (the generator as a list; an
    exception raised while iterating makes the whole result an error). *)
Definition window_fold (k : tkind) (F : frame) (w o : nat) (mn : option nat)
  : result (list (list nat * list nat)) :=
  if forallb (fun n => n <? w) (nsteps_values (n_timesteps F)) then Err ValueError
  else
    let G := reversed_indices F in
    match tsc G with
    | Err e => Err e
    | Ok _ =>
      match check_non_overlapping F with
      | Err e => Err e
      | Ok _ =>
        match check_const_time_delta k F with
        | Err e => Err e
        | Ok _ =>
          match iter_timevalue_window KInt G (Z.of_nat w) (Z.of_nat (w + o)) true with
          | Err e => Err e
          | Ok ws =>
              match map_result (fun W => window_split G W mn) ws with
              | Err e => Err e
              | Ok l => Ok (concat l)
              end
          end
        end
      end
    end.

(** metric.py 817-856: constructor checks. *)
Definition window_fold_init (w o : Z) (mn : option Z) : result (nat * nat * option nat) :=
  if (w <=? 0)%Z then Err ValueError
  else if (o <? 0)%Z then Err ValueError
  else match mn with
       | None => Ok (Z.to_nat w, Z.to_nat o, None)
       | Some m => if (m <=? 0)%Z then Err ValueError
                   else Ok (Z.to_nat w, Z.to_nat o, Some (Z.to_nat m))
       end.

End Model.
