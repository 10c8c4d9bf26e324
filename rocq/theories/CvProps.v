(** * Properties C12, C13: cross-validation splits. *)

From Coq Require Import List ZArith Bool Arith Lia Sorted Permutation.
Import ListNotations.
From Verif Require Import Np TscModel TscSpec TscProofs TscOps CvModel CvSpec CvProofs CvWindow.
Close Scope Z_scope.
Open Scope nat_scope.

Notation rw i t v := (mkRow i%Z t%Z v%Z) (only parsing).
Ltac valid := match goal with |- ValidRows ?F => apply (proj1 (tsc_ok F F)); reflexivity end.

(** Three series with the same two time values, IDs stored as 4, 1, 9. *)
Definition ex3 : list (row Z) :=
  [rw 4 0 10; rw 4 1 11; rw 1 0 20; rw 1 1 21; rw 9 0 30; rw 9 1 31].

(** ** C12 *)

(** [perm] is the (possibly shuffled) order in which the series are dealt out. *)
Theorem C12_series_split :
  forall (V : Type) (F : list (row V)) k perm splits,
    ValidRows F -> Permutation perm (seq 0 (n_timeseries F)) ->
    kfold_series F k perm = Ok splits ->
    length splits = k /\ LeakFree (length F) splits /\
    (forall tr te p q, In (tr, te) splits -> p < length F -> q < length F ->
       id_at F p = id_at F q -> (In p te <-> In q te)).
Proof. exact @kfold_series_spec. Qed.
Print Assumptions C12_series_split.

Theorem C12_time_split :
  forall (V : Type) (F : list (row V)) k splits,
    ValidRows F -> kfold_time F k = Ok splits ->
    length splits = k /\ LeakFree (length F) splits /\
    (forall tr te, In (tr, te) splits -> exists t0 t1, forall p t,
       time_at F p = Some t -> (In p te <-> (t0 <= t <= t1)%Z)).
Proof. exact @kfold_time_spec. Qed.
Print Assumptions C12_time_split.

Theorem C12_series_split_succeeds :
  forall (V : Type) (F : list (row V)) k perm,
    is_equal_length F = true -> 2 <= k <= n_timeseries F -> exists splits, kfold_series F k perm = Ok splits.
Proof. exact @kfold_series_ok. Qed.
Print Assumptions C12_series_split_succeeds.

Theorem C12_time_split_succeeds :
  forall (V : Type) (F : list (row V)) k,
    is_same_time_values F = true -> 2 <= k <= steps_int F -> exists splits, kfold_time F k = Ok splits.
Proof. exact @kfold_time_ok. Qed.
Print Assumptions C12_time_split_succeeds.

Example C12_series_example :
  ValidRows ex3 /\ Permutation [2; 0; 1] (seq 0 (n_timeseries ex3)) /\
  kfold_series ex3 2 [2; 0; 1] = Ok [([2; 3], [0; 1; 4; 5]); ([0; 1; 4; 5], [2; 3])].
Proof.
  split; [valid|]. split; [|reflexivity]. simpl.
  apply (perm_trans (l' := [0; 2; 1])); [apply perm_swap|]. constructor. apply perm_swap.
Qed.
Example C12_time_example :
  kfold_time ex3 2 = Ok [([1; 3; 5], [0; 2; 4]); ([0; 2; 4], [1; 3; 5])].
Proof. reflexivity. Qed.

(** ** C13 *)

Theorem C13_window_splits :
  forall (V : Type) (F : list (row V)) k w o mn splits,
    ValidRows F -> IdsSorted F -> 1 <= w -> window_fold k F w o mn = Ok splits ->
    splits = filter (fun s => negb (length (fst s) =? 0))
               (map (fun te => (train_rows F mn te, te)) (windows_from_end F w o (rev (ids F)))).
Proof. exact (fun V F k w o mn splits HV HS => window_fold_spec F HV HS k w o mn splits). Qed.
Print Assumptions C13_window_splits.

Theorem C13_windows_disjoint :
  forall (V : Type) (F : list (row V)) k w o mn splits,
    ValidRows F -> IdsSorted F -> 1 <= w -> window_fold k F w o mn = Ok splits ->
    NoDup (concat (map snd splits)).
Proof. exact @window_fold_disjoint. Qed.
Print Assumptions C13_windows_disjoint.

(** Two series of lengths 7 and 3. *)
Definition ex73 : list (row Z) :=
  [rw 0 0 0; rw 0 1 0; rw 0 2 0; rw 0 3 0; rw 0 4 0; rw 0 5 0; rw 0 6 0; rw 2 8 0; rw 2 9 0; rw 2 10 0].

Example C13_example_valid : ValidRows ex73 /\ IdsSorted ex73.
Proof. split; [valid|]. apply lexsorted_iff. reflexivity. Qed.

Example C13_example :
  window_fold KInt ex73 2 1 (Some 2) =
  Ok [([0; 1; 2; 3; 4; 5; 6], [8; 9]);
      ([0; 1; 2; 3; 4; 7; 8; 9], [5; 6]);
      ([0; 1; 4; 5; 6; 7; 8; 9], [2; 3])].
Proof. reflexivity. Qed.

(** Without [IdsSorted] a test window straddles two series. *)
Theorem C13_unsorted_ids_refuted :
  exists (F : list (row Z)) splits tr te p q,
    ValidRows F /\ window_fold KInt F 2 0 None = Ok splits /\ In (tr, te) splits /\
    In p te /\ In q te /\ id_at F p <> id_at F q.
Proof.
  exists [rw 5 0 0; rw 5 1 0; rw 2 3 0; rw 2 4 0; rw 2 5 0].
  eexists. exists [0; 3; 4], [1; 2], 1, 2. split; [valid|]. split; [reflexivity|].
  split; [right; left; reflexivity|]. split; [left; reflexivity|]. split; [right; left; reflexivity|]. discriminate.
Qed.
Print Assumptions C13_unsorted_ids_refuted.

(** A window that leaves no training data is not skipped: the call fails. *)
Theorem C13_no_training_data_refuted :
  exists (F : list (row Z)), ValidRows F /\ IdsSorted F /\ window_fold KInt F 2 0 None = Err IndexError.
Proof.
  exists [rw 0 0 0; rw 0 1 0]. split; [valid|]. split; [apply lexsorted_iff; reflexivity|reflexivity].
Qed.
Print Assumptions C13_no_training_data_refuted.
