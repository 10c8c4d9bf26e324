(** * Specification of the reconstruction with control input. *)

From Coq Require Import List ZArith Bool Arith Sorted.
Import ListNotations.
From Verif Require Import Np TscModel TscSpec.
Open Scope Z_scope.

Section Spec.
Context {V W S : Type}.
Variable enc : list V -> S.
Variable step : S -> W -> S.
Variable out : S -> V.

(** The states reached from [x] under the control samples [us]: the first one is
    [x] itself. *)
Fixpoint states (x : S) (us : list W) : list S :=
  match us with
  | [] => [x]
  | u :: us' => x :: states (step x u) us'
  end.

(** The rows of a series with ID [i]: the states starting from the dictionary state
    of the samples [ic], at the times [ts], under the controls [us]. *)
Definition controlled_series (i : Z) (ic : list V) (ts : list Z) (us : list W) : list (row V) :=
  map (fun p => mkRow i (fst p) (out (snd p))) (combine ts (states (enc ic) us)).

(** The reconstruction of series [i] of [F] with control [G] from its own first [n]
    samples. *)
Definition controlled_reconstruction (F : list (row V)) (G : list (row W)) (n : nat) (i : Z) : list (row V) :=
  controlled_series i (map rval (firstn n (rows_of F i))) (skipn (n - 1) (times_of F i))
                    (map rval (rows_of G i)).

(** Every series of [F] has its control in [G], one sample for every step from the
    n-th sample of the series on; [G] has no other series. *)
Definition ControlFor (F : list (row V)) (G : list (row W)) (n : nat) : Prop :=
  (forall i, Occurs G i <-> Occurs F i) /\
  (forall i, Occurs F i -> times_of G i = removelast (skipn (n - 1) (times_of F i))).

(** The times of series [i], counted from its first sample. *)
Definition elapsed_times (F : list (row V)) (i : Z) : list Z :=
  map (fun t => t - hd 0 (times_of F i)) (times_of F i).

(** The same, but with the times of the control counted from the start of the
    series of [F]. *)
Definition ControlElapsed (F : list (row V)) (G : list (row W)) (n : nat) : Prop :=
  (forall i, Occurs G i <-> Occurs F i) /\
  (forall i, Occurs F i -> times_of G i = removelast (skipn (n - 1) (elapsed_times F i))).

(** The rows of [G] for window [k]: positions [n - 1, ..., w - 2] of the control samples. *)
Definition control_window (n w : nat) (W0 : list (row W)) : list (row W) :=
  skipn (n - 1) (firstn (w - 1) W0).

(** The reconstruction of window number [k]: [z = (k, (X, U))] with the rows of the
    window and those of its control. *)
Definition controlled_window (n w : nat) (z : nat * (list (row V) * list (row W))) : list (row V) :=
  controlled_series (Z.of_nat (fst z)) (map rval (firstn n (fst (snd z))))
    (skipn (n - 1) (map rtime (fst (snd z)))) (map rval (control_window n w (snd (snd z)))).

End Spec.
