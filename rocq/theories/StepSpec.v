(** * Specification of the stepwise prediction. *)

From Coq Require Import List ZArith Bool Arith Sorted.
Import ListNotations.
From Verif Require Import Np TscModel TscSpec.
Open Scope Z_scope.

Section Spec.
Context {V : Type}.
Variable pred : list V -> Z -> V.

(** The last [n] elements. *)
Definition latest (n : nat) (l : list V) : list V := skipn (length l - n) l.

(** [past] continued at the times [ts], of which [t] is the current one: every state
    is the one-step prediction from the [n] states before it, also from predicted
    ones. *)
Fixpoint continued (n : nat) (past : list V) (t : Z) (ts : list Z) : list V :=
  match ts with
  | [] => past
  | u :: ts' => continued n (past ++ [pred (latest n past) (u - t)]) u ts'
  end.

(** The prediction of series [i] at the times [t :: ts]. *)
Definition stepwise_series (F : list (row V)) (n : nat) (t : Z) (ts : list Z) (i : Z) : list (row V) :=
  map (fun p => mkRow i (fst p) (snd p))
      (combine (t :: ts) (skipn (n - 1) (continued n (map rval (rows_of F i)) t ts))).

End Spec.
