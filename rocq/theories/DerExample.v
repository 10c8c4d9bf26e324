(** * A concrete collection for the theorems about finite differences. *)

From Coq Require Import List ZArith Lia.
From mathcomp Require Import all_ssreflect all_algebra.
From Verif Require Import Np TscModel TscSpec TscProofs TscDt DerModel DerSpec DerList DerProofs.
Import Order.Theory GRing.Theory Num.Theory.
Set Implicit Arguments.
Unset Strict Implicit.
Unset Printing Implicit Defensive.
Local Open Scope ring_scope.

(** the central difference of first order, for every scheme *)
Definition ex_table (s : scheme) (order accuracy : nat) : seq (Z * rat) :=
  [:: (Zneg 1, - 2%:R^-1); (Z0, 0); (Zpos 1, 2%:R^-1)].

(** the squares of the time values, in two series *)
Definition ex_square (i t : Z) : row 'rV[rat]_1 := mkRow i t (const_mx (number rat_realFieldType t ^+ 2)).
Definition ex_times : seq (Z * Z) :=
  [:: (Zpos 3, Z0); (Zpos 3, Zpos 2); (Zpos 3, Zpos 4); (Zpos 3, Zpos 6); (Zpos 1, Zpos 1); (Zpos 1, Zpos 3); (Zpos 1, Zpos 5)].
Definition ex_F : list (row 'rV[rat]_1) := [seq ex_square p.1 p.2 | p <- ex_times].

Lemma ex_valid : ValidRows ex_F.
Proof. by have /tsc_ok [] : tsc ex_F = Ok ex_F by []. Qed.

Lemma ex_small : SmallSteps ex_F.
Proof.
have Hb r : List.In r ex_F -> Z.le Z0 (rtime r) /\ Z.lt (rtime r) (Zpos 100).
  by rewrite /ex_F /=; do !case=> [<- /=|]; try lia.
move=> a b [l [r E]] _.
have Ha : List.In a ex_F by rewrite E; apply: List.in_or_app; right; left.
have Hb' : List.In b ex_F by rewrite E; apply: List.in_or_app; right; right; left.
by move: (Hb a Ha) (Hb b Hb'); lia.
Qed.

Lemma ex_regular i : Occurs ex_F i -> Regular ex_F i (Zpos 2).
Proof. by move: i; apply/(delta_time_scalar_some ex_F (Zpos 2) ex_valid ex_small). Qed.

Lemma ex_extent s o a : Extent (ex_table s o a) (Zneg 1) (Zpos 1).
Proof.
split; [by exists (- 2%:R^-1); left|by exists 2%:R^-1; right; right; left| |by split].
by move=> p; rewrite /ex_table /=; do !case=> [<- /=|]; try lia.
Qed.

Lemma ex_order s : OrderConditions (ex_table s 1 2) 1 2.
Proof. by case=> [|[|[|//]]] _; rewrite /ex_table !big_cons big_nil. Qed.
