(** * C43: early stopping. *)

From mathcomp Require Import all_ssreflect all_algebra.
From Verif Require Import StopModel StopSpec StopProofs.
Import Order.Theory GRing.Theory Num.Theory.
Set Implicit Arguments.
Unset Strict Implicit.
Unset Printing Implicit Defensive.
Local Open Scope ring_scope.

(** delta = 0: training ends after the first epoch at which the last [patience] losses (at
    least one) all exceed the smallest loss before them, and otherwise with the last epoch. *)
Theorem C43_stops_after_patience :
  forall (R : realDomainType) (patience : nat) (losses : seq R),
  FirstTime (Stagnates (maxn 1 patience)) losses (train patience 0 (map Some losses)).
Proof. exact: train_first. Qed.
Print Assumptions C43_stops_after_patience.

Example C43_example :
  train 2 0 (map Some [:: 5%:Z; 3%:Z; 4%:Z; 3%:Z; 7%:Z; 4%:Z; 1%:Z]) = 6%N /\
  Stagnates 2 [:: 5%:Z; 3%:Z; 4%:Z; 3%:Z; 7%:Z; 4%:Z].
Proof.
split=> //; exists [:: 5%:Z; 3%:Z; 4%:Z; 3%:Z], [:: 7%:Z; 4%:Z]; do 2!split=> //.
exists 3%:Z; split=> //; split=> x; rewrite !inE.
- by case/or4P=> /eqP ->.
- by case/orP=> /eqP ->.
Qed.

(** delta > 0: losses that grow by at most delta per epoch, so for instance k * delta in epoch
    k, never stop the training, whatever the patience. *)
Theorem C43_drift_refuted :
  forall (R : realDomainType) (patience : nat) (delta : R), 0 < delta ->
  (forall losses, SlowGrowth delta losses -> train patience delta (map Some losses) = size losses) /\
  (forall n, train patience delta [seq Some (k%:R * delta) | k <- iota 0 n] = n).
Proof.
move=> R p d d0; split=> [l|n]; first exact: slow_never.
rewrite -[RHS](size_iota 0) -(size_map (fun k : nat => k%:R * d)).
rewrite [X in train _ _ X](_ : _ = map Some [seq k%:R * d | k <- iota 0 n]); last by rewrite -map_comp.
apply: slow_never; elim: n 0%N => //= n IH k; case: n IH => //= n IH; split.
  by rewrite -add1n natrD mulrDl mul1r addrC.
exact: IH k.+1.
Qed.
Print Assumptions C43_drift_refuted.

(** Once the loss is NaN the training runs through all remaining epochs. *)
Theorem C43_nan_refuted :
  forall (R : realDomainType) (patience : nat) (delta : R) (losses : seq R) (n : nat),
  train patience delta (map Some losses) = size losses ->
  (losses = [::] \/ early_stop (foldl (update patience delta) (new_stopper R) (map Some losses)) = false) ->
  train patience delta (map Some losses ++ nseq n None) = (size losses + n)%N.
Proof. by move=> R p d l n H1 H2; apply: nan_never. Qed.
Print Assumptions C43_nan_refuted.
