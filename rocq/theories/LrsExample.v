(** * A function that meets the contract of np.argpartition (sorting all positions). *)

From Coq Require Import List QArith Bool Lia PeanoNat Sorting.Permutation Sorting.Sorted Lqa.
From Verif Require Import LrsModel LrsSpec.
Import ListNotations.
Local Open Scope nat_scope.

Definition np_leb (a b : res) : bool :=
  match a, b with
  | _, NaN => true
  | NaN, Val _ => false
  | Val p, Val q => Qle_bool p q
  end.

Fixpoint insert_by (l : list res) (i : nat) (js : list nat) : list nat :=
  match js with
  | [] => [i]
  | j :: js' => if np_leb (nth i l NaN) (nth j l NaN) then i :: js else j :: insert_by l i js'
  end.

Definition argsort (l : list res) : list nat := fold_right (insert_by l) [] (seq 0 (length l)).
Definition ex_argpartition (l : list res) (k : nat) : list nat := argsort l.

Lemma np_leb_iff a b : np_leb a b = true <-> np_le a b.
Proof. destruct a, b; simpl; try tauto; try apply Qle_bool_iff. split; [discriminate|tauto]. Qed.

Lemma np_le_total a b : np_leb a b = false -> np_le b a.
Proof.
  destruct a as [p|], b as [q|]; simpl; try discriminate; auto. intro H.
  destruct (Qlt_le_dec q p) as [L|L]; [lra|]. apply Qle_bool_iff in L. congruence.
Qed.

Lemma np_le_trans a b c : np_le a b -> np_le b c -> np_le a c.
Proof. destruct a, b, c; simpl; try tauto; intros; lra. Qed.

Lemma np_le_refl a : np_le a a.
Proof. destruct a; simpl; auto. lra. Qed.

Lemma insert_by_perm l i js : Permutation (insert_by l i js) (i :: js).
Proof.
  induction js as [|j js IH]; simpl; auto. destruct np_leb; auto. rewrite IH. apply perm_swap.
Qed.

Lemma argsort_perm l : Permutation (argsort l) (seq 0 (length l)).
Proof.
  unfold argsort. induction (seq 0 (length l)) as [|a s IH]; simpl; auto.
  rewrite insert_by_perm. now apply perm_skip.
Qed.

Definition key_le l i j := np_le (nth i l NaN) (nth j l NaN).

Lemma insert_by_sorted l i js : StronglySorted (key_le l) js -> StronglySorted (key_le l) (insert_by l i js).
Proof.
  induction js as [|j js IH]; simpl; intro H; [repeat constructor|].
  inversion H as [|x y Hs Hj]; subst. destruct (np_leb (nth i l NaN) (nth j l NaN)) eqn:E.
  - apply np_leb_iff in E. constructor; auto. constructor; auto.
    rewrite Forall_forall in *. intros x Hx. eapply np_le_trans; [exact E|]. now apply Hj.
  - apply np_le_total in E. constructor; auto. rewrite Forall_forall in *. intros x Hx.
    apply (Permutation_in _ (insert_by_perm l i js)) in Hx as [<-|Hx]; [exact E|]. now apply Hj.
Qed.

Lemma argsort_sorted l : StronglySorted (key_le l) (argsort l).
Proof.
  unfold argsort. induction (seq 0 (length l)) as [|a s IH]; simpl; [constructor|]. now apply insert_by_sorted.
Qed.

Lemma sorted_split {A} (R : A -> A -> Prop) l k i j : StronglySorted R l ->
  In i (firstn k l) -> In j (skipn k l) -> R i j.
Proof.
  intro H. revert k. induction H as [|a l Hs IH Ha]; intros [|k]; simpl; try tauto.
  intros [<-|Hi] Hj; [|now apply (IH k)].
  rewrite Forall_forall in Ha. apply Ha. rewrite <- (firstn_skipn k l). apply in_or_app. now right.
Qed.

Lemma ex_partitions : Partitions ex_argpartition.
Proof.
  intros l k _. split; [apply argsort_perm|].
  intros i j Hi Hj. exact (sorted_split _ _ _ _ _ (argsort_sorted l) Hi Hj).
Qed.
