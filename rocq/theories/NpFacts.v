(** * Facts about the NumPy primitives of Np.v. *)

From Coq Require Import List ZArith Bool Arith Lia Sorted Permutation.
From Coq Require Import ZifyBool ZifyNat.
Import ListNotations.
From Verif Require Import Np.
Open Scope Z_scope.

Lemma in_insert_u x y l : In y (insert_u x l) <-> y = x \/ In y l.
Proof.
  induction l as [|z r IH]; simpl.
  - intuition.
  - destruct (x <? z) eqn:E1; simpl; [intuition|].
    destruct (x =? z) eqn:E2; simpl.
    + assert (x = z) by lia. subst. intuition.
    + rewrite IH. intuition.
Qed.

Lemma in_np_unique y l : In y (np_unique l) <-> In y l.
Proof.
  unfold np_unique. induction l as [|x r IH]; cbn [fold_right In].
  - tauto.
  - rewrite in_insert_u, IH. intuition.
Qed.

Lemma insert_u_sorted x l :
  StronglySorted Z.lt l -> StronglySorted Z.lt (insert_u x l).
Proof.
  induction l as [|z r IH]; intros H; simpl.
  - repeat constructor.
  - inversion H as [|? ? Hs Hf]; subst.
    destruct (x <? z) eqn:E1.
    + constructor; [exact H|]. constructor; [lia|].
      rewrite Forall_forall in Hf |- *. intros w Hw. specialize (Hf w Hw). lia.
    + destruct (x =? z) eqn:E2; [exact H|].
      constructor; [apply IH; exact Hs|].
      rewrite Forall_forall in Hf |- *. intros w Hw.
      apply in_insert_u in Hw. destruct Hw as [->|Hw]; [lia|]. exact (Hf w Hw).
Qed.

Lemma np_unique_sorted l : StronglySorted Z.lt (np_unique l).
Proof.
  unfold np_unique. induction l as [|x r IH]; cbn [fold_right].
  - constructor.
  - apply insert_u_sorted. exact IH.
Qed.

Lemma sorted_lt_NoDup l : StronglySorted Z.lt l -> NoDup l.
Proof.
  induction 1 as [|x r Hs IH Hf]; constructor; [|exact IH].
  rewrite Forall_forall in Hf. intros Hin. specialize (Hf x Hin). lia.
Qed.

Lemma np_unique_NoDup l : NoDup (np_unique l).
Proof. apply sorted_lt_NoDup, np_unique_sorted. Qed.

(** Two strictly sorted lists with the same elements are equal. *)
Lemma sorted_ext l1 : forall l2,
  StronglySorted Z.lt l1 -> StronglySorted Z.lt l2 ->
  (forall x, In x l1 <-> In x l2) -> l1 = l2.
Proof.
  induction l1 as [|x r IH]; intros [|y s] H1 H2 Hin.
  - reflexivity.
  - destruct (proj2 (Hin y) (or_introl eq_refl)).
  - destruct (proj1 (Hin x) (or_introl eq_refl)).
  - inversion H1 as [|? ? H1s H1f]; inversion H2 as [|? ? H2s H2f]; subst.
    rewrite Forall_forall in H1f, H2f.
    assert (x = y).
    { destruct (proj1 (Hin x) (or_introl eq_refl)) as [E|E]; [auto|].
      destruct (proj2 (Hin y) (or_introl eq_refl)) as [E'|E']; [auto|].
      specialize (H1f _ E'). specialize (H2f _ E). lia. }
    subst y. f_equal. apply IH; auto.
    intros z. split; intros Hz.
    + destruct (proj1 (Hin z) (or_intror Hz)) as [E|E]; [|exact E].
      subst z. specialize (H1f _ Hz). lia.
    + destruct (proj2 (Hin z) (or_intror Hz)) as [E|E]; [|exact E].
      subst z. specialize (H2f _ Hz). lia.
Qed.

Lemma np_unique_of_sorted l : StronglySorted Z.lt l -> np_unique l = l.
Proof.
  intros H. apply sorted_ext; auto using np_unique_sorted.
  intros x. apply in_np_unique.
Qed.

Lemma np_unique_ext l1 l2 :
  (forall x, In x l1 <-> In x l2) -> np_unique l1 = np_unique l2.
Proof.
  intros H. apply sorted_ext; auto using np_unique_sorted.
  intros x. rewrite !in_np_unique. apply H.
Qed.

Lemma np_unique_length_le l : (length (np_unique l) <= length l)%nat.
Proof.
  apply NoDup_incl_length.
  - apply np_unique_NoDup.
  - intros x Hx. rewrite in_np_unique in Hx. exact Hx.
Qed.

(** [len(np.unique(l)) == len(l)] exactly when there is no duplicate. *)
Lemma np_unique_length_NoDup l : length (np_unique l) = length l <-> NoDup l.
Proof.
  split; intros H.
  - apply (NoDup_incl_NoDup (l := np_unique l)).
    + apply np_unique_NoDup.
    + lia.
    + intros x Hx. rewrite in_np_unique in Hx. exact Hx.
  - apply Nat.le_antisymm; [apply np_unique_length_le|].
    apply NoDup_incl_length; [exact H|].
    intros x Hx. apply in_np_unique. exact Hx.
Qed.

Lemma np_unique_permutation l : NoDup l -> Permutation (np_unique l) l.
Proof.
  intros H. apply NoDup_Permutation; auto using np_unique_NoDup.
  intros x. apply in_np_unique.
Qed.

(** [len(np.unique(l)) == 1] exactly when [l] is a non-empty constant list. *)
Lemma np_unique_length_one l :
  length (np_unique l) = 1%nat <-> exists x, In x l /\ forall y, In y l -> y = x.
Proof.
  split.
  - intros H. destruct (np_unique l) as [|x [|? ?]] eqn:E; simpl in H; try lia.
    exists x. split.
    + apply in_np_unique. rewrite E. left; reflexivity.
    + intros y Hy. rewrite <- in_np_unique in Hy. rewrite E in Hy.
      destruct Hy as [Hy|[]]; auto.
  - intros (x & Hx & Hall).
    rewrite (np_unique_ext l [x]).
    + reflexivity.
    + intros y. split.
      * intros Hy. left. symmetry. auto.
      * intros [<-|[]]. exact Hx.
Qed.

(** ** Counting *)

Lemma np_count_app l1 l2 x :
  np_count (l1 ++ l2) x = (np_count l1 x + np_count l2 x)%nat.
Proof. unfold np_count. rewrite filter_app, app_length. reflexivity. Qed.

Lemma np_count_cons y l x :
  np_count (y :: l) x = ((if (x =? y)%Z then 1 else 0) + np_count l x)%nat.
Proof. unfold np_count. simpl. destruct (x =? y); reflexivity. Qed.

Lemma np_count_zero l x : ~ In x l -> np_count l x = 0%nat.
Proof.
  induction l as [|y r IH]; intros H; [reflexivity|].
  rewrite np_count_cons. rewrite IH by (intros Hc; apply H; right; exact Hc).
  destruct (x =? y) eqn:E; [|reflexivity].
  exfalso. apply H. left. lia.
Qed.

Lemma np_count_pos l x : In x l -> (1 <= np_count l x)%nat.
Proof.
  induction l as [|y r IH]; intros H; [destruct H|].
  rewrite np_count_cons. destruct H as [->|H].
  - rewrite Z.eqb_refl. lia.
  - specialize (IH H). lia.
Qed.

Lemma np_count_repeat x y n :
  np_count (repeat y n) x = if x =? y then n else 0%nat.
Proof.
  induction n as [|n IH]; simpl repeat.
  - destruct (x =? y); reflexivity.
  - rewrite np_count_cons, IH. destruct (x =? y); reflexivity.
Qed.

(** ** [pick] *)

Definition pick_from {A} (P : nat -> bool) (s : nat) (l : list A) : list A :=
  map snd (filter (fun p => P (fst p)) (combine (seq s (length l)) l)).

Lemma pick_is_pick_from {A} P (l : list A) : pick P l = pick_from P 0 l.
Proof. reflexivity. Qed.

Lemma pick_from_nil {A} P s : pick_from P s (@nil A) = [].
Proof. reflexivity. Qed.

Lemma pick_from_cons {A} P s (x : A) l :
  pick_from P s (x :: l) = if P s then x :: pick_from P (S s) l else pick_from P (S s) l.
Proof. unfold pick_from. simpl. destruct (P s); reflexivity. Qed.

Lemma pick_from_app {A} P (l1 l2 : list A) : forall s,
  pick_from P s (l1 ++ l2) = pick_from P s l1 ++ pick_from P (s + length l1)%nat l2.
Proof.
  induction l1 as [|x r IH]; intros s; simpl app.
  - simpl. rewrite Nat.add_0_r. reflexivity.
  - rewrite !pick_from_cons, IH. replace (S s + length r)%nat with (s + length (x :: r))%nat
      by (simpl; lia).
    destruct (P s); reflexivity.
Qed.

Lemma pick_from_all {A} P (l : list A) : forall s,
  (forall i, (s <= i < s + length l)%nat -> P i = true) -> pick_from P s l = l.
Proof.
  induction l as [|x r IH]; intros s H; [reflexivity|].
  rewrite pick_from_cons, (H s) by (simpl; lia). f_equal. apply IH.
  intros i Hi. apply H. simpl. lia.
Qed.

Lemma pick_from_ext {A} P Q (l : list A) : forall s,
  (forall i, (s <= i < s + length l)%nat -> P i = Q i) -> pick_from P s l = pick_from Q s l.
Proof.
  induction l as [|x r IH]; intros s H; [reflexivity|].
  rewrite !pick_from_cons, (H s) by (simpl; lia).
  rewrite (IH (S s)); [reflexivity|]. intros i Hi. apply H. simpl. lia.
Qed.

Lemma pick_from_map {A B} (f : A -> B) P l : forall s,
  pick_from P s (map f l) = map f (pick_from P s l).
Proof.
  induction l as [|x r IH]; intros s; [reflexivity|].
  simpl map. rewrite !pick_from_cons, IH. destruct (P s); reflexivity.
Qed.

Lemma in_pick_from {A} P (l : list A) : forall s x,
  In x (pick_from P s l) <-> exists i, P (s + i)%nat = true /\ nth_error l i = Some x.
Proof.
  induction l as [|y r IH]; intros s x.
  - rewrite pick_from_nil. split; [intros []|].
    intros (i & _ & H). destruct i; discriminate.
  - rewrite pick_from_cons. split.
    + intros H.
      assert (Hcase : (x = y /\ P s = true) \/ In x (pick_from P (S s) r)).
      { destruct (P s); [destruct H as [->|H]|]; auto. }
      destruct Hcase as [[-> Hp]|Hr].
      * exists 0%nat. rewrite Nat.add_0_r. auto.
      * apply IH in Hr. destruct Hr as (i & Hp & Hn). exists (S i).
        rewrite Nat.add_succ_r. auto.
    + intros (i & Hp & Hn). destruct i as [|i].
      * rewrite Nat.add_0_r in Hp. rewrite Hp. injection Hn as ->. left; reflexivity.
      * assert (In x (pick_from P (S s) r)).
        { apply IH. exists i. rewrite Nat.add_succ_r in Hp. auto. }
        destruct (P s); [right|]; assumption.
Qed.

(** Length of a pick = number of picked positions. *)
Lemma pick_from_length {A} P (l : list A) : forall s,
  length (pick_from P s l) = length (filter P (seq s (length l))).
Proof.
  induction l as [|y r IH]; intros s; [reflexivity|].
  rewrite pick_from_cons. simpl. destruct (P s); simpl; rewrite IH; reflexivity.
Qed.

(** ** mask_select *)

Lemma mask_select_app {A} m1 m2 (l1 l2 : list A) :
  length m1 = length l1 ->
  mask_select (m1 ++ m2) (l1 ++ l2) = mask_select m1 l1 ++ mask_select m2 l2.
Proof.
  unfold mask_select. revert l1. induction m1 as [|b m IH]; intros [|x l1] H;
    simpl in *; try lia; [reflexivity|].
  destruct b; simpl; rewrite IH by lia; reflexivity.
Qed.

Lemma mask_select_true {A} (l : list A) n : n = length l -> mask_select (repeat true n) l = l.
Proof.
  intros ->. unfold mask_select. induction l as [|x r IH]; [reflexivity|].
  simpl. f_equal. exact IH.
Qed.

(** ** np_diff *)

Lemma np_diff_cons2 x y l : np_diff (x :: y :: l) = (y - x) :: np_diff (y :: l).
Proof. reflexivity. Qed.

Lemma np_diff_length l : length (np_diff l) = (length l - 1)%nat.
Proof.
  unfold np_diff. rewrite map_length, combine_length.
  destruct l as [|x r]; cbn [tl length]; [reflexivity|]. rewrite Nat.min_r; lia.
Qed.

Lemma np_diff_app l1 x y l2 :
  np_diff (l1 ++ x :: y :: l2) = np_diff (l1 ++ [x]) ++ (y - x) :: np_diff (y :: l2).
Proof.
  induction l1 as [|a r IH]; [reflexivity|].
  destruct r as [|b r'].
  - reflexivity.
  - simpl app in *. rewrite !np_diff_cons2. simpl. f_equal. exact IH.
Qed.

Lemma np_diff_nth l : forall i, (S i < length l)%nat ->
  nth i (np_diff l) 0 = nth (S i) l 0 - nth i l 0.
Proof.
  induction l as [|x [|y r] IH]; intros i Hi; simpl in Hi; try lia.
  rewrite np_diff_cons2. destruct i as [|i]; [reflexivity|].
  cbn [nth]. rewrite IH by (simpl; lia). reflexivity.
Qed.

(** ** cumsum *)
Lemma cumsum_from_ge l : forall acc x, In x (cumsum_from acc l) -> (acc <= x)%nat.
Proof.
  induction l as [|y r IH]; intros acc x H; [destruct H|].
  destruct H as [<-|H]; [lia|]. apply IH in H. lia.
Qed.

Lemma cumsum_from_length l : forall acc, length (cumsum_from acc l) = length l.
Proof. induction l as [|y r IH]; intros acc; simpl; [reflexivity|]. rewrite IH. reflexivity. Qed.

(** ** misc lists *)

Lemma removelast_length {A} (l : list A) : length (removelast l) = (length l - 1)%nat.
Proof.
  induction l as [|x [|y r] IH]; [reflexivity|reflexivity|].
  change (removelast (x :: y :: r)) with (x :: removelast (y :: r)).
  simpl length. simpl in IH. rewrite IH. lia.
Qed.

Lemma forallb_false_exists {A} (f : A -> bool) l :
  forallb f l = false <-> exists x, In x l /\ f x = false.
Proof.
  split.
  - induction l as [|x r IH]; simpl; intros H; [discriminate|].
    destruct (f x) eqn:E; [|exists x; auto].
    destruct IH as (y & Hy & Hf); [exact H|]. exists y; auto.
  - intros (x & Hx & Hf). destruct (forallb f l) eqn:E; [|reflexivity].
    rewrite forallb_forall in E. specialize (E _ Hx). congruence.
Qed.

Lemma existsb_false_forall {A} (f : A -> bool) l :
  existsb f l = false <-> forall x, In x l -> f x = false.
Proof.
  induction l as [|x r IH]; simpl.
  - split; [intros _ y []|reflexivity].
  - rewrite orb_false_iff, IH. split.
    + intros [H1 H2] y [<-|Hy]; auto.
    + intros H. split; [apply H; auto|]. intros y Hy. apply H; auto.
Qed.

Lemma list_min_in x r : In (fold_left Z.min r x) (x :: r).
Proof.
  revert x. induction r as [|y r IH]; intros x; simpl; [auto|].
  destruct (IH (Z.min x y)) as [E|E].
  - rewrite <- E. destruct (Z.min_spec x y) as [[_ ->]|[_ ->]]; auto.
  - simpl in *. auto.
Qed.

Lemma list_min_le r : forall x y, In y (x :: r) -> fold_left Z.min r x <= y.
Proof.
  induction r as [|z r IH]; intros x y Hy; simpl.
  - destruct Hy as [->|[]]. lia.
  - destruct Hy as [->|[->|Hy]].
    + transitivity (Z.min y z); [apply IH; left; reflexivity|lia].
    + transitivity (Z.min x y); [apply IH; left; reflexivity|lia].
    + apply IH. right. exact Hy.
Qed.

Lemma zmax_ge r : forall x y, In y (x :: r) -> y <= fold_left Z.max r x.
Proof.
  induction r as [|z r IH]; intros x y Hy; simpl.
  - destruct Hy as [->|[]]. lia.
  - destruct Hy as [->|[->|Hy]].
    + transitivity (Z.max y z); [lia|apply IH; left; reflexivity].
    + transitivity (Z.max x y); [lia|apply IH; left; reflexivity].
    + apply IH. right. exact Hy.
Qed.
