(** * Lemmas for the local regression selection. *)

From Coq Require Import List QArith Bool Lia PeanoNat Sorting.Permutation Sorting.Sorted Lqa.
From Verif Require Import Np LrsModel LrsSpec.
Import ListNotations.
Local Open Scope nat_scope.

Lemma insert_perm a l : Permutation (insert_nat a l) (a :: l).
Proof.
  induction l as [|b l IH]; simpl; auto. destruct (a <=? b); auto.
  rewrite IH. apply perm_swap.
Qed.

Lemma sort_perm l : Permutation (sort_nat l) l.
Proof. induction l as [|a l IH]; simpl; auto. rewrite insert_perm. now apply perm_skip. Qed.

Lemma insert_sorted a l : StronglySorted le l -> StronglySorted le (insert_nat a l).
Proof.
  induction l as [|b l IH]; simpl; intro H; [repeat constructor|].
  inversion H as [|x y Hl Hb]; subst.
  destruct (Nat.leb_spec a b) as [E|E].
  - constructor; auto. constructor; auto. eapply Forall_impl; [|exact Hb]. simpl. lia.
  - constructor; auto. rewrite Forall_forall in *. intros x Hx.
    apply (Permutation_in _ (insert_perm a l)) in Hx as [<-|Hx]; [lia|]. now apply Hb.
Qed.

Lemma sort_sorted l : StronglySorted le (sort_nat l).
Proof. induction l as [|a l IH]; simpl; [constructor|]. now apply insert_sorted. Qed.

Lemma sorted_lt l : StronglySorted le l -> NoDup l -> StronglySorted lt l.
Proof.
  induction l as [|a l IH]; intros H N; constructor; inversion H; inversion N; subst; auto.
  rewrite Forall_forall in *. intros x Hx. specialize (H3 x Hx).
  destruct (Nat.eq_dec a x) as [->|]; [contradiction|lia].
Qed.

Lemma sort_lt l : NoDup l -> StronglySorted lt (sort_nat l).
Proof.
  intro N. apply sorted_lt; [apply sort_sorted|].
  eapply Permutation_NoDup; [symmetry; apply sort_perm|exact N].
Qed.

Lemma sort_in l x : In x (sort_nat l) <-> In x l.
Proof. split; apply Permutation_in; [apply sort_perm|symmetry; apply sort_perm]. Qed.

Lemma sort_length l : length (sort_nat l) = length l.
Proof. apply Permutation_length, sort_perm. Qed.

Section Proofs.
Variable regress : nat -> res.
Variable n : nat.
Hypothesis Hn : 2 <= n.

Definition vals := Val (-1) :: tl (residuals regress n).

Lemma vals_length : length vals = n.
Proof. unfold vals, residuals. simpl. rewrite map_length, seq_length. lia. Qed.

Lemma vals_nth i : i < n -> nth i vals NaN = if i =? 0 then Val (-1) else residual regress i.
Proof.
  unfold vals, residuals, residual. intro H. destruct i as [|[|i]]; simpl; auto.
  rewrite (nth_indep _ _ (regress 0)) by (rewrite map_length, seq_length; lia).
  rewrite map_nth, seq_nth by lia. reflexivity.
Qed.

Lemma opp_nth i : i < n -> nth i (map opp vals) NaN = if i =? 0 then Val (- (-1)) else opp (residual regress i).
Proof.
  intro H. change NaN with (opp NaN) at 1. rewrite map_nth, vals_nth by exact H.
  now destruct (i =? 0).
Qed.

(** ** Threshold *)
Lemma threshold_in t i : (0 < t)%Q ->
  In i (set_indices (fun _ _ => []) (Threshold t) (residuals regress n)) <->
  1 <= i < n /\ ltb (Val t) (residual regress i) = true.
Proof.
  intro Ht. unfold set_indices. rewrite sort_in. fold vals. rewrite in_map_iff. split.
  - intros ([j r] & <- & H). apply filter_In in H as [H1 H2]. cbn [fst snd] in *.
    unfold enumerate in H1. destruct (In_nth _ _ (0, NaN) H1) as (k & Hk & E).
    rewrite combine_length, seq_length, Nat.min_id in Hk.
    rewrite combine_nth in E by now rewrite seq_length. rewrite seq_nth in E by exact Hk. rewrite vals_length in Hk. rewrite vals_nth in E by exact Hk.
    injection E as <- <-. clear H1. cbn [Nat.add] in *.
    destruct (Nat.eqb_spec k 0) as [E0|N].
    + simpl in H2. unfold Qltb in H2. rewrite negb_true_iff in H2.
      assert (Qle_bool (-1) t = true) by (apply Qle_bool_iff; lra). congruence.
    + split; [lia|exact H2].
  - intros [Hi H]. exists (i, nth i vals NaN). split; auto. apply filter_In. split.
    + unfold enumerate.
      replace (i, nth i vals NaN) with (nth i (combine (seq 0 (length vals)) vals) (0, NaN)).
      * apply nth_In. rewrite combine_length, seq_length, Nat.min_id, vals_length. lia.
      * rewrite combine_nth by now rewrite seq_length. rewrite seq_nth by (rewrite vals_length; lia). reflexivity.
    + cbn [snd]. rewrite vals_nth by lia. replace (i =? 0) with false; auto.
      symmetry. apply Nat.eqb_neq. lia.
Qed.

Lemma enumerate_fst_nodup {A} (l : list A) P : NoDup (map fst (filter P (enumerate l))).
Proof.
  unfold enumerate. assert (H : forall k, NoDup (map fst (filter P (combine (seq k (length l)) l))) /\
    forall i, In i (map fst (filter P (combine (seq k (length l)) l))) -> k <= i).
  { induction l as [|a l IH]; intro k; simpl; [split; [constructor|tauto]|].
    destruct (IH (S k)) as [N L]. destruct (P (k, a)); simpl.
    - split.
      + constructor; auto. intro Hk. apply L in Hk. lia.
      + intros i [<-|Hi]; auto. apply L in Hi. lia.
    - split; auto. intros i Hi. apply L in Hi. lia. }
  apply H.
Qed.

(** ** Dimension *)
Variable part : list res -> nat -> list nat.
Hypothesis HP : Partitions part.
Variable d : nat.
Hypothesis Hd : 2 <= d <= n - 1.

Definition p := part (map opp vals) d.
Definition S := firstn d p.
Definition T := skipn d p.

Lemma p_perm : Permutation p (seq 0 n).
Proof.
  destruct (HP (map opp vals) d) as [H _]; [rewrite map_length, vals_length; lia|].
  now rewrite map_length, vals_length in H.
Qed.

Lemma ST_perm : Permutation (S ++ T) (seq 0 n).
Proof. unfold S, T. rewrite firstn_skipn. apply p_perm. Qed.

Lemma ST_le i j : In i S -> In j T ->
  np_le (nth i (map opp vals) NaN) (nth j (map opp vals) NaN).
Proof. apply HP. rewrite map_length, vals_length. lia. Qed.

Lemma S_length : length S = d.
Proof.
  unfold S. rewrite firstn_length, (Permutation_length p_perm), seq_length. lia.
Qed.

Lemma T_length : length T = n - d.
Proof. unfold T. rewrite skipn_length, (Permutation_length p_perm), seq_length. reflexivity. Qed.

Lemma ST_nodup : NoDup (S ++ T).
Proof. eapply Permutation_NoDup; [symmetry; apply ST_perm|apply seq_NoDup]. Qed.

Lemma S_nodup : NoDup S.
Proof.
  assert (H := ST_nodup). revert H. induction S as [|a s IH]; simpl; intro H; constructor; inversion H; subst; auto.
  intro C. apply H2. apply in_or_app. now left.
Qed.

Lemma S_lt i : In i S -> i < n.
Proof.
  intro H. assert (In i (seq 0 n)) as H1.
  { apply (Permutation_in _ ST_perm). apply in_or_app. auto. }
  apply in_seq in H1. lia.
Qed.

Lemma T_lt i : In i T -> i < n.
Proof.
  intro H. assert (In i (seq 0 n)) as H1.
  { apply (Permutation_in _ ST_perm). apply in_or_app. auto. }
  apply in_seq in H1. lia.
Qed.

Lemma S_or_T i : i < n -> In i S \/ In i T.
Proof.
  intro H. apply in_app_or. apply (Permutation_in _ (Permutation_sym ST_perm)). apply in_seq. lia.
Qed.

Lemma S_T_disjoint i : In i S -> In i T -> False.
Proof.
  intros H1 H2. assert (N := ST_nodup). apply in_split in H2 as (a & b & E).
  rewrite E in N. rewrite app_assoc in N. apply NoDup_remove_2 in N. apply N.
  rewrite <- app_assoc. apply in_or_app. now left.
Qed.

Lemma indices_eq : set_indices part (Dim d) (residuals regress n) = sort_nat S.
Proof.
  unfold set_indices. fold vals. replace (d =? 1) with false by (symmetry; apply Nat.eqb_neq; lia). reflexivity.
Qed.

Definition num (r : res) : Prop := exists q, r = Val q /\ (0 <= q)%Q.

Lemma regular_residual : Regular regress n -> forall i, 1 <= i < n -> num (residual regress i).
Proof.
  intros HR i Hi. unfold residual. destruct (Nat.eqb_spec i 1) as [->|N].
  - exists 1%Q. split; auto. lra.
  - apply HR. lia.
Qed.

Lemma zero_not_in : Regular regress n -> ~ In 0 S.
Proof.
  intros HR H. destruct T as [|j t] eqn:E.
  - assert (L := T_length). rewrite E in L. simpl in L. lia.
  - assert (Hj : In j T) by (rewrite E; now left).
    assert (j <> 0) by (intros ->; now apply (S_T_disjoint 0)).
    assert (Hl := T_lt j Hj). assert (Le := ST_le 0 j H Hj).
    rewrite !opp_nth in Le by lia. simpl in Le.
    replace (j =? 0) with false in Le by (symmetry; apply Nat.eqb_neq; lia).
    destruct (regular_residual HR j) as (q & Eq & Hq); [lia|]. rewrite Eq in Le. simpl in Le. lra.
Qed.

Lemma largest i j : Regular regress n -> In i S -> 1 <= j < n -> ~ In j S ->
  exists x y, residual regress i = Val x /\ residual regress j = Val y /\ (y <= x)%Q.
Proof.
  intros HR Hi Hj HjS. destruct (S_or_T j) as [H|H]; [lia|contradiction|].
  assert (i <> 0) by (intros ->; now apply (zero_not_in HR)).
  assert (Hl := S_lt i Hi). assert (Le := ST_le i j Hi H).
  rewrite !opp_nth in Le by lia.
  replace (i =? 0) with false in Le by (symmetry; apply Nat.eqb_neq; lia).
  replace (j =? 0) with false in Le by (symmetry; apply Nat.eqb_neq; lia).
  destruct (regular_residual HR i) as (x & Ex & Hx); [lia|].
  destruct (regular_residual HR j) as (y & Ey & Hy); [lia|].
  rewrite Ex, Ey in *. exists x, y. repeat split; auto. simpl in Le. lra.
Qed.

Lemma first_in : Regular regress n -> (forall i q, 2 <= i < n -> regress i = Val q -> (q < 1)%Q) -> In 1 S.
Proof.
  intros HR H1. destruct (in_dec Nat.eq_dec 1 S) as [H|H]; auto. exfalso.
  destruct S as [|i s] eqn:E; [assert (L := S_length); rewrite E in L; simpl in L; lia|].
  assert (Hi : In i S) by (rewrite E; now left). rewrite <- E in H.
  destruct (largest i 1 HR Hi) as (x & y & Ex & Ey & Le); [lia|exact H|].
  unfold residual in Ey. simpl in Ey. injection Ey as <-.
  assert (i <> 0) by (intros ->; now apply (zero_not_in HR)).
  assert (i <> 1) by (intros ->; contradiction).
  assert (Hl := S_lt i Hi). unfold residual in Ex.
  replace (i =? 1) with false in Ex by (symmetry; apply Nat.eqb_neq; lia).
  assert (x < 1)%Q by (apply (H1 i); [lia|exact Ex]). lra.
Qed.

Lemma filter_split {A} (f : A -> bool) l : length (filter f l) + length (filter (fun x => negb (f x)) l) = length l.
Proof. induction l as [|a l IH]; simpl; auto. destruct (f a); simpl; lia. Qed.

Lemma zero_in : n - 1 - length (nans regress n) < d -> In 0 S.
Proof.
  intro H. destruct (in_dec Nat.eq_dec 0 S) as [H0|H0]; auto. exfalso.
  destruct (S_or_T 0) as [C|C]; [lia|contradiction|].
  set (good := 1 :: filter (fun i => negb (match regress i with NaN => true | _ => false end)) (seq 2 (n - 2))).
  assert (I : incl S good).
  { intros i Hi. assert (Hl := S_lt i Hi). assert (Le := ST_le i 0 Hi C). rewrite !opp_nth in Le by lia.
    destruct (Nat.eqb_spec i 0) as [->|N]; [contradiction|].
    unfold residual in Le. destruct (Nat.eqb_spec i 1) as [->|N1]; [now left|].
    right. apply filter_In. split; [apply in_seq; lia|].
    destruct (regress i); auto. }
  assert (L := NoDup_incl_length S_nodup I). rewrite S_length in L. simpl in L.
  assert (F := filter_split (fun i => match regress i with NaN => true | _ => false end) (seq 2 (n - 2))).
  rewrite seq_length in F. fold (nans regress n) in F. lia.
Qed.

End Proofs.
