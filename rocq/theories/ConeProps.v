(** * C46: the cone kernel. *)

From Coq Require Import Reals List Lra Lia.
From Verif Require Import ConeModel ConeSpec ConeProofs.
Import ListNotations.
Local Open Scope R_scope.

(** The pairwise kernel matrix is symmetric with ones on the diagonal and entries in (0, 1]. *)
Theorem C46_kernel_matrix : forall c dt X K i j, valid_cone c -> evaluate_pdist c dt X = Some K ->
  (i < length X)%nat -> (j < length X)%nat ->
  entry K i j = entry K j i /\ entry K i i = 1 /\ 0 < entry K i j <= 1.
Proof.
  intros c dt X K i j Hc HK Hi Hj. rewrite pdist_cdist in HK.
  assert (Hs := scalar_pos c dt X X K Hc HK).
  pose (d := Sample [] []).
  rewrite !(cdist_entry c dt X X K _ _ d HK) by assumption.
  repeat split; try apply pair_sym; try apply pair_self; apply pair_range; auto; lra.
Qed.
Print Assumptions C46_kernel_matrix.

(** Component-wise evaluation at the reference samples gives the pairwise matrix. *)
Theorem C46_training_samples : forall c dt X, evaluate_cdist c dt X X = evaluate_pdist c dt X.
Proof. intros. symmetry. apply pdist_cdist. Qed.
Print Assumptions C46_training_samples.

(** Without angular influence (zeta = 0) every entry is the documented one. *)
Theorem C46_without_angle : forall c dt X Y K i j d, valid_cone c -> zeta c = 0 ->
  evaluate_cdist c dt X Y = Some K -> (i < length Y)%nat -> (j < length X)%nat ->
  0 < norm (velocity (nth i Y d)) -> 0 < norm (velocity (nth j X d)) ->
  entry K i j = documented c dt (nth i Y d) (nth j X d).
Proof.
  intros c dt X Y K i j d Hc Hz HK Hi Hj Hy Hx.
  rewrite (cdist_entry c dt X Y K i j d HK Hi Hj).
  assert (Hs := scalar_pos c dt X Y K Hc HK). apply zeta0_documented; auto; lra.
Qed.
Print Assumptions C46_without_angle.

(** With angular influence the cosine is taken of the cosine of the angle. *)
Theorem C46_cosine_of_cosine : forall c dt X Y K i j d, valid_cone c ->
  evaluate_cdist c dt X Y = Some K -> (i < length Y)%nat -> (j < length X)%nat ->
  let y := nth i Y d in let x := nth j X d in apart y x ->
  entry K i j =
  exp (- (norm (sub (state x) (state y)) ^ 2 / (epsilon c * dt ^ 2 * norm (velocity y) * norm (velocity x)) *
          sqrt ((1 - zeta c * cos (cos_angle y x) ^ 2) * (1 - zeta c * cos (cos_angle x y) ^ 2)))).
Proof.
  intros c dt X Y K i j d Hc HK Hi Hj y x Ha. rewrite (cdist_entry c dt X Y K i j d HK Hi Hj).
  assert (Hs := scalar_pos c dt X Y K Hc HK). apply pair_apart; auto; lra.
Qed.
Print Assumptions C46_cosine_of_cosine.

(** Displacements along the flow are weighted less, and displacements across the flow more,
    than documented: for every zeta > 0. *)
Theorem C46_documented_refuted : forall c dt X Y K i j d, valid_cone c -> 0 < zeta c ->
  evaluate_cdist c dt X Y = Some K -> (i < length Y)%nat -> (j < length X)%nat ->
  let y := nth i Y d in let x := nth j X d in apart y x ->
  (Rabs (cos_angle y x) = 1 -> Rabs (cos_angle x y) = 1 -> entry K i j < documented c dt y x) /\
  (cos_angle y x = 0 -> cos_angle x y = 0 -> documented c dt y x < entry K i j).
Proof.
  intros c dt X Y K i j d Hc Hz HK Hi Hj y x Ha. rewrite (cdist_entry c dt X Y K i j d HK Hi Hj).
  assert (Hs := scalar_pos c dt X Y K Hc HK).
  split; intros; [apply aligned_below_documented|apply perpendicular_above_documented]; auto; lra.
Qed.
Print Assumptions C46_documented_refuted.

(** The documented effect of zeta ("the weight is increased if the displacement is aligned with
    the flow") is reversed: of two pairs with the same distance and speeds, the better aligned
    pair gets the smaller kernel value. *)
Theorem C46_alignment_refuted : forall c dt X Y K i j i' j' d, valid_cone c -> 0 < zeta c ->
  evaluate_cdist c dt X Y = Some K ->
  (i < length Y)%nat -> (j < length X)%nat -> (i' < length Y)%nat -> (j' < length X)%nat ->
  let y := nth i Y d in let x := nth j X d in let y' := nth i' Y d in let x' := nth j' X d in
  apart y x -> apart y' x' ->
  norm (sub (state x) (state y)) = norm (sub (state x') (state y')) ->
  norm (velocity y) = norm (velocity y') -> norm (velocity x) = norm (velocity x') ->
  Rabs (cos_angle y x) < Rabs (cos_angle y' x') -> Rabs (cos_angle x y) <= Rabs (cos_angle x' y') ->
  entry K i' j' < entry K i j.
Proof.
  intros c dt X Y K i j i' j' d Hc Hz HK Hi Hj Hi' Hj' y x y' x' Ha Ha' E1 E2 E3 H1 H2.
  rewrite (cdist_entry c dt X Y K i j d HK Hi Hj), (cdist_entry c dt X Y K i' j' d HK Hi' Hj').
  assert (Hs := scalar_pos c dt X Y K Hc HK). apply aligned_smaller; auto; lra.
Qed.
Print Assumptions C46_alignment_refuted.

(** A sample at rest has the largest kernel value 1 with every other sample, however distant. *)
Theorem C46_sample_at_rest : forall c dt X Y K i j d, evaluate_cdist c dt X Y = Some K ->
  (i < length Y)%nat -> (j < length X)%nat ->
  norm (velocity (nth i Y d)) = 0 \/ norm (velocity (nth j X d)) = 0 -> entry K i j = 1.
Proof.
  intros c dt X Y K i j d HK Hi Hj H. rewrite (cdist_entry c dt X Y K i j d HK Hi Hj). now apply at_rest.
Qed.
Print Assumptions C46_sample_at_rest.

(** Three samples moving to the right; the second lies ahead of the first, the third beside it.
    The documented kernel prefers the second, the computed kernel the third. *)
Definition ex_cone := Cone (1 / 2) 1.
Definition ex_X := [Sample [0; 0] [1; 0]; Sample [1; 0] [1; 0]; Sample [0; 1] [1; 0]].

Lemma norm10 : norm [1; 0] = 1.
Proof. unfold norm. simpl. replace (1 * 1 + (0 * 0 + 0)) with 1 by ring. apply sqrt_1. Qed.
Lemma norm_ahead : norm [1 - 0; 0 - 0] = 1.
Proof. rewrite !Rminus_0_r. apply norm10. Qed.
Lemma norm_beside : norm [0 - 0; 1 - 0] = 1.
Proof. rewrite !Rminus_0_r. unfold norm. simpl. replace (0 * 0 + (1 * 1 + 0)) with 1 by ring. apply sqrt_1. Qed.
Lemma norm_back1 : norm [0 - 1; 0 - 0] = 1.
Proof. exact (eq_trans (norm_sub_sym [0; 0] [1; 0]) norm_ahead). Qed.
Lemma norm_back2 : norm [0 - 0; 0 - 1] = 1.
Proof. exact (eq_trans (norm_sub_sym [0; 0] [0; 1]) norm_beside). Qed.
Lemma dup_small : dup_threshold < 1.
Proof.
  unfold dup_threshold. rewrite <- Rinv_1. apply Rinv_lt_contravar; [|apply Rlt_pow_R1; [lra|lia]].
  rewrite Rmult_1_l. apply pow_lt. lra.
Qed.

Example C46_example : exists K, valid_cone ex_cone /\ evaluate_pdist ex_cone 1 ex_X = Some K /\
  entry K 0 1 < entry K 0 2 /\
  documented ex_cone 1 (nth 0 ex_X (Sample [] [])) (nth 2 ex_X (Sample [] [])) <
  documented ex_cone 1 (nth 0 ex_X (Sample [] [])) (nth 1 ex_X (Sample [] [])).
Proof.
  exists (kernel_pdist ex_cone 1 ex_X).
  assert (Hv : valid_cone ex_cone) by (split; simpl; lra).
  assert (HK : evaluate_pdist ex_cone 1 ex_X = Some (kernel_pdist ex_cone 1 ex_X)).
  { unfold evaluate_pdist. destruct (Req_EM_T _ 0) as [E|E]; auto. simpl in E. lra. }
  assert (Hd := dup_small).
  split; [exact Hv|]. split; [exact HK|]. split.
  - rewrite pdist_cdist in HK.
    apply (C46_alignment_refuted ex_cone 1 ex_X ex_X _ 0 2 0 1 (Sample [] []) Hv); auto; simpl; try lia; try lra.
    + split; simpl; rewrite ?norm10, ?norm_beside, ?norm_back2; lra.
    + split; simpl; rewrite ?norm10, ?norm_ahead, ?norm_back1; lra.
    + now rewrite norm_ahead, norm_beside.
    + unfold cos_angle. simpl. rewrite norm10, norm_ahead, norm_beside.
      replace ((1 * (0 - 0) + (0 * (1 - 0) + 0)) / (1 * 1)) with 0 by field.
      replace ((1 * (1 - 0) + (0 * (0 - 0) + 0)) / (1 * 1)) with 1 by field. rewrite Rabs_R0, Rabs_R1. lra.
    + unfold cos_angle. simpl. rewrite norm10, norm_back1, norm_back2.
      replace ((1 * (0 - 0) + (0 * (0 - 1) + 0)) / (1 * 1)) with 0 by field.
      rewrite Rabs_R0. apply Rabs_pos.
  - unfold documented, cos_angle. simpl.
    rewrite norm10, norm_ahead, norm_beside, norm_back1, norm_back2.
    apply exp_increasing. apply Ropp_lt_contravar.
    assert (E1 : forall t, 1 * (1 * 1) / (1 * (1 * (1 * 1)) * 1 * 1) * t = t) by (intro; field).
    rewrite !E1. apply sqrt_lt_1_alt. split; lra.
Qed.
