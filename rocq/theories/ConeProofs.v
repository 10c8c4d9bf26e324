(** * Lemmas for the cone kernel. *)

From Coq Require Import Reals List Lra Lia Psatz.
From Verif Require Import ConeModel ConeSpec.
Import ListNotations.
Local Open Scope R_scope.

Lemma dot_comm : forall x y, dot x y = dot y x.
Proof. induction x as [|a x IH]; destruct y as [|b y]; simpl; auto. rewrite IH. ring. Qed.

Lemma dot_self_nonneg : forall x, 0 <= dot x x.
Proof. induction x as [|a x IH]; simpl; [lra|]. nra. Qed.

Lemma norm_nonneg : forall x, 0 <= norm x.
Proof. intros. apply sqrt_pos. Qed.

Lemma norm_sq : forall x, norm x * norm x = dot x x.
Proof. intros. apply sqrt_sqrt, dot_self_nonneg. Qed.

Lemma sub_dot_sym : forall x y, dot (sub x y) (sub x y) = dot (sub y x) (sub y x).
Proof. induction x as [|a x IH]; destruct y as [|b y]; simpl; auto. rewrite IH. ring. Qed.

Lemma norm_sub_sym x y : norm (sub x y) = norm (sub y x).
Proof. unfold norm. now rewrite sub_dot_sym. Qed.

Lemma distance_sym y x : distance_entry y x = distance_entry x y.
Proof. apply norm_sub_sym. Qed.

Lemma sub_self_dot : forall x, dot (sub x x) (sub x x) = 0.
Proof. induction x as [|a x IH]; simpl; [lra|]. rewrite IH. ring. Qed.

Lemma distance_self x : distance_entry x x = 0.
Proof. unfold distance_entry, norm. rewrite sub_self_dot. apply sqrt_0. Qed.

Lemma cauchy_aux a b p q s : 0 <= p -> 0 <= q -> s * s <= p * q ->
  (a * b + s) * (a * b + s) <= (a * a + p) * (b * b + q).
Proof.
  intros Hp Hq Hs.
  destruct (Req_dec p 0) as [H0|H0].
  - subst p. assert (s = 0) by nra. subst s. nra.
  - assert (0 < p) by lra.
    assert (Key : 0 <= p * (p * (b * b) - 2 * a * b * s + a * a * q)).
    { assert (Haa : 0 <= a * a) by nra.
      assert (a * a * (s * s) <= a * a * (p * q)) by (apply Rmult_le_compat_l; lra).
      replace (p * (p * (b * b) - 2 * a * b * s + a * a * q))
        with ((p * b - a * s) * (p * b - a * s) + (a * a * (p * q) - a * a * (s * s))) by ring.
      assert (0 <= (p * b - a * s) * (p * b - a * s)) by apply Rle_0_sqr. lra. }
    assert (0 <= p * (b * b) - 2 * a * b * s + a * a * q).
    { apply Rmult_le_reg_l with p; [lra|]. rewrite Rmult_0_r. exact Key. }
    nra.
Qed.

Lemma cauchy_sq : forall x y, dot x y * dot x y <= dot x x * dot y y.
Proof.
  induction x as [|a x IH]; destruct y as [|b y]; simpl; try nra.
  apply cauchy_aux; auto using dot_self_nonneg.
Qed.

Lemma cauchy x y : Rabs (dot x y) <= norm x * norm y.
Proof.
  assert (H := cauchy_sq x y).
  rewrite <- (norm_sq x), <- (norm_sq y) in H.
  assert (Hx := norm_nonneg x). assert (Hy := norm_nonneg y).
  assert (Hp : 0 <= norm x * norm y) by nra.
  rewrite <- (Rabs_pos_eq (norm x * norm y)) by exact Hp.
  apply Rsqr_le_abs_0. unfold Rsqr. nra.
Qed.

Lemma cos_angle_le1 y x : 0 < norm (velocity y) * norm (sub (state x) (state y)) ->
  Rabs (cos_angle y x) <= 1.
Proof.
  intro H. unfold cos_angle, Rdiv. rewrite Rabs_mult, Rabs_inv.
  rewrite (Rabs_pos_eq (norm _ * norm _)) by lra.
  apply Rmult_le_reg_r with (norm (velocity y) * norm (sub (state x) (state y))); [exact H|].
  rewrite Rmult_assoc, Rinv_l, Rmult_1_r, Rmult_1_l by lra. apply cauchy.
Qed.

Lemma dup_pos : 0 < dup_threshold.
Proof. unfold dup_threshold. apply Rinv_0_lt_compat, pow_lt. lra. Qed.

Lemma cos_abs x : cos (Rabs x) = cos x.
Proof. unfold Rabs. destruct (Rcase_abs x); auto using cos_neg. Qed.

Lemma cos_sq_bound v : 0 <= cos v ^ 2 <= 1.
Proof. assert (H := COS_bound v). simpl. nra. Qed.

Lemma cos_entry_pos c y x : valid_cone c -> 0 < cos_entry c y x <= 1.
Proof.
  intros [Hz _]. unfold cos_entry.
  match goal with |- context [cos ?v] => assert (H := cos_sq_bound v); set (t := cos v ^ 2) in * end.
  nra.
Qed.

Lemma cos_entry_apart c y x : dup_threshold < norm (velocity y) * norm (sub (state x) (state y)) ->
  cos_entry c y x = 1 - zeta c * cos (cos_angle y x) ^ 2.
Proof.
  intro H. unfold cos_entry, distance_entry. destruct (Rle_dec _ _) as [E|E]; [lra|]. reflexivity.
Qed.

Lemma angular_sym c y x : angular_factor c y x = angular_factor c x y.
Proof. unfold angular_factor. destruct (Req_EM_T (zeta c) 0); auto. now rewrite Rmult_comm. Qed.

Lemma angular_pos c y x : valid_cone c -> 0 < angular_factor c y x.
Proof.
  intro Hc. unfold angular_factor. destruct (Req_EM_T (zeta c) 0); [lra|].
  apply sqrt_lt_R0. assert (H1 := cos_entry_pos c y x Hc). assert (H2 := cos_entry_pos c x y Hc). nra.
Qed.

Lemma factor_pdist_cdist c dt y x : factor_pdist c dt y x = factor_cdist c dt y x.
Proof.
  unfold factor_pdist, factor_cdist, division_entry. rewrite (angular_sym c x y).
  destruct (Req_EM_T (norm (velocity y)) 0), (Req_EM_T (norm (velocity x)) 0);
    unfold Rdiv; rewrite ?Rplus_0_l, ?Rmult_0_l; auto.
  f_equal.
  set (a := / norm (velocity y)). set (b := / norm (velocity x)). set (m := angular_factor c y x). field.
Qed.

Lemma factor_sym c dt y x : factor_cdist c dt y x = factor_cdist c dt x y.
Proof.
  rewrite <- !factor_pdist_cdist. unfold factor_pdist. now rewrite Rplus_comm.
Qed.

Lemma factor_nonneg c dt y x : valid_cone c -> dt ^ 2 * epsilon c <> 0 -> 0 <= factor_cdist c dt y x.
Proof.
  intros Hc Hs. unfold factor_cdist, division_entry.
  assert (Hp : 0 <= / (dt ^ 2 * epsilon c)).
  { left. apply Rinv_0_lt_compat. destruct Hc as [_ He]. assert (0 <= dt ^ 2) by (simpl; nra).
    assert (0 <= dt ^ 2 * epsilon c) by nra. lra. }
  apply Rmult_le_pos; auto.
  destruct (Req_EM_T (norm (velocity y)) 0); [lra|]. destruct (Req_EM_T (norm (velocity x)) 0); [lra|].
  assert (Ha := angular_pos c y x Hc).
  assert (Hy := norm_nonneg (velocity y)). assert (Hx := norm_nonneg (velocity x)).
  assert (0 < / norm (velocity y)) by (apply Rinv_0_lt_compat; lra).
  assert (0 < / norm (velocity x)) by (apply Rinv_0_lt_compat; lra).
  apply Rmult_le_pos; [apply Rmult_le_pos|]; lra.
Qed.

Definition pair_entry c dt y x := exp (- 1 * distance_entry y x ^ 2 * factor_cdist c dt y x).

Lemma map_nth_lt {A B} (f : A -> B) l i d d' : (i < length l)%nat -> nth i (map f l) d = f (nth i l d').
Proof. intro H. rewrite (nth_indep _ _ (f d')) by now rewrite map_length. apply map_nth. Qed.

Lemma cdist_entry c dt X Y K i j (d : sample) : evaluate_cdist c dt X Y = Some K ->
  (i < length Y)%nat -> (j < length X)%nat -> entry K i j = pair_entry c dt (nth i Y d) (nth j X d).
Proof.
  unfold evaluate_cdist. destruct (Req_EM_T _ 0); [discriminate|]. intros [= <-] Hi Hj.
  unfold entry, kernel_cdist. rewrite (map_nth_lt _ _ _ _ d) by exact Hi.
  now rewrite (map_nth_lt _ _ _ _ d) by exact Hj.
Qed.

Lemma pdist_cdist c dt X : evaluate_pdist c dt X = evaluate_cdist c dt X X.
Proof.
  unfold evaluate_pdist, evaluate_cdist. destruct (Req_EM_T _ 0); auto. f_equal.
  unfold kernel_pdist, kernel_cdist. apply map_ext. intro y. apply map_ext. intro x.
  now rewrite factor_pdist_cdist.
Qed.

Lemma scalar_pos c dt X Y K : valid_cone c -> evaluate_cdist c dt X Y = Some K -> 0 < dt ^ 2 * epsilon c.
Proof.
  unfold evaluate_cdist. destruct (Req_EM_T _ 0) as [E|E]; [discriminate|]. intros [_ He] _.
  assert (0 <= dt ^ 2) by (simpl; nra). assert (0 <= dt ^ 2 * epsilon c) by nra. lra.
Qed.

Lemma pair_sym c dt y x : pair_entry c dt y x = pair_entry c dt x y.
Proof. unfold pair_entry. now rewrite distance_sym, factor_sym. Qed.

Lemma pair_self c dt x : pair_entry c dt x x = 1.
Proof.
  unfold pair_entry. rewrite distance_self.
  replace (-1 * 0 ^ 2 * factor_cdist c dt x x) with 0 by (simpl; ring). apply exp_0.
Qed.

Lemma pair_range c dt y x : valid_cone c -> dt ^ 2 * epsilon c <> 0 -> 0 < pair_entry c dt y x <= 1.
Proof.
  intros Hc Hs. split; [apply exp_pos|]. rewrite <- exp_0. unfold pair_entry.
  assert (Hf := factor_nonneg c dt y x Hc Hs).
  assert (0 <= distance_entry y x ^ 2) by (simpl; assert (H := norm_nonneg (sub (state x) (state y))); unfold distance_entry; nra).
  destruct (Req_dec (distance_entry y x ^ 2 * factor_cdist c dt y x) 0) as [E|E].
  - replace (-1 * distance_entry y x ^ 2 * factor_cdist c dt y x) with 0 by lra. lra.
  - left. apply exp_increasing. assert (0 <= distance_entry y x ^ 2 * factor_cdist c dt y x) by (apply Rmult_le_pos; lra). lra.
Qed.

(** The entry of a pair that is not treated as duplicates. *)
Definition actual c dt (y x : sample) : R :=
  exp (- (norm (sub (state x) (state y)) ^ 2 /
          (epsilon c * dt ^ 2 * norm (velocity y) * norm (velocity x)) *
          sqrt ((1 - zeta c * cos (cos_angle y x) ^ 2) * (1 - zeta c * cos (cos_angle x y) ^ 2)))).

Lemma apart_norms y x : apart y x ->
  0 < norm (velocity y) /\ 0 < norm (velocity x) /\ 0 < norm (sub (state x) (state y)).
Proof.
  intros [H1 H2]. assert (Hd := dup_pos).
  assert (Hy := norm_nonneg (velocity y)). assert (Hx := norm_nonneg (velocity x)).
  assert (Hn := norm_nonneg (sub (state x) (state y))). rewrite (norm_sub_sym (state y)) in H2.
  repeat split; apply Rnot_le_lt; intro H; nra.
Qed.

Lemma pair_apart c dt y x : valid_cone c -> dt ^ 2 * epsilon c <> 0 -> apart y x ->
  pair_entry c dt y x = actual c dt y x.
Proof.
  intros Hc Hs Ha. destruct (apart_norms y x Ha) as (Hy & Hx & Hd).
  unfold pair_entry, actual, factor_cdist, division_entry. f_equal.
  destruct (Req_EM_T (norm (velocity y)) 0); [lra|]. destruct (Req_EM_T (norm (velocity x)) 0); [lra|].
  destruct Ha as [Ha1 Ha2].
  assert (Ang : angular_factor c y x =
    sqrt ((1 - zeta c * cos (cos_angle y x) ^ 2) * (1 - zeta c * cos (cos_angle x y) ^ 2))).
  { unfold angular_factor. destruct (Req_EM_T (zeta c) 0) as [E|E].
    - rewrite E. replace ((1 - 0 * cos (cos_angle y x) ^ 2) * (1 - 0 * cos (cos_angle x y) ^ 2)) with 1 by ring.
      now rewrite sqrt_1.
    - rewrite (cos_entry_apart c y x Ha1), (cos_entry_apart c x y Ha2). reflexivity. }
  rewrite Ang. unfold distance_entry. set (S := sqrt _). set (D := norm (sub _ _)) in *.
  assert (dt <> 0 /\ epsilon c <> 0) as [H1 H2].
  { split; intro E; apply Hs; rewrite E; simpl; ring. }
  field. repeat split; lra.
Qed.

Lemma exp_scale_lt u a b : 0 < u -> a < b -> exp (- (u * b)) < exp (- (u * a)).
Proof. intros. apply exp_increasing. nra. Qed.

Lemma coefficient_pos c dt y x : valid_cone c -> dt ^ 2 * epsilon c <> 0 -> apart y x ->
  0 < norm (sub (state x) (state y)) ^ 2 / (epsilon c * dt ^ 2 * norm (velocity y) * norm (velocity x)).
Proof.
  intros [_ He] Hs Ha. destruct (apart_norms y x Ha) as (Hy & Hx & Hd).
  assert (0 <= dt ^ 2) by (simpl; nra).
  assert (0 < epsilon c * dt ^ 2) by (assert (0 <= dt ^ 2 * epsilon c) by nra; lra).
  apply Rdiv_lt_0_compat; [apply pow_lt; lra|].
  apply Rmult_lt_0_compat; [apply Rmult_lt_0_compat|]; lra.
Qed.

Lemma one_lt_PI : 1 < PI.
Proof. assert (H := PI2_1). lra. Qed.

Lemma cos_between v : Rabs v <= 1 -> 0 < cos v.
Proof.
  intro H. rewrite <- cos_abs. assert (Hp := PI2_1). assert (H0 := Rabs_pos v).
  apply cos_gt_0; lra.
Qed.

(** Larger |v| gives a larger factor. *)
Lemma factor_mono z v w : 0 < z -> Rabs v < Rabs w -> Rabs w <= 1 ->
  1 - z * cos v ^ 2 < 1 - z * cos w ^ 2.
Proof.
  intros Hz Hvw Hw. assert (Hp := one_lt_PI). assert (H0 := Rabs_pos v).
  assert (cos (Rabs w) < cos (Rabs v)) by (apply cos_decreasing_1; lra).
  rewrite !cos_abs in H. assert (0 < cos w) by now apply cos_between.
  assert (cos w ^ 2 < cos v ^ 2) by (simpl; nra). nra.
Qed.

Lemma factor_mono_le z v w : 0 < z -> Rabs v <= Rabs w -> Rabs w <= 1 ->
  1 - z * cos v ^ 2 <= 1 - z * cos w ^ 2.
Proof.
  intros Hz [H|H] Hw; [left; now apply factor_mono|].
  rewrite <- (cos_abs v), H, cos_abs. lra.
Qed.

Lemma apart_sym y x : apart y x -> apart x y.
Proof. intros [H1 H2]. now split. Qed.

Lemma apart_angle y x : apart y x -> Rabs (cos_angle y x) <= 1.
Proof. intros [H _]. apply cos_angle_le1. assert (Hd := dup_pos). lra. Qed.

(** The better aligned pair gets the smaller entry. *)
Lemma aligned_smaller c dt y x y' x' : valid_cone c -> 0 < zeta c -> dt ^ 2 * epsilon c <> 0 ->
  apart y x -> apart y' x' ->
  norm (sub (state x) (state y)) = norm (sub (state x') (state y')) ->
  norm (velocity y) = norm (velocity y') -> norm (velocity x) = norm (velocity x') ->
  Rabs (cos_angle y x) < Rabs (cos_angle y' x') -> Rabs (cos_angle x y) <= Rabs (cos_angle x' y') ->
  pair_entry c dt y' x' < pair_entry c dt y x.
Proof.
  intros Hc Hz Hs Ha Ha' Ed Ey Ex H1 H2.
  rewrite (pair_apart c dt y x Hc Hs Ha), (pair_apart c dt y' x' Hc Hs Ha').
  unfold actual. rewrite <- Ed, <- Ey, <- Ex. apply exp_scale_lt; [now apply coefficient_pos|].
  assert (B1 := apart_angle _ _ Ha'). assert (B2 := apart_angle _ _ (apart_sym _ _ Ha')).
  assert (F1 := factor_mono (zeta c) _ _ Hz H1 B1). assert (F2 := factor_mono_le (zeta c) _ _ Hz H2 B2).
  destruct Hc as [Hz1 _].
  assert (P1 := cos_sq_bound (cos_angle y x)). assert (P2 := cos_sq_bound (cos_angle x y)).
  set (A := 1 - zeta c * cos (cos_angle y x) ^ 2) in *. set (B := 1 - zeta c * cos (cos_angle x y) ^ 2) in *.
  set (A' := 1 - zeta c * cos (cos_angle y' x') ^ 2) in *. set (B' := 1 - zeta c * cos (cos_angle x' y') ^ 2) in *.
  assert (0 < A) by (unfold A; nra). assert (0 < B) by (unfold B; nra).
  apply sqrt_lt_1_alt. split; nra.
Qed.

(** Comparison with the documented value. *)
Lemma aligned_below_documented c dt y x : valid_cone c -> 0 < zeta c -> dt ^ 2 * epsilon c <> 0 ->
  apart y x -> Rabs (cos_angle y x) = 1 -> Rabs (cos_angle x y) = 1 ->
  pair_entry c dt y x < documented c dt y x.
Proof.
  intros Hc Hz Hs Ha H1 H2. rewrite (pair_apart c dt y x Hc Hs Ha). unfold actual, documented.
  apply exp_scale_lt; [now apply coefficient_pos|].
  assert (S : forall v, Rabs v = 1 -> v ^ 2 = 1).
  { intros v Hv. rewrite <- pow2_abs, Hv. ring. }
  assert (C1 : cos 1 ^ 2 < 1).
  { assert (Hp := one_lt_PI). assert (cos 1 < cos 0) by (apply cos_decreasing_1; lra). rewrite cos_0 in H.
    assert (0 < cos 1) by (apply cos_between; rewrite Rabs_R1; lra). simpl. nra. }
  rewrite (S _ H1), (S _ H2), <- (cos_abs (cos_angle y x)), <- (cos_abs (cos_angle x y)), H1, H2.
  destruct Hc as [Hz1 _]. apply sqrt_lt_1_alt. set (t := cos 1 ^ 2) in *.
  assert (0 < 1 - zeta c) by lra. assert (1 - zeta c * 1 < 1 - zeta c * t) by nra. split; nra.
Qed.

Lemma perpendicular_above_documented c dt y x : valid_cone c -> 0 < zeta c -> dt ^ 2 * epsilon c <> 0 ->
  apart y x -> cos_angle y x = 0 -> cos_angle x y = 0 ->
  documented c dt y x < pair_entry c dt y x.
Proof.
  intros Hc Hz Hs Ha H1 H2. rewrite (pair_apart c dt y x Hc Hs Ha). unfold actual, documented.
  apply exp_scale_lt; [now apply coefficient_pos|].
  rewrite H1, H2, cos_0. destruct Hc as [Hz1 _]. apply sqrt_lt_1_alt.
  assert (0 < 1 - zeta c) by lra. simpl. split; nra.
Qed.

Lemma zeta0_documented c dt y x : valid_cone c -> zeta c = 0 -> dt ^ 2 * epsilon c <> 0 ->
  0 < norm (velocity y) -> 0 < norm (velocity x) -> pair_entry c dt y x = documented c dt y x.
Proof.
  intros Hc Hz Hs Hy Hx. unfold pair_entry, documented, factor_cdist, division_entry, angular_factor, distance_entry.
  rewrite Hz. destruct (Req_EM_T 0 0) as [_|N]; [|now destruct N].
  destruct (Req_EM_T (norm (velocity y)) 0); [lra|]. destruct (Req_EM_T (norm (velocity x)) 0); [lra|].
  replace ((1 - 0 * cos_angle y x ^ 2) * (1 - 0 * cos_angle x y ^ 2)) with 1 by ring. rewrite sqrt_1.
  assert (dt <> 0 /\ epsilon c <> 0) as [H1 H2].
  { split; intro E; apply Hs; rewrite E; simpl; ring. }
  f_equal. field. repeat split; lra.
Qed.

Lemma at_rest c dt y x : norm (velocity y) = 0 \/ norm (velocity x) = 0 -> pair_entry c dt y x = 1.
Proof.
  intro H. unfold pair_entry, factor_cdist, division_entry.
  assert (E : (if Req_EM_T (norm (velocity y)) 0 then 0 else if Req_EM_T (norm (velocity x)) 0 then 0
     else / norm (velocity y) * angular_factor c y x * / norm (velocity x)) = 0).
  { destruct (Req_EM_T (norm (velocity y)) 0); auto. destruct (Req_EM_T (norm (velocity x)) 0); auto. lra. }
  rewrite E, Rmult_0_l, Rmult_0_r. apply exp_0.
Qed.
