(** * Proofs about the benchmark systems. *)

From Coq Require Import Reals List Arith Lia Lra Psatz.
From Coquelicot Require Import Coquelicot.
From Verif Require Import BenModel BenSpec.
Import ListNotations.
Local Open Scope R_scope.

(** ** angles *)

Lemma sq_pos x : 0 <= x * x.
Proof. nra. Qed.

Lemma norm2_sq x y : norm2 x y * norm2 x y = x * x + y * y.
Proof. unfold norm2. apply sqrt_sqrt. nra. Qed.

Lemma ten_pow_pos n : 0 < / 10 ^ n.
Proof. apply Rinv_0_lt_compat, pow_lt. lra. Qed.

Lemma cos_range x n : 0 < n -> n * n = x * x + 0 * 0 \/ x * x <= n * n -> -1 <= x / n <= 1.
Proof.
  intros Hn H. assert (Hx : x * x <= n * n) by (destruct H; nra).
  assert (-n <= x <= n) by (split; nra).
  split.
  - apply Rmult_le_reg_r with n; [exact Hn|]. unfold Rdiv. rewrite Rmult_assoc, Rinv_l by lra. lra.
  - apply Rmult_le_reg_r with n; [exact Hn|]. unfold Rdiv. rewrite Rmult_assoc, Rinv_l by lra. lra.
Qed.

Lemma Rdiv_neg_neg x y : x < 0 -> y < 0 -> 0 < x / y.
Proof. intros H1 H2. replace (x / y) with ((- x) / (- y)) by (field; lra). apply Rdiv_lt_0_compat; lra. Qed.

Lemma Rdiv_pos_neg x y : 0 < x -> y < 0 -> x / y < 0.
Proof. intros H1 H2. assert (0 < x / - y) by (apply Rdiv_lt_0_compat; lra). replace (x / y) with (- (x / - y)) by (field; lra). lra. Qed.

Lemma angle_polar x1 x2 : / 10 ^ 15 <= norm2 x1 x2 ->
  Polar x1 x2 (norm2 x1 x2) (compute_angle x1 x2) /\ 0 <= compute_angle x1 x2 < 2 * PI.
Proof.
  intros H. set (n := norm2 x1 x2) in *. assert (Hn : 0 < n) by (assert (P := ten_pow_pos 15); lra).
  assert (HS := norm2_sq x1 x2). fold n in HS.
  assert (Hr : -1 <= x1 / n <= 1) by (apply cos_range; [exact Hn|right; nra]).
  assert (HA := acos_bound (x1 / n)). assert (HP := PI_RGT_0).
  assert (Hc : cos (acos (x1 / n)) = x1 / n) by (apply cos_acos; exact Hr).
  assert (Hs : sin (acos (x1 / n)) = Rabs x2 / n).
  { rewrite sin_acos by exact Hr. apply Rsqr_inj; [apply sqrt_pos| |].
    - apply Rmult_le_pos; [apply Rabs_pos|]. left. now apply Rinv_0_lt_compat.
    - rewrite Rsqr_sqrt.
      + unfold Rsqr. apply Rmult_eq_reg_r with (n * n); [|nra]. field_simplify; [|lra|lra].
        replace (Rabs x2 ^ 2) with (x2 * x2) by (rewrite <- Rsqr_pow2, <- Rsqr_abs; reflexivity). nra.
      + unfold Rsqr. assert (x1 / n * (x1 / n) <= 1) by nra. lra. }
  unfold compute_angle. fold n. destruct (Rlt_dec n (/ 10 ^ 15)) as [L|_]; [exfalso; lra|].
  destruct (Rlt_dec x2 0) as [L|L].
  - assert (Hpos : 0 < acos (x1 / n)).
    { destruct (proj1 HA) as [|E]; [assumption|]. exfalso. rewrite <- E, sin_0 in Hs.
      assert (0 < Rabs x2 / n) by (apply Rdiv_lt_0_compat; [apply Rabs_pos_lt; lra|exact Hn]). lra. }
    split; [|lra]. split; [|split; [|lra]].
    + replace (2 * PI - acos (x1 / n)) with (- acos (x1 / n) + 2 * INR 1 * PI) by (cbn; ring).
      rewrite cos_period, cos_neg, Hc. field. lra.
    + replace (2 * PI - acos (x1 / n)) with (- acos (x1 / n) + 2 * INR 1 * PI) by (cbn; ring).
      rewrite sin_period, sin_neg, Hs, Rabs_left by lra. field. lra.
  - split; [|lra]. split; [|split; [|lra]].
    + rewrite Hc. field. lra.
    + rewrite Hs, Rabs_right by lra. field. lra.
Qed.

Lemma arctan2_spec x y : x <> 0 \/ y <> 0 ->
  Polar x y (norm2 x y) (arctan2 y x) /\ - PI < arctan2 y x <= PI.
Proof.
  intros Hne. assert (HP := PI_RGT_0). set (n := norm2 x y). assert (HS : n * n = x * x + y * y) by apply norm2_sq.
  assert (Hn : 0 <= n) by apply sqrt_pos.
  assert (Hat : forall z, - (PI / 2) < atan z < PI / 2). { intros z. assert (B := atan_bound z). lra. }
  (* cos (atan z) = 1 / sqrt (1 + z^2) *)
  assert (key : x <> 0 -> let s := cos (atan (y / x)) in 0 < s /\ x * x = s * s * (n * n)).
  { intros Hx s. assert (Hs : 0 < s) by (apply cos_gt_0; apply Hat). split; [exact Hs|].
    assert (Ht : sin (atan (y / x)) = y / x * s).
    { assert (T := atan_right_inv (y / x)). unfold tan in T. rewrite <- T at 2. unfold s. field. fold s. lra. }
    assert (C := sin2_cos2 (atan (y / x))). unfold Rsqr in C. rewrite Ht in C. fold s in C. rewrite HS.
    assert (E : s * s * (x * x + y * y) = x * x * (y / x * s * (y / x * s) + s * s)) by (field; exact Hx).
    rewrite E, C. ring. }
  assert (keys : x <> 0 -> sin (atan (y / x)) = y / x * cos (atan (y / x))).
  { intros Hx. destruct (key Hx) as [Hs _]. assert (T := atan_right_inv (y / x)). unfold tan in T. rewrite <- T at 2. field. lra. }
  unfold arctan2. destruct (Rlt_dec 0 x) as [L|L].
  - destruct (key ltac:(lra)) as [Hs E]. specialize (keys ltac:(lra)). set (s := cos (atan (y / x))) in *.
    assert (E1 : x = n * s) by (assert (0 < n) by nra; assert ((x - n * s) * (x + n * s) = 0) by nra;
      destruct (Rmult_integral _ _ H0); nra).
    split; [|specialize (Hat (y / x)); lra]. split; [exact E1|]. split; [|exact Hn].
    rewrite keys. replace (n * (y / x * s)) with (y / x * (n * s)) by ring. rewrite <- E1. field. lra.
  - destruct (Rlt_dec x 0) as [L2|L2].
    + destruct (key ltac:(lra)) as [Hs E]. specialize (keys ltac:(lra)). set (s := cos (atan (y / x))) in *.
      assert (E1 : x = - (n * s)) by (assert (0 < n) by nra; assert ((x - n * s) * (x + n * s) = 0) by nra;
        destruct (Rmult_integral _ _ H0); nra).
      assert (EY : y = - (n * (y / x * s))).
      { replace (- (n * (y / x * s))) with (y / x * (- (n * s))) by ring. rewrite <- E1. field. lra. }
      destruct (Rlt_dec y 0) as [L3|L3].
      * assert (0 < atan (y / x)). { rewrite <- atan_0. apply atan_increasing. apply Rdiv_neg_neg; lra. }
        split; [|specialize (Hat (y / x)); lra]. split; [|split; [|exact Hn]].
        -- rewrite cos_minus, cos_PI, sin_PI. fold s. rewrite E1 at 1. ring.
        -- rewrite sin_minus, cos_PI, sin_PI, keys. rewrite EY at 1. ring.
      * assert (atan (y / x) <= 0).
        { rewrite <- atan_0. destruct (Req_dec y 0) as [->|Hy]; [right; f_equal; unfold Rdiv; ring|].
          left. apply atan_increasing. apply Rdiv_pos_neg; lra. }
        split; [|specialize (Hat (y / x)); lra]. split; [|split; [|exact Hn]].
        -- rewrite neg_cos. fold s. rewrite E1 at 1. ring.
        -- rewrite neg_sin, keys. rewrite EY at 1. ring.
    + assert (x = 0) by lra. subst x. assert (En : n * n = y * y) by (rewrite HS; ring).
      destruct (Rlt_dec 0 y) as [L3|L3].
      * split; [|lra]. split; [rewrite cos_PI2; ring|]. split; [|exact Hn]. rewrite sin_PI2. nra.
      * destruct (Rlt_dec y 0) as [L4|L4]; [|exfalso; lra].
        split; [|lra]. replace (- PI / 2) with (- (PI / 2)) by field. split; [rewrite cos_neg, cos_PI2; ring|].
        split; [|exact Hn]. rewrite sin_neg, sin_PI2. nra.
Qed.

Lemma same_angle a b : cos a = cos b -> sin a = sin b -> SameAngle a b.
Proof.
  intros Hc Hs.
  assert (C1 : cos (a - b) = 1). { rewrite cos_minus, Hc, Hs. assert (E := sin2_cos2 b). unfold Rsqr in E. lra. }
  assert (S0 : sin ((a - b) / 2) = 0).
  { replace (a - b) with (2 * ((a - b) / 2)) in C1 by field. rewrite cos_2a_sin in C1.
    assert (E : sin ((a - b) / 2) * sin ((a - b) / 2) = 0) by lra. destruct (Rmult_integral _ _ E); assumption. }
  apply sin_eq_0_0 in S0. destruct S0 as (k & Hk). exists k. lra.
Qed.

Lemma polar_angle x y r a b : Polar x y r a -> Polar x y r b -> 0 < r -> SameAngle a b.
Proof.
  intros (H1 & H2 & _) (H3 & H4 & _) Hr. apply same_angle; apply Rmult_eq_reg_l with r; lra.
Qed.

Lemma same_angle_range a b : SameAngle a b -> - PI < a <= PI -> - PI < b <= PI -> a = b.
Proof.
  intros (k & Hk) Ha Hb. assert (HP := PI_RGT_0).
  assert (E : (k = 0)%Z).
  { assert (-1 < IZR k < 1). { split; apply Rmult_lt_reg_r with (2 * PI); lra. }
    destruct H as [L1 L2]. apply lt_IZR in L1, L2. lia. }
  subst k. lra.
Qed.

Lemma norm2_unit a : norm2 (cos a) (sin a) = 1.
Proof. unfold norm2. assert (E := sin2_cos2 a). unfold Rsqr in E. replace (cos a * cos a + sin a * sin a) with 1 by lra. apply sqrt_1. Qed.

Lemma arctan2_sin_cos a : SameAngle (arctan2 (sin a) (cos a)) a /\ - PI < arctan2 (sin a) (cos a) <= PI.
Proof.
  assert (Hne : cos a <> 0 \/ sin a <> 0).
  { assert (E := sin2_cos2 a). unfold Rsqr in E. destruct (Req_dec (cos a) 0) as [E0|]; [right|left; assumption]. intros E1. rewrite E0, E1 in E. lra. }
  destruct (arctan2_spec _ _ Hne) as [HP HR]. split; [|exact HR].
  eapply polar_angle; [exact HP| |rewrite norm2_unit; lra]. rewrite norm2_unit. unfold Polar. repeat split; lra.
Qed.

(** ** limit cycle *)

Lemma exp_double t : exp (2 * t) = exp t * exp t.
Proof. replace (2 * t) with (t + t) by ring. apply exp_plus. Qed.

Lemma exp_ge_1 t : 0 <= t -> 1 <= exp t.
Proof. intros [H|<-]; [|rewrite exp_0; lra]. rewrite <- exp_0. left. now apply exp_increasing. Qed.

Lemma start_pos x1 x2 : 0 < start_radius x1 x2.
Proof. unfold start_radius, norm2. assert (H := sqrt_pos (x1 * x1 + x2 * x2)). assert (P := ten_pow_pos 10). lra. Qed.

Lemma radicand_pos x1 x2 t : 0 <= t -> 0 < -1 + exp (2 * t) + 1 / (start_radius x1 x2 * start_radius x1 x2).
Proof.
  intros Ht. assert (H := start_pos x1 x2). assert (0 < 1 / (start_radius x1 x2 * start_radius x1 x2)) by (apply Rdiv_lt_0_compat; nra).
  rewrite exp_double. assert (E := exp_ge_1 t Ht). nra.
Qed.

Lemma radius_start x1 x2 : analytical_radius x1 x2 0 = start_radius x1 x2.
Proof.
  unfold analytical_radius. assert (H := start_pos x1 x2). rewrite Rmult_0_r, exp_0. set (r := start_radius x1 x2) in *.
  replace (-1 + 1 + 1 / (r * r)) with ((/ r) * (/ r)) by (field; lra).
  rewrite sqrt_square by (left; now apply Rinv_0_lt_compat). field. lra.
Qed.

Lemma radius_derive x1 x2 t : 0 <= t ->
  is_derive (analytical_radius x1 x2) t
    (analytical_radius x1 x2 t * (1 - analytical_radius x1 x2 t * analytical_radius x1 x2 t)).
Proof.
  intros Ht. assert (HQ := radicand_pos x1 x2 t Ht). unfold analytical_radius.
  set (c := 1 / (start_radius x1 x2 * start_radius x1 x2)) in *.
  set (S := sqrt (-1 + exp (2 * t) + c)). assert (HS : 0 < S) by (apply sqrt_lt_R0; exact HQ).
  auto_derive.
  - repeat split; try exact HQ. fold S. lra.
  - fold S. assert (ES : S * S = -1 + exp (2 * t) + c) by (apply sqrt_sqrt; lra). rewrite exp_double in *.
    field. lra.
Qed.

Lemma radius_rate x1 x2 t : 0 <= t ->
  1 / (analytical_radius x1 x2 t * analytical_radius x1 x2 t) - 1
  = exp (- (2 * t)) * (1 / (start_radius x1 x2 * start_radius x1 x2) - 1).
Proof.
  intros Ht. assert (HQ := radicand_pos x1 x2 t Ht). unfold analytical_radius. assert (Hr := start_pos x1 x2).
  set (c := 1 / (start_radius x1 x2 * start_radius x1 x2)) in *.
  set (S := sqrt (-1 + exp (2 * t) + c)). assert (HS : 0 < S) by (apply sqrt_lt_R0; exact HQ).
  assert (ES : S * S = -1 + exp (2 * t) + c) by (apply sqrt_sqrt; lra).
  rewrite exp_Ropp. rewrite exp_double in *. set (E := exp t) in *. assert (0 < E) by apply exp_pos.
  replace (1 / (E / S * (E / S))) with ((S * S) / (E * E)) by (field; lra). rewrite ES. field. lra.
Qed.

Lemma angle_derive eps x1 x2 t : is_derive (analytical_angle eps x1 x2) t (1 / eps).
Proof. unfold analytical_angle. auto_derive; [trivial|ring]. Qed.

Lemma euler_bounds dt x1 x2 i : 0 < dt <= 1 / 2 -> 0 < norm2 x1 x2 <= 1 ->
  0 < euler_radius dt x1 x2 i <= euler_radius dt x1 x2 (S i) /\ euler_radius dt x1 x2 (S i) <= 1.
Proof.
  intros Hd Hr.
  assert (H : 0 < euler_radius dt x1 x2 i <= 1 /\ 0 < euler_radius dt x1 x2 (S i) <= 1).
  { induction i as [|i IH].
    - split; [exact Hr|]. cbn. set (r := norm2 x1 x2) in *. assert (0 <= (1 - r) * (1 - dt * (r * (1 + r)))).
      { apply Rmult_le_pos; [lra|]. assert (r * (1 + r) <= 2) by nra. nra. }
      assert (0 <= dt * ((1 - r * r) * r)) by (apply Rmult_le_pos; [lra|]; apply Rmult_le_pos; nra). split; nra.
    - split; [apply IH|]. destruct IH as [_ IH]. set (r := euler_radius dt x1 x2 (S i)) in *. change (euler_radius dt x1 x2 (S (S i))) with (r + dt * ((- (r * r) + 1) * r)).
      assert (0 <= (1 - r) * (1 - dt * (r * (1 + r)))).
      { apply Rmult_le_pos; [lra|]. assert (r * (1 + r) <= 2) by nra. nra. }
      assert (0 <= dt * ((1 - r * r) * r)) by (apply Rmult_le_pos; [lra|]; apply Rmult_le_pos; nra). split; nra. }
  destruct H as [H1 H2]. split; [|apply H2]. split; [apply H1|].
  cbn in *. set (r := euler_radius dt x1 x2 i) in *.
  assert (0 <= dt * ((1 - r * r) * r)) by (apply Rmult_le_pos; [lra|]; apply Rmult_le_pos; nra). nra.
Qed.

Lemma euler_angle_closed eps dt x1 x2 i : euler_angle eps dt x1 x2 i = analytical_angle eps x1 x2 (INR i * dt).
Proof.
  induction i as [|i IH]; [cbn; unfold analytical_angle; ring|]. cbn [euler_angle]. rewrite IH. unfold analytical_angle.
  rewrite S_INR. unfold Rdiv. ring.
Qed.

(** ** Hopf *)

Lemma hopf_radius mu x y : Solves (hopf_f mu) x y ->
  forall t, is_derive (fun t => x t * x t + y t * y t) t
      (2 * (x t * x t + y t * y t) * (mu - (x t * x t + y t * y t))).
Proof.
  intros H t. destruct (H t) as [Hx Hy]. cbn in Hx, Hy.
  auto_derive; [repeat split; eexists; eassumption|].
  rewrite (is_derive_unique (fun x0 : R => x x0) t _ Hx), (is_derive_unique (fun x0 : R => y x0) t _ Hy). ring.
Qed.

Lemma hopf_turns mu x y t : Solves (hopf_f mu) x y ->
  x t * Derive y t - y t * Derive x t = x t * x t + y t * y t.
Proof.
  intros H. destruct (H t) as [Hx Hy]. cbn in Hx, Hy. rewrite (is_derive_unique x t _ Hx), (is_derive_unique y t _ Hy). ring.
Qed.

Lemma hopf_polar_ok x : fst x <> 0 ->
  Polar (fst x) (snd x) (fst (hopf_polar x)) (snd (hopf_polar x)) /\ - PI < snd (hopf_polar x) <= PI.
Proof.
  destruct x as [x y]. cbn. intros Hx. destruct (arctan2_spec x y (or_introl Hx)) as [(H1 & H2 & H3) HR].
  split; [|exact HR]. assert (Hc : cos (arctan2 y x) <> 0) by (intros E; apply Hx; rewrite H1, E; ring).
  assert (E : x / cos (arctan2 y x) = norm2 x y) by (rewrite H1 at 1; field; exact Hc). rewrite E. repeat split; assumption.
Qed.

(** ** pendulum *)

Definition energy (p : pendulum) (theta omega : R) : R :=
  mech_energy (mass p) (rod p) (gravity p) theta omega.

Lemma cartesian_xy p theta : convert_cartesian p theta = (rod p * sin theta, rod p * (1 - cos theta)).
Proof.
  unfold convert_cartesian, fixation. cbn [fst snd].
  replace (theta - PI / 2) with (- (PI / 2 - theta)) by ring. rewrite cos_neg, sin_neg, cos_shift, sin_shift. f_equal; ring.
Qed.

Lemma pendulum_energy p th om : 0 < mass p -> 0 < rod p -> Solves (pendulum_f p) th om ->
  forall t, is_derive (fun t => energy p (th t) (om t)) t (- friction p * (rod p * om t) ^ 2).
Proof.
  intros Hm Hl H t. destruct (H t) as [Ht Ho]. cbn in Ht, Ho.
  apply (is_derive_ext (fun t => mass p * (rod p * om t) ^ 2 / 2 + mass p * gravity p * (rod p * (1 - cos (th t))))).
  { intros s. reflexivity. }
  auto_derive; [repeat split; eexists; eassumption|].
  rewrite (is_derive_unique (fun x : R => th x) t _ Ht), (is_derive_unique (fun x : R => om x) t _ Ho). field. lra.
Qed.

Lemma pendulum_decreases p th om : 0 < mass p -> 0 < rod p -> 0 <= friction p -> Solves (pendulum_f p) th om ->
  forall s t, s <= t -> energy p (th t) (om t) <= energy p (th s) (om s).
Proof.
  intros Hm Hl Hf H s t Hst. assert (HD := pendulum_energy p th om Hm Hl H).
  destruct (MVT_gen (fun t => energy p (th t) (om t)) s t (fun t => - friction p * (rod p * om t) ^ 2)) as (c & _ & E).
  - intros x _. apply HD.
  - intros x _. apply derivable_continuous_pt. exists (- friction p * (rod p * om x) ^ 2). apply is_derive_Reals. apply HD.
  - assert (0 <= friction p * (rod p * om c) ^ 2 * (t - s)). { apply Rmult_le_pos; [|lra]. apply Rmult_le_pos; [exact Hf|]. apply pow2_ge_0. } lra.
Qed.

Lemma pendulum_conserves p th om : 0 < mass p -> 0 < rod p -> friction p = 0 -> Solves (pendulum_f p) th om ->
  forall s t, energy p (th t) (om t) = energy p (th s) (om s).
Proof.
  intros Hm Hl Hf H s t. assert (HD := pendulum_energy p th om Hm Hl H).
  destruct (MVT_gen (fun t => energy p (th t) (om t)) s t (fun t => - friction p * (rod p * om t) ^ 2)) as (c & _ & E).
  - intros x _. apply HD.
  - intros x _. apply derivable_continuous_pt. exists (- friction p * (rod p * om x) ^ 2). apply is_derive_Reals. apply HD.
  - rewrite Hf in E. lra.
Qed.

(** ** inverted pendulum *)

Lemma alpha_pos p y : 0 < c_M p -> 0 <= c_m p -> 0 < c_M p + c_m p * (sin (s_theta y) * sin (s_theta y)).
Proof. intros H1 H2. assert (0 <= c_m p * (sin (s_theta y) * sin (s_theta y))) by (apply Rmult_le_pos; nra). lra. Qed.

Lemma inverted_defect p y u : 0 < c_M p -> 0 <= c_m p -> 0 < c_len p ->
  c_len p * s_omega (inverted_f p y u) - (cos (s_theta y) * s_v (inverted_f p y u) + c_g p * sin (s_theta y))
  = - (u * cos (s_theta y) / (c_M p + c_m p * (sin (s_theta y) * sin (s_theta y)))).
Proof.
  intros H1 H2 H3. assert (HA := alpha_pos p y H1 H2). unfold inverted_f. cbn [s_omega s_v].
  assert (C := sin2_cos2 (s_theta y)). unfold Rsqr in C.
  set (s := sin (s_theta y)) in *. set (c := cos (s_theta y)) in *.
  assert (Ec : c * c = 1 - s * s) by lra.
  field_simplify_eq; [|lra]. replace (c ^ 2) with (1 - s * s) by (cbn; lra). ring.
Qed.

Lemma inverted2_constraint p y u :
  (3 / 10) * s_omega (inverted2_f p y u) + cos (s_theta y) * s_v (inverted2_f p y u)
  = (981 / 100) * sin (s_theta y) - 1 / 10 * s_omega y.
Proof.
  unfold inverted2_f. cbn [s_omega s_v]. assert (C := sin2_cos2 (s_theta y)). unfold Rsqr in C.
  set (s := sin (s_theta y)) in *. set (c := cos (s_theta y)) in *.
  assert (Ec : c * c <= 1) by nra. field_simplify_eq; [|nra].
  ring.
Qed.

Lemma three_equilibria x : three_f x = (0, 0) <-> x = (0, 0) \/ x = (sqrt 2, 1) \/ x = (- sqrt 2, 1).
Proof.
  destruct x as [a b]. unfold three_f. cbn [fst snd].
  assert (S2 : sqrt 2 * sqrt 2 = 2) by (apply sqrt_sqrt; lra).
  split.
  - intros E. injection E as E1 E2. assert (E3 : a * (1 - b) = 0) by lra.
    destruct (Rmult_integral _ _ E3) as [E4|E4].
    + subst a. left. f_equal. lra.
    + assert (b = 1) by lra. subst b. right. assert (E5 : (a - sqrt 2) * (a + sqrt 2) = 0) by nra.
      destruct (Rmult_integral _ _ E5); [left|right]; f_equal; lra.
  - intros [E|[E|E]]; injection E as -> ->; f_equal; nra.
Qed.
