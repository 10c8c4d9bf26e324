(** * C99: the benchmark systems (utils/_systems.py). *)

From Coq Require Import Reals List Arith Lia Lra Psatz.
From Coquelicot Require Import Coquelicot.
From Verif Require Import BenModel BenSpec BenProofs BenBurger.
Import ListNotations.
Local Open Scope R_scope.

(** C99: LimitCycle computes the angle in [0, 2 pi) of every point that is not the origin (1e-15). *)
Theorem C99_angle :
  forall x1 x2, / 10 ^ 15 <= norm2 x1 x2 ->
    norm2 x1 x2 = sqrt (x1 * x1 + x2 * x2) /\
    Polar x1 x2 (norm2 x1 x2) (compute_angle x1 x2) /\ 0 <= compute_angle x1 x2 < 2 * PI.
Proof. intros x1 x2 H. split; [reflexivity|]. exact (angle_polar x1 x2 H). Qed.
Print Assumptions C99_angle.

(** C99: the analytical solution solves r' = r (1 - r^2), alpha' = 1 / eps at all times t >= 0, starts within 1e-10 of the
    radius of the initial state and approaches the cycle r = 1 at the rate exp (-2 t). *)
Theorem C99_limit_cycle :
  forall eps x1 x2 t, 0 <= t ->
    let r := analytical_radius x1 x2 in
    let a := analytical_angle eps x1 x2 in
    is_derive r t (r t * (1 - r t * r t)) /\ is_derive a t (1 / eps) /\
    r 0 = norm2 x1 x2 + / 10 ^ 10 /\ a 0 = compute_angle x1 x2 /\
    1 / (r t * r t) - 1 = exp (- (2 * t)) * (1 / (r 0 * r 0) - 1).
Proof.
  intros eps x1 x2 t Ht r a. split; [apply radius_derive; exact Ht|]. split; [apply angle_derive|].
  split; [apply radius_start|]. split; [unfold a, analytical_angle; ring|].
  unfold r. rewrite radius_start. apply radius_rate. exact Ht.
Qed.
Print Assumptions C99_limit_cycle.

(** C99: the finite difference scheme has the exact angles at the times i dt, and for step sizes up to 1/2 and initial states
    in the unit disc (without the origin) its radii grow towards the cycle and never leave the disc. *)
Theorem C99_finite_differences :
  forall eps dt x1 x2 i, 0 < dt <= 1 / 2 -> 0 < norm2 x1 x2 <= 1 ->
    euler_angle eps dt x1 x2 i = analytical_angle eps x1 x2 (INR i * dt) /\
    0 < euler_radius dt x1 x2 i <= euler_radius dt x1 x2 (S i) /\ euler_radius dt x1 x2 (S i) <= 1.
Proof. intros eps dt x1 x2 i Hd Hr. split; [apply euler_angle_closed|]. apply euler_bounds; assumption. Qed.
Print Assumptions C99_finite_differences.

(** C99: along every solution of the Hopf system the squared radius s satisfies s' = 2 s (mu - s) and the state turns with
    angular velocity one. *)
Theorem C99_hopf :
  forall mu x y, Solves (hopf_f mu) x y ->
    forall t, is_derive (fun t => x t * x t + y t * y t) t
                (2 * (x t * x t + y t * y t) * (mu - (x t * x t + y t * y t))) /\
              x t * Derive y t - y t * Derive x t = x t * x t + y t * y t.
Proof. intros mu x y H t. split; [apply hopf_radius; exact H|]. apply hopf_turns with (mu := mu). exact H. Qed.
Print Assumptions C99_hopf.

(** C99: the columns "r" and "angle" of the Hopf system are polar coordinates of every state with x1 <> 0. *)
Theorem C99_hopf_polar :
  forall x, fst x <> 0 ->
    Polar (fst x) (snd x) (fst (hopf_polar x)) (snd (hopf_polar x)) /\ - PI < snd (hopf_polar x) <= PI.
Proof. exact hopf_polar_ok. Qed.
Print Assumptions C99_hopf_polar.

(** C99: on the axis x1 = 0 the radius is computed as x1 / cos(angle), a multiple of zero, and not |x2|. *)
Theorem C99_hopf_polar_refuted :
  forall x2, x2 <> 0 -> ~ Polar 0 x2 (fst (hopf_polar (0, x2))) (snd (hopf_polar (0, x2))).
Proof.
  intros x2 H (_ & E & _). apply H. rewrite E. unfold hopf_polar. cbn [fst snd]. unfold Rdiv. ring.
Qed.
Print Assumptions C99_hopf_polar_refuted.

(** C99: the pendulum is drawn on the circle with the rod as radius around the fixation point, at rest in the origin, and
    the energy of every solution decreases with the rate of the friction: it is never gained, and conserved without
    friction. *)
Theorem C99_pendulum_position :
  forall p theta, convert_cartesian p theta = (rod p * sin theta, rod p * (1 - cos theta)) /\
    (fst (convert_cartesian p theta) - fst (fixation p)) ^ 2 + (snd (convert_cartesian p theta) - snd (fixation p)) ^ 2 = rod p ^ 2 /\
    convert_cartesian p 0 = equilibrium_point.
Proof.
  intros p theta. rewrite !cartesian_xy. split; [reflexivity|]. split.
  - cbn [fst snd fixation]. assert (C := sin2_cos2 theta). unfold Rsqr in C.
    replace ((rod p * sin theta - 0) ^ 2 + (rod p * (1 - cos theta) - rod p) ^ 2) with (rod p ^ 2 * (sin theta * sin theta + cos theta * cos theta)) by ring.
    rewrite C. ring.
  - rewrite sin_0, cos_0. unfold equilibrium_point. f_equal; ring.
Qed.
Print Assumptions C99_pendulum_position.

Theorem C99_pendulum_energy :
  forall p th om, 0 < mass p -> 0 < rod p -> Solves (pendulum_f p) th om ->
    let E t := mech_energy (mass p) (rod p) (gravity p) (th t) (om t) in
    (forall t, is_derive E t (- friction p * (rod p * om t) ^ 2)) /\
    (0 <= friction p -> forall s t, s <= t -> E t <= E s) /\
    (friction p = 0 -> forall s t, E t = E s).
Proof.
  intros p th om Hm Hl H E. split; [exact (pendulum_energy p th om Hm Hl H)|].
  split; [intros Hf; exact (pendulum_decreases p th om Hm Hl Hf H)|intros Hf; exact (pendulum_conserves p th om Hm Hl Hf H)].
Qed.
Print Assumptions C99_pendulum_energy.

(** C99: InvertedPendulum.  The acceleration of the angle and of the cart satisfy the equation of the pendulum on an
    accelerated support, l theta'' = cos(theta) x'' + g sin(theta), only without control input (or with the pendulum
    horizontal): the control input acts on the cart but not on the pendulum, and it is not multiplied with the gain. *)
Theorem C99_inverted_pendulum :
  forall p y, 0 < c_M p -> 0 <= c_m p -> 0 < c_len p ->
    c_len p * s_omega (inverted_f p y 0) = cos (s_theta y) * s_v (inverted_f p y 0) + c_g p * sin (s_theta y) /\
    s_x (inverted_f p y 0) = s_v y /\ s_theta (inverted_f p y 0) = s_omega y.
Proof.
  intros p y H1 H2 H3. split; [|split; reflexivity]. assert (E := inverted_defect p y 0 H1 H2 H3). unfold Rdiv in E. lra.
Qed.
Print Assumptions C99_inverted_pendulum.

Theorem C99_inverted_pendulum_control_refuted :
  forall p y u, 0 < c_M p -> 0 <= c_m p -> 0 < c_len p -> u <> 0 -> cos (s_theta y) <> 0 ->
    c_len p * s_omega (inverted_f p y u) <> cos (s_theta y) * s_v (inverted_f p y u) + c_g p * sin (s_theta y) /\
    s_omega (inverted_f p y u) = s_omega (inverted_f p y 0).
Proof.
  intros p y u H1 H2 H3 Hu Hc. split; [|reflexivity]. intros E0. assert (E := inverted_defect p y u H1 H2 H3).
  assert (HA := alpha_pos p y H1 H2).
  assert (N : u * cos (s_theta y) / (c_M p + c_m p * (sin (s_theta y) * sin (s_theta y))) = 0) by lra.
  unfold Rdiv in N. apply Rmult_integral in N. destruct N as [N|N].
  - apply Rmult_integral in N. destruct N; contradiction.
  - apply (Rinv_neq_0_compat _ (Rgt_not_eq _ _ HA)). exact N.
Qed.
Print Assumptions C99_inverted_pendulum_control_refuted.

(** C99: the gain of the motor is a constant force: without control input the upright pendulum at rest is no equilibrium. *)
Theorem C99_inverted_pendulum_rest_refuted :
  forall p x, 0 < c_M p -> c_gain p <> 0 ->
    s_v (inverted_f p (CState x 0 0 0) 0) = c_gain p / c_M p /\ c_gain p / c_M p <> 0.
Proof.
  intros p x H1 H2. split.
  - unfold inverted_f. cbn [s_v s_theta s_omega]. rewrite sin_0, cos_0. field. lra.
  - unfold Rdiv. apply Rmult_integral_contrapositive_currified; [exact H2|]. apply Rinv_neq_0_compat. lra.
Qed.
Print Assumptions C99_inverted_pendulum_rest_refuted.

(** C99: InvertedPendulum2 satisfies the corresponding equation with friction for every input, but for fixed
    constants: the parameters of the constructor have no effect. *)
Theorem C99_inverted_pendulum2 :
  forall p y u,
    3 / 10 * s_omega (inverted2_f p y u) + cos (s_theta y) * s_v (inverted2_f p y u)
    = 981 / 100 * sin (s_theta y) - 1 / 10 * s_omega y.
Proof. exact inverted2_constraint. Qed.
Print Assumptions C99_inverted_pendulum2.

Theorem C99_inverted_pendulum2_parameters_refuted :
  forall p q y u, inverted2_f p y u = inverted2_f q y u.
Proof. reflexivity. Qed.
Print Assumptions C99_inverted_pendulum2_parameters_refuted.

(** C99: theta_to_trigonometric followed by trigonometric_to_theta returns position, velocity and the angle up to full
    turns, exactly if it is in (-pi, pi]. *)
Theorem C99_trigonometric :
  forall y, let z := trigonometric_to_theta (theta_to_trigonometric y) in
    s_x z = s_x y /\ s_v z = s_v y /\ SameAngle (s_theta z) (s_theta y) /\ - PI < s_theta z <= PI /\
    (- PI < s_theta y <= PI -> s_theta z = s_theta y) /\ (- PI < s_omega y <= PI -> s_omega z = s_omega y).
Proof.
  intros y z. split; [reflexivity|]. split; [reflexivity|].
  destruct (arctan2_sin_cos (s_theta y)) as [H1 H2]. destruct (arctan2_sin_cos (s_omega y)) as [H3 H4].
  split; [exact H1|]. split; [exact H2|]. split; intros H; apply same_angle_range; assumption.
Qed.
Print Assumptions C99_trigonometric.

(** C99: the angular velocity is treated like an angle: every angular velocity outside of (-pi, pi] is changed. *)
Theorem C99_trigonometric_velocity_refuted :
  forall y, ~ (- PI < s_omega y <= PI) ->
    s_omega (trigonometric_to_theta (theta_to_trigonometric y)) <> s_omega y.
Proof.
  intros y H E. apply H. rewrite <- E. destruct (arctan2_sin_cos (s_omega y)) as [_ H4]. exact H4.
Qed.
Print Assumptions C99_trigonometric_velocity_refuted.

(** C99: Burger1DPeriodicBoundary.  Every node is coupled with its two neighbours on the ring by central differences, and
    the sum of all nodes changes by the control input only. *)
Theorem C99_burger :
  forall dx nu y u, dx <> 0 -> length u = length y ->
    length (burger_f dx nu y u) = length y /\ total (burger_f dx nu y u) = total u /\
    forall i, (i < length y)%nat ->
      nth i (burger_f dx nu y u) 0 =
        - (nth (next (length y) i) y 0 - nth (prev (length y) i) y 0) / (2 * dx) * nth i y 0
        + nu * (nth (next (length y) i) y 0 - 2 * nth i y 0 + nth (prev (length y) i) y 0) / (dx * dx)
        + nth i u 0.
Proof.
  intros dx nu y u Hd Hl. split; [|split].
  - destruct y as [|x y].
    + destruct u; [reflexivity|discriminate].
    + apply (burger_nth dx nu (x :: y) u 0 Hl). cbn. lia.
  - apply burger_total; assumption.
  - intros i Hi. apply burger_nth; assumption.
Qed.
Print Assumptions C99_burger.

(** C99: but the nodes 0 and 2 pi, the same point of the period, are two nodes with distance dx: for every 2 pi-periodic
    function the difference quotient at the node 0 converges to half of the derivative when the grid is refined. *)
Theorem C99_burger_seam_refuted :
  forall g d, g (2 * PI) = g 0 -> is_derive g 0 d ->
    is_lim_seq (fun n => nth 0 (advection (burger_dx (S (S n))) (samples g (S (S n)))) 0) (d / 2).
Proof. exact seam_limit. Qed.
Print Assumptions C99_burger_seam_refuted.

(** C99: ThreeStablePoints has exactly three equilibria. *)
Theorem C99_three_points :
  forall x, three_f x = (0, 0) <-> x = (0, 0) \/ x = (sqrt 2, 1) \/ x = (- sqrt 2, 1).
Proof. exact three_equilibria. Qed.
Print Assumptions C99_three_points.

(** Concrete cases: the hypotheses can be met. *)
Example C99_hopf_example : Solves (hopf_f 1) cos sin.
Proof.
  intros t. cbn. assert (C := sin2_cos2 t). unfold Rsqr in C. split.
  - auto_derive; [trivial|]. replace (1 - cos t * cos t - sin t * sin t) with 0 by lra. ring.
  - auto_derive; [trivial|]. replace (1 - cos t * cos t - sin t * sin t) with 0 by lra. ring.
Qed.

Example C99_pendulum_example : Solves (pendulum_f (Pendulum 1 1 0 10)) (fun _ => PI) (fun _ => 0).
Proof.
  intros t. cbn. split; [auto_derive; trivial|]. auto_derive; [trivial|]. rewrite sin_PI. field.
Qed.

Example C99_angle_example : / 10 ^ 15 <= norm2 (-3) (-4) /\ 0 < norm2 (3 / 10) (4 / 10) <= 1.
Proof.
  unfold norm2. replace (-3 * -3 + -4 * -4) with (5 * 5) by ring. rewrite sqrt_square by lra. split; [cbn; lra|].
  replace (3 / 10 * (3 / 10) + 4 / 10 * (4 / 10)) with (1 / 2 * (1 / 2)) by field. rewrite sqrt_square by lra. lra.
Qed.

Example C99_burger_example :
  burger_f 1 1 [1; 2; 4] [0; 0; 1] = [5; -2; -2] /\ sin (2 * PI) = sin 0 /\ is_derive sin 0 1.
Proof.
  split; [|split; [rewrite sin_2PI, sin_0; reflexivity|auto_derive; [trivial|rewrite cos_0; ring]]].
  unfold burger_f, advection, convection, pad. cbn. repeat f_equal; field.
Qed.
