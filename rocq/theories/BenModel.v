(** * The benchmark systems (proof-free).

    Source: datafold/utils/_systems.py (cited as _systems.py).  Real numbers; numpy arrays are
    lists, states are tuples. *)

From Coq Require Import Reals List Arith.
Import ListNotations.
Local Open Scope R_scope.

(** np.arctan2 (numpy documentation; zeros have no sign). *)
Definition arctan2 (y x : R) : R :=
  if Rlt_dec 0 x then atan (y / x)
  else if Rlt_dec x 0 then (if Rlt_dec y 0 then atan (y / x) - PI else atan (y / x) + PI)
  else if Rlt_dec 0 y then PI / 2
  else if Rlt_dec y 0 then - PI / 2
  else 0.

(** np.linspace(0, b, n)[i] *)
Definition linspace (b : R) (n i : nat) : R := INR i * (b / (INR n - 1)).

(** ** LimitCycle *)

(** _systems.py 295-309 [_compute_angle]. *)
Definition norm2 (x1 x2 : R) : R := sqrt (x1 * x1 + x2 * x2).
Definition compute_angle (x1 x2 : R) : R :=
  let n := norm2 x1 x2 in
  if Rlt_dec n (/ 10 ^ 15) then 0
  else if Rlt_dec x2 0 then 2 * PI - acos (x1 / n)
  else acos (x1 / n).

(** _systems.py 311-313 [_as_cartesian_coordinates]. *)
Definition as_cartesian (ang rad : R) : R * R := (rad * cos ang, rad * sin ang).

(** _systems.py 355-372 [eval_analytical]: the values at time [t]. *)
Definition start_radius (x1 x2 : R) : R := norm2 x1 x2 + / 10 ^ 10.
Definition analytical_angle (eps x1 x2 t : R) : R := 1 / eps * t + compute_angle x1 x2.
Definition analytical_radius (x1 x2 t : R) : R :=
  exp t / sqrt (-1 + exp (2 * t) + 1 / (start_radius x1 x2 * start_radius x1 x2)).

(** _systems.py 331-353 [eval_finite_differences]: the columns "alpha" and "radius". *)
Fixpoint euler_angle (eps dt x1 x2 : R) (i : nat) : R :=
  match i with
  | O => compute_angle x1 x2
  | S j => euler_angle eps dt x1 x2 j + dt * 1 / eps
  end.
Fixpoint euler_radius (dt x1 x2 : R) (i : nat) : R :=
  match i with
  | O => norm2 x1 x2
  | S j => let r := euler_radius dt x1 x2 j in r + dt * ((- (r * r) + 1) * r)
  end.

(** ** Hopf *)

(** _systems.py 421-428 [_f]. *)
Definition hopf_f (mu : R) (y : R * R) : R * R :=
  let factor := mu - fst y * fst y - snd y * snd y in
  (- snd y + fst y * factor, fst y + snd y * factor).

(** _systems.py 447-448: polar initial conditions. *)
Definition hopf_from_polar (r angle : R) : R * R := (r * cos angle, r * sin angle).

(** _systems.py 463-470: the columns "r" and "angle" of the result. *)
Definition hopf_polar (x : R * R) : R * R :=
  let theta := arctan2 (snd x) (fst x) in (fst x / cos theta, theta).

(** ** Pendulum *)

Record pendulum := Pendulum { mass : R; rod : R; friction : R; gravity : R }.

(** _systems.py 521-526 [_integrate_pendulum_sim]. *)
Definition pendulum_f (p : pendulum) (y : R * R) : R * R :=
  (snd y, - friction p / mass p * snd y - gravity p / rod p * sin (fst y)).

(** _systems.py 528-539 [_compute_cart_parameters], [_convert_cartesian]. *)
Definition fixation (p : pendulum) : R * R := (0, rod p).
Definition equilibrium_point : R * R := (0, 0).
Definition convert_cartesian (p : pendulum) (theta : R) : R * R :=
  (fst (fixation p) + rod p * cos (theta - PI / 2), snd (fixation p) + rod p * sin (theta - PI / 2)).

(** ** InvertedPendulum *)

Record cart := Cart { c_m : R; c_M : R; c_g : R; c_gain : R; c_len : R; c_friction : R }.

(** (x, xdot, theta, thetadot) *)
Record cstate := CState { s_x : R; s_v : R; s_theta : R; s_omega : R }.

(** _systems.py 624-654 [InvertedPendulum._f]. *)
Definition inverted_f (p : cart) (y : cstate) (u : R) : cstate :=
  let m := c_m p in let M := c_M p in
  let sin_th := sin (s_theta y) in
  let cos_th := cos (s_theta y) in
  let alpha := M + m * (sin_th * sin_th) in
  CState (s_v y)
    ((c_gain p + m * c_g p * sin_th * cos_th - m * c_len p * (s_omega y * s_omega y) * sin_th
      - 2 * c_friction p * s_v y + u) / alpha)
    (s_omega y)
    ((c_gain p * cos_th - m * c_len p * (s_omega y * s_omega y) * sin_th * cos_th
      + (M + m) * c_g p * sin_th - 2 * c_friction p * s_v y * cos_th) / (c_len p * alpha)).

(** _systems.py 812-841 [InvertedPendulum2._f]: the constants are local to the function, the
    parameters of the constructor [p] are not used. *)
Definition inverted2_f (p : cart) (y : cstate) (u : R) : cstate :=
  let M := 5 / 10 in let m := 2 / 10 in let b := 1 / 10 in let ftheta := 1 / 10 in
  let l := 3 / 10 in let g := 981 / 100 in
  let v := s_v y in let theta := s_theta y in let omega := s_omega y in
  CState v
    ((m * l * sin theta * (omega * omega) - m * g * sin theta * cos theta
      + m * ftheta * cos theta * omega + u - b * v) / (M + m * (1 - cos theta * cos theta)))
    omega
    (((M + m) * (g * sin theta - ftheta * omega) - m * l * (omega * omega) * sin theta * cos theta
      - (u - b * v) * cos theta) / (l * (M + m * (1 - cos theta * cos theta)))).

(** The columns x, xdot, theta_cos, theta_sin, thetadot_cos, thetadot_sin. *)
Record trig := Trig { g_x : R; g_v : R; g_tc : R; g_ts : R; g_oc : R; g_os : R }.

(** _systems.py 656-667, 843-854 [theta_to_trigonometric] for one row. *)
Definition theta_to_trigonometric (y : cstate) : trig :=
  Trig (s_x y) (s_v y) (cos (s_theta y)) (sin (s_theta y)) (cos (s_omega y)) (sin (s_omega y)).

(** _systems.py 669-680, 856-867 [trigonometric_to_theta] for one row. *)
Definition trigonometric_to_theta (y : trig) : cstate :=
  CState (g_x y) (g_v y) (arctan2 (g_ts y) (g_tc y)) (arctan2 (g_os y) (g_oc y)).

(** ** Burger1DPeriodicBoundary *)

(** _systems.py 950-952: nodes and spacing. *)
Definition burger_node (n i : nat) : R := linspace (2 * PI) n i.
Definition burger_dx (n : nat) : R := burger_node n 1 - burger_node n 0.

(** _systems.py 967, 971: [np.concatenate([y[[-1]], y, y[[0]]])]. *)
Definition pad (y : list R) : list R := last y 0 :: y ++ [hd 0 y].

(** _systems.py 968: [(-y_pad[:-2] + y_pad[2:]) / (2 * dx)]; slices of a list of length n + 2. *)
Definition advection (dx : R) (y : list R) : list R :=
  map (fun p => (- fst p + snd p) / (2 * dx)) (combine (firstn (length y) (pad y)) (skipn 2 (pad y))).

(** _systems.py 972. *)
Definition convection (dx : R) (y : list R) : list R :=
  map (fun p => (fst (fst p) - 2 * snd (fst p) + snd p) / (dx * dx))
    (combine (combine (firstn (length y) (pad y)) (firstn (length y) (skipn 1 (pad y)))) (skipn 2 (pad y))).

(** _systems.py 961-978 [_f]. *)
Definition burger_f (dx nu : R) (y u : list R) : list R :=
  map (fun p => - (fst (fst (fst p)) * snd (fst (fst p))) + nu * snd (fst p) + snd p)
    (combine (combine (combine (advection dx y) y) (convection dx y)) u).

(** ** ThreeStablePoints: _systems.py 381-384 *)
Definition three_f (x : R * R) : R * R :=
  (fst x - fst x * snd x, fst x * fst x - 2 * snd x).
