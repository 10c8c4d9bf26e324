(** * C56: EDMD predictions. *)

From mathcomp Require Import all_ssreflect all_algebra.
From Verif Require Import LinModel LinSpec LinProofs KoopModel KoopSpec KoopProofs.
Import Order.Theory GRing.Theory Num.Theory.
Set Implicit Arguments.
Unset Strict Implicit.
Unset Printing Implicit Defensive.
Local Open Scope ring_scope.

(** If the dictionary evolves linearly under the dynamics [f], the state coordinates [h] are
    linear combinations of it and the training samples span the dictionary space, then fit
    identifies the Koopman matrix and predict returns the true trajectory of the (possibly
    non-linear) system for every initial condition and horizon. *)
Theorem C56_exact_prediction :
  forall (R : realFieldType) (lstsq : lstsq_t R) (T : Type) s s' n p N (f : T -> T)
         (psi : T -> 'cV[R]_n) (h : T -> 'cV[R]_p) (K : 'M[R]_n) (C : 'M[R]_(p, n))
         (xs : 'I_s -> T) (ys : 'I_s' -> T) x0 steps,
  solves_consistent lstsq -> (0 < N)%N -> KoopmanInvariant f psi K -> Reconstructs psi h C ->
  spanning (samples psi xs) -> spanning (samples psi ys) ->
  let A := full_system_matrix lstsq N None (samples psi xs) (samples psi (f \o xs)) in
  let B := inverse_map lstsq (samples psi ys) (samples h ys) in
  A = K /\ B = C^T /\
  edmd_predict_matrix id A B (psi x0) steps = [seq h (iter k f x0) | k <- steps].
Proof. exact: edmd_exact. Qed.
Print Assumptions C56_exact_prediction.

(** The two ways to compute the full state (Koopman modes in spectral mode, inverse map in
    matrix mode) agree for all initial conditions, horizons and inverse maps with real entries. *)
Theorem C56_modes_equal_inverse_map :
  forall (F : fieldType) (lstsq : lstsq_t F) (re : F -> F) n p m (A V : 'M[F]_n) (d : 'rV[F]_n)
         (L : option 'M[F]_n) (B : 'M[F]_(n, p)) (X0 : 'M[F]_(n, m)) steps,
  solves_consistent lstsq -> V \in unitmx -> A *m V = V *m diag_mx d ->
  (forall L', L = Some L' -> L' *m V = 1%:M) ->
  (forall x y, re (x + y) = re x + re y) -> (forall i j x, re (B i j * x) = B i j * re x) ->
  edmd_predict_modes lstsq re V d L B X0 steps = edmd_predict_matrix re A B X0 steps.
Proof. exact: branches_agree. Qed.
Print Assumptions C56_modes_equal_inverse_map.

(** Case: (x, y) -> (2x, 3y + x^2) with the dictionary (x, y, x^2), identified from three
    samples, predicts the non-linear trajectory. *)
Example C56_example : forall x0 steps,
  let lstsq := @pinv_lstsq rat_realFieldType in
  let A := full_system_matrix lstsq 4 None (samples ex_psi ex_x) (samples ex_psi (ex_f \o ex_x)) in
  let B := inverse_map lstsq (samples ex_psi ex_x) (samples ex_h ex_x) in
  edmd_predict_matrix id A B (ex_psi x0) steps = [seq ex_h (iter k ex_f x0) | k <- steps].
Proof.
move=> x0 steps lstsq A B; have [K [C [HK [HC HS]]]] := ex_ok.
by have [_ [_ ->]] := @edmd_exact _ lstsq _ _ _ _ _ 4 _ _ _ _ _ ex_x ex_x x0 steps
  (@pinv_lstsq_ok _) isT HK HC HS HS.
Qed.
