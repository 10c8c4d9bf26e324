(** * Specification of model predictive control *)

From mathcomp Require Import all_ssreflect all_algebra.
Import Order.Theory GRing.Theory Num.Theory.
From Verif Require Import LinSpec MpcModel.
Set Implicit Arguments.
Unset Strict Implicit.
Unset Printing Implicit Defensive.
Local Open Scope ring_scope.

Section Spec.
Variable R : realFieldType.
Variables n q m N : nat.

(** The input at time step [k] of the sequence [U] (one row per time step). *)
Definition input_at (U : 'M[R]_(N, m)) (k : nat) : 'cV[R]_m :=
  if insub k is Some i then (row i U)^T else 0.

(** Output y_k = C z_k of z_{k+1} = A z_k + B u_k. *)
Definition output (A : 'M[R]_n) (B : 'M[R]_(n, m)) (C : 'M[R]_(q, n)) (z0 : 'cV[R]_n)
    (U : 'M[R]_(N, m)) (k : nat) : 'cV[R]_q :=
  C *m ctrajectory A B z0 (input_at U) k.

(** Tracking cost of an input sequence: deviation of y_1, ..., y_{N-1} from the first
    N-1 reference states with the running cost, deviation of y_N from the last one with
    the terminal cost, plus the cost of the inputs. *)
Definition tracking_cost (A : 'M[R]_n) (B : 'M[R]_(n, m)) (C : 'M[R]_(q, n))
    (running terminal : 'rV[R]_q) (input : 'rV[R]_m)
    (z0 : 'cV[R]_n) (reference : 'M[R]_(N, q)) (U : 'M[R]_(N, m)) : R :=
  \sum_(k < N) \sum_(j < q)
     (if k.+1 == N then terminal 0 j else running 0 j)
     * (output A B C z0 U k.+1 j 0 - reference k j) ^+ 2
  + \sum_(k < N) \sum_(j < m) input 0 j * U k j ^+ 2.

(** All predicted outputs and all inputs are within their bounds (lower bound in the
    first, upper bound in the second column). *)
Definition respects_bounds (A : 'M[R]_n) (B : 'M[R]_(n, m)) (C : 'M[R]_(q, n))
    (state_bounds : option 'M[R]_(q, 2)) (input_bounds : option 'M[R]_(m, 2))
    (z0 : 'cV[R]_n) (U : 'M[R]_(N, m)) : Prop :=
  (forall b, state_bounds = Some b ->
     forall (k : 'I_N) j, b j 0 <= output A B C z0 U k.+1 j 0 <= b j 1)
  /\ (forall b, input_bounds = Some b -> forall (k : 'I_N) j, b j 0 <= U k j <= b j 1).

(** What [qpsolvers.solve_qp] is asked for: minimise 1/2 u^T P u + q^T u subject to
    G u <= h and lb <= u <= ub. *)
Definition qp_objective d g (p : qp R d g) (u : 'cV[R]_d) : R :=
  2%:R^-1 * (u^T *m qp_P p *m u) 0 0 + ((qp_q p)^T *m u) 0 0.

Definition qp_feasible d g (p : qp R d g) (u : 'cV[R]_d) : Prop :=
  (forall G h, qp_ineq p = Some (G, h) -> forall r, (G *m u) r 0 <= h r 0)
  /\ (forall lb ub, qp_bounds p = Some (lb, ub) -> forall r, lb r 0 <= u r 0 <= ub r 0).

Definition qp_solution d g (p : qp R d g) (u : 'cV[R]_d) : Prop :=
  qp_feasible p u /\ forall v, qp_feasible p v -> qp_objective p u <= qp_objective p v.

(** The cost vectors meant by the user: a number stands for all entries; the terminal
    cost defaults to the running cost, also if it is zero. *)
Definition cost_vector k (c : cost_t R) : 'rV[R]_k :=
  match c with CScalar x => const_mx x | CVector v => \row_j nth 0 v j end.

Definition terminal_vector (running : cost_t R) (terminal : option (cost_t R)) : 'rV[R]_q :=
  if terminal is Some t then if cost_vector q t == 0 then cost_vector q running else cost_vector q t
  else cost_vector q running.

(** Valid cost parameters. *)
Definition valid_cost k (c : cost_t R) : bool :=
  match c with CScalar x => 0 <= x | CVector v => (size v == k) && all (fun x => 0 <= x) v end.

End Spec.
