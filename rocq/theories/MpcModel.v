(** * Koopman model predictive control: appfold/mpc.py, class KMPC

    Exact arithmetic in a real field.  [n] lifted features, [q] quantities of interest,
    [m] control inputs, [N] the horizon.  An array of shape (N * q, ...) that the code
    fills block by block is modelled by the function from block numbers to blocks and
    flattened with mathcomp's [mxvec] (row-major, like numpy's [reshape]). *)

From mathcomp Require Import all_ssreflect all_algebra.
Import Order.Theory GRing.Theory Num.Theory.
Set Implicit Arguments.
Unset Strict Implicit.
Unset Printing Implicit Defensive.
Local Open Scope ring_scope.

Section Model.
Variable R : realFieldType.

(** A cost parameter: a number or an array. *)
Inductive cost_t := CScalar of R | CVector of seq R.

(** mpc.py 26-50 [_cost_to_array]; [None]: ValueError.  Other types than float, int and
    1-dim. array (TypeError) are not modelled. *)
Definition cost_to_array (n_elements : nat) (cost : cost_t) : option 'rV[R]_n_elements :=
  match cost with
  | CVector v =>
      if size v != n_elements then None
      else if has (fun c => c < 0) v then None
      else Some (\row_j nth 0 v j)
  | CScalar c => if c < 0 then None else Some (const_mx c)
  end.

(** mpc.py 323: [(np.asarray(cost_terminal) == 0).all()] *)
Definition cost_all_zero (cost : cost_t) : bool :=
  match cost with CScalar c => c == 0 | CVector v => all (fun c => c == 0) v end.

Variables n q m N : nat.
Variables (A : 'M[R]_n) (B : 'M[R]_(n, m)).
(** mpc.py 266-272: [Cb], the projection to the quantities of interest.  If qois is None
    the code leaves out the multiplication, which is the case [C = 1]. *)
Variable C : 'M[R]_(q, n).

Definition upd T (f : nat -> T) (i : nat) (x : T) : nat -> T := fun k => if k == i then x else f k.

(** mpc.py 276-285: the loop over the rows of [Ab], from iteration [i], [cnt] iterations. *)
Fixpoint set_Ab (cnt i : nat) (A_last : 'M[R]_n) (Ab : nat -> 'M[R]_(q, n)) : nat -> 'M[R]_(q, n) :=
  if cnt is cnt'.+1 then set_Ab cnt' i.+1 (A *m A_last) (upd Ab i (C *m A_last)) else Ab.

Definition Ab_blocks := set_Ab N 0 A (fun _ => 0).

(** mpc.py 297-302: the loop [for k, j in enumerate(range(i, horizon))]. *)
Fixpoint set_diagonal (cnt k j : nat) (B_tmp : 'M[R]_(q, m)) (Bb : nat -> nat -> 'M[R]_(q, m))
  : nat -> nat -> 'M[R]_(q, m) :=
  if cnt is cnt'.+1 then set_diagonal cnt' k.+1 j.+1 B_tmp (upd Bb j (upd (Bb j) k B_tmp)) else Bb.

(** mpc.py 290-306: the loop over the diagonals of [Bb]. *)
Fixpoint set_Bb (cnt i : nat) (B_current : 'M[R]_(n, m)) (Bb : nat -> nat -> 'M[R]_(q, m))
  : nat -> nat -> 'M[R]_(q, m) :=
  if cnt is cnt'.+1
  then set_Bb cnt' i.+1 (A *m B_current) (set_diagonal (N - i) 0 i (C *m B_current) Bb)
  else Bb.

Definition Bb_blocks := set_Bb N 0 B (fun _ _ => 0).

(** Block number and position in the block of a flat index. *)
Definition unindex a b (r : 'I_(a * b)) : 'I_a * 'I_b := enum_val (cast_ord (esym (mxvec_cast a b)) r).

(** mpc.py 255-308 [_create_evolution_matrices] *)
Definition evolution_A : 'M[R]_(N * q, n) := \matrix_(r, c) Ab_blocks (unindex r).1 (unindex r).2 c.
Definition evolution_B : 'M[R]_(N * q, N * m) :=
  \matrix_(r, c) Bb_blocks (unindex r).1 (unindex c).1 (unindex r).2 (unindex c).2.

(** mpc.py 310-340 [_create_cost_matrices]; the linear terms [q], [r] are zero and left
    out.  [None]: ValueError of [_cost_to_array]. *)
Definition cost_matrices (running : cost_t) (terminal : option cost_t) (input : cost_t)
  : option ('rV[R]_(N * q) * 'rV[R]_(N * m)) :=
  let terminal := if terminal is Some t then if cost_all_zero t then running else t else running in
  match cost_to_array q running, cost_to_array q terminal, cost_to_array m input with
  | Some vr, Some vt, Some vi =>
      Some (mxvec (\matrix_(i < N, j < q) (if i == N.-1 :> nat then vt 0 j else vr 0 j)),
            mxvec (\matrix_(i < N, j < m) vi 0 j))
  | _, _, _ => None
  end.

(** The problem handed to [qpsolvers.solve_qp]. *)
Record qp (d g : nat) := QP {
  qp_P : 'M[R]_d;
  qp_q : 'cV[R]_d;
  qp_ineq : option ('M[R]_(g, d) * 'cV[R]_g);
  qp_bounds : option ('cV[R]_d * 'cV[R]_d) }.

(** mpc.py 342-365 [_create_constraint_matrices]: first column of the bounds lower, second
    column upper bounds; 439-445: [h] adapted to the initial condition. *)
Definition state_constraint (bounds : 'M[R]_(q, 2)) (z0 : 'cV[R]_n) : 
    'M[R]_(N * q + N * q, N * m) * 'cV[R]_(N * q + N * q) :=
  let G := col_mx evolution_B (- evolution_B) in
  let Xlb := (mxvec (\matrix_(i < N, j < q) bounds j 0))^T in
  let Xub := (mxvec (\matrix_(i < N, j < q) bounds j 1))^T in
  let h := col_mx Xub (- Xlb) in
  let adapt := evolution_A *m z0 in
  (G, h + col_mx (- adapt) adapt).

Definition input_constraint (bounds : 'M[R]_(m, 2)) : 'cV[R]_(N * m) * 'cV[R]_(N * m) :=
  ((mxvec (\matrix_(i < N, j < m) bounds j 0))^T, (mxvec (\matrix_(i < N, j < m) bounds j 1))^T).

(** mpc.py 233-253 [_setup_optimizer] and 415-460 [control_sequence_horizon]: the quadratic
    program of the initial condition [z0] (lifted state) and the reference. *)
Definition control_qp (running : cost_t) (terminal : option cost_t) (input : cost_t)
    (state_bounds : option 'M[R]_(q, 2)) (input_bounds : option 'M[R]_(m, 2))
    (z0 : 'cV[R]_n) (reference : 'M[R]_(N, q)) : option (qp (N * m) (N * q + N * q)) :=
  if cost_matrices running terminal input is Some (Q, Rc) then
    let BbTQ := 2%:R *: (evolution_B^T *m diag_mx Q) in
    let H := BbTQ *m evolution_B + 2%:R *: diag_mx Rc in
    let Mz := BbTQ *m evolution_A in
    let Y := BbTQ in
    Some (QP H (Mz *m z0 - Y *m (mxvec reference)^T)
             (omap (fun b => state_constraint b z0) state_bounds)
             (omap input_constraint input_bounds))
  else None.

(** mpc.py 483-488: the solution as time series. *)
Definition control_sequence (u : 'cV[R]_(N * m)) : 'M[R]_(N, m) := vec_mx u^T.

End Model.
