(** * Linear quadratic regulator: appfold/mpc.py, class LQR

    Exact arithmetic in a real field.  [n] dictionary functions, [m] control inputs. *)

From mathcomp Require Import all_ssreflect all_algebra.
From Verif Require Import MpcModel.
Import GRing.Theory Num.Theory.
Set Implicit Arguments.
Unset Strict Implicit.
Unset Printing Implicit Defensive.
Local Open Scope ring_scope.

Section Model.
Variable R : realFieldType.
Variables n m : nat.
Variables (A : 'M[R]_n) (B : 'M[R]_(n, m)).

(** [scipy.linalg.solve_discrete_are] (None: LinAlgError). *)
Variable solve_discrete_are : 'M[R]_n -> 'M[R]_(n, m) -> 'M[R]_n -> 'M[R]_m -> option 'M[R]_n.

(** mpc.py 633-643 [_create_cost_matrices]; None: ValueError. *)
Definition lqr_cost (running input : cost_t R) : option ('M[R]_n * 'M[R]_m) :=
  match cost_to_array n running, cost_to_array m input with
  | Some q, Some r => Some (diag_mx q, diag_mx r)
  | _, _ => None
  end.

(** mpc.py 622-631 [_setup_optimizer]; [np.linalg.inv] of a singular matrix raises. *)
Definition lqr_setup (running input : cost_t R) : option 'M[R]_(m, n) :=
  if lqr_cost running input is Some (Q, Rc) then
    if solve_discrete_are A B Q Rc is Some P then
      let S := Rc + B^T *m P *m B in
      if S \in unitmx then Some (invmx S *m B^T *m P *m A) else None
    else None
  else None.

(** mpc.py 645-664 [control_sequence] with a target state: [Z] are the [T] samples of
    the transformed states, [target] is the transformed target (one sample, broadcast).
    [from_array] (collection.py 625-653) with one time value and [m] names accepts an
    array with one row and [m] columns only; None: ValueError. *)
Definition lqr_control T (F : 'M[R]_(m, n)) (Z : 'M[R]_(T, n)) (target : 'rV[R]_n) : option 'M[R]_(m, T) :=
  let u := - F *m (Z - \matrix_(i, j) target 0 j)^T in
  if (m == 1%N) && (T == m) then Some u else None.

End Model.
