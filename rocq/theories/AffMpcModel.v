(** * appfold/mpc.py, class AffineKgMPC: cost and gradient

    Real arithmetic (Coq [R]).  Arrays are functions of their indices; [ns] states,
    [nl] lifted states, [nu] inputs, [nt] time values (horizon + 1). *)

Require Import Reals List.
Import ListNotations.
Open Scope R_scope.

Section Model.
Variables ns nl nu nt : nat.
(** weights of shape (ns, 1) and (nu, 1), mpc.py 742-760 *)
Variables cost_state cost_input : nat -> R.
(** control tensor [B] of shape (nl, nl, nu) *)
Variable B : nat -> nat -> nat -> R.

Definition array := nat -> nat -> R.

(** sum over [range n] *)
Definition rsum (n : nat) (f : nat -> R) : R := fold_right Rplus 0 (map f (seq 0 n)).

(** mpc.py 849-852: [cost]; the square of the norm is the sum of squares.  [x] is the
    predicted trajectory, [u] the input of shape (nu, nt). *)
Definition cost (x xref u : array) : R :=
  rsum nt (fun k => rsum ns (fun j => (cost_state j * (x j k - xref j k)) * (cost_state j * (x j k - xref j k)))
                    + rsum nu (fun i => (cost_input i * u i k) * (cost_input i * u i k))).

(** mpc.py 928-934 [_dcost_dx] *)
Definition dcost_dx (x xref : array) : array :=
  fun j k => if Nat.ltb j ns then 2 * cost_state j * (x j k - xref j k) else 0.

(** mpc.py 936-938 [_dcost_du] *)
Definition dcost_du (u : array) : array := fun i k => 2 * cost_input i * u i k.

(** mpc.py 884-899 [jacobian]; [adjoint] is the numerical solution of the adjoint
    equation for the right hand side [_dcost_dx] (scipy's solver, any function here). *)
Definition jacobian (adjoint : array -> array -> array) (x xref u : array) : array :=
  let lam := adjoint u (dcost_dx x xref) in
  fun i k => rsum nl (fun b => rsum nl (fun a => x a k * B b a i) * lam b k) + dcost_du u i k.

(** mpc.py 804-808 [cost_and_jacobian]; [predict] is the numerical solution of the
    controlled system. *)
Definition cost_and_jacobian (predict : array -> array) (adjoint : array -> array -> array)
    (xref u : array) : R * array :=
  let x := predict u in (cost x xref u, jacobian adjoint x xref u).

End Model.
