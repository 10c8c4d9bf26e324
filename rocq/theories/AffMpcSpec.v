(** * Partial derivatives of functions of arrays *)

Require Import Reals List.
From Verif Require Import AffMpcModel.
Open Scope R_scope.

(** The array with entry (i, k) replaced. *)
Definition set_entry (a : array) (i k : nat) (v : R) : array :=
  fun i' k' => if andb (Nat.eqb i' i) (Nat.eqb k' k) then v else a i' k'.

(** [g] is the gradient of [f] at [u], for arrays of shape (nu, nt): every entry is the
    partial derivative (standard library's [derivable_pt_lim]). *)
Definition gradient (nu nt : nat) (f : array -> R) (u g : array) : Prop :=
  forall i k, (i < nu)%nat -> (k < nt)%nat ->
    derivable_pt_lim (fun v => f (set_entry u i k v)) (u i k) (g i k).
