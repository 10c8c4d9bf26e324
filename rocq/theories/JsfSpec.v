(** * Specification for C104. *)

From mathcomp Require Import all_ssreflect fingroup perm all_algebra.
From Verif Require Import KernSpec EmbModel EmbSpec.
Import Order.Theory GRing.Theory Num.Theory.
Set Implicit Arguments.
Unset Strict Implicit.
Unset Printing Implicit Defensive.
Local Open Scope ring_scope.

Section Spec.
Variable R : rcfType.

(** Squared length. *)
Definition sq_length n (x : 'cV[R]_n) : R := \sum_i x i 0 ^+ 2.

(** The part of [x] (its squared length) that the eigenvectors of a split see. *)
Definition seen s p (W : 'M[R]_(s, p)) (x : 'cV[R]_s) : R := \sum_j (\sum_l W l j * x l 0) ^+ 2.

(** The sum over all splits: large for functions that are smooth on every split. *)
Definition energy s (ws : seq (split R s)) (x : 'cV[R]_s) : R := \sum_(w <- ws) seen (evecs w) x.

(** The columns of [F] are the jointly smoothest functions with the energies [e]: orthonormal, and
    every column has the largest energy per squared length of all functions that are orthogonal to
    the columns before it.  They are also stationary: projecting on the splits and adding up
    multiplies them with their energy. *)
Definition JointlySmoothest s k (ws : seq (split R s)) (F : 'M[R]_(s, k)) (e : 'rV[R]_k) : Prop :=
  [/\ Orthonormal F,
      forall j, energy ws (col j F) = e 0 j,
      forall (j : 'I_k) (x : 'cV[R]_s), (forall i : 'I_k, (i < j)%N -> \sum_l F l i * x l 0 = 0) ->
        energy ws x <= e 0 j * sq_length x
    & forall j, \sum_(w <- ws) evecs w *m ((evecs w)^T *m col j F) = e 0 j *: col j F].

(** What is assumed about the decompositions in addition to [FullSvd] and [SvdSolver]: descending
    singular values; a truncated one returns the largest ones. *)
Definition Sorted k (sv : 'rV[R]_k) : Prop := forall i j : 'I_k, (i <= j)%N -> sv 0 j <= sv 0 i.

Definition DescendingSvd (svd : full_svd_t R) : Prop :=
  forall p1 p2 (M : 'M[R]_(p1, p2)) U sv V, svd p1 p2 M = Some (U, sv, V) -> Sorted sv.

Definition LargestSvd k (svd : svd_t R k) : Prop :=
  forall n l (M : 'M[R]_(n, l)) U sv V, svd n l M = Some (U, sv, V) -> Sorted sv /\
    forall (j : 'I_k) (x : 'cV[R]_n), (forall i, \sum_l U l i * x l 0 = 0) ->
      sq_length (M^T *m x) <= sv 0 j ^+ 2 * sq_length x.

(** The singular values that [svds] returns belong to unit vectors. *)
Definition SingularValue m n (A : 'M[R]_(m, n)) (g : R) : Prop :=
  0 <= g /\ exists (u : 'cV[R]_m) (v : 'cV[R]_n), [/\ sq_length u = 1, sq_length v = 1 & A *m v = g *: u].

(** The rows of [B] are those of [A] in another order. *)
Definition RowsPermuted m n (A B : 'M[R]_(m, n)) : Prop := exists p : 'S_m, B = row_perm p A.

End Spec.
