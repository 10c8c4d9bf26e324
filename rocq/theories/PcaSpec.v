(** * Specification of principal components (C108) *)

From Coq Require Import String List ZArith.
From mathcomp Require Import all_ssreflect all_algebra.
From Verif Require Import Np ScaModel PcaModel.
Import Order.Theory GRing.Theory Num.Theory.
Set Implicit Arguments.
Unset Strict Implicit.
Unset Printing Implicit Defensive.
Local Open Scope ring_scope.

Section Spec.
Variable R : rcfType.

(** Sum of the squares of all entries. *)
Definition sq_norm m n (A : 'M[R]_(m, n)) : R := \sum_i \sum_j A i j ^+ 2.

(** The average of the rows. *)
Definition average_row n d (X : 'M[R]_(n, d)) : 'rV[R]_d := \row_j ((\sum_i X i j) / n%:R).

(** The matrix with the same row repeated. *)
Definition repeat_row n d (b : 'rV[R]_d) : 'M[R]_(n, d) := \matrix_(i, j) b 0 j.

(** A reduced singular value decomposition with descending singular values. *)
Definition IsSvd n d q (A : 'M[R]_(n, d)) (U : 'M[R]_(n, q)) (S : 'rV[R]_q) (V : 'M[R]_(q, d)) : Prop :=
  [/\ U^T *m U = 1%:M, V *m V^T = 1%:M, A = U *m diag_mx S *m V, (forall j, 0 <= S 0 j) &
      forall i j : 'I_q, (i <= j)%N -> S 0 j <= S 0 i].

(** Projection of the rows of [X] to the affine subspace through [b] spanned by the orthonormal rows
    of [W]. *)
Definition project n d k (b : 'rV[R]_d) (W : 'M[R]_(k, d)) (X : 'M[R]_(n, d)) : 'M[R]_(n, d) :=
  repeat_row n b + (X - repeat_row n b) *m W^T *m W.

(** Every row of [X] lies in the affine subspace. *)
Definition InSubspace n d k (b : 'rV[R]_d) (W : 'M[R]_(k, d)) (X : 'M[R]_(n, d)) : Prop :=
  exists C : 'M[R]_(n, k), X = repeat_row n b + C *m W.

(** The number of components: as many as possible if none is given. *)
Definition components (n_components : option nat) (n d : nat) : nat := if n_components is Some k then k else minn n d.

(** The decomposition the object computes is one of the centred data; with [whiten] no kept
    component may vanish. *)
Definition Decomposed (svd : svd_t R) (whiten : bool) n d (k : nat) (X : 'M[R]_(n, d)) (sv : 'rV[R]_(minn n d)) : Prop :=
  exists U V, let A := X - repeat_row n (average_row X) in
  svd n d A = (U, sv, V) /\ IsSvd A U sv V /\
  (whiten -> (1 < n)%N /\ forall j : 'I_(minn n d), (j < k)%N -> sv 0 j != 0).

(** A frame whose [d] labels are strings. *)
Definition GoodFrame (I : Type) n d (X : mtable R I n d) : Prop :=
  mkind X <> NumpyArray /\ size (mnames X) = d /\ (forall a, List.In a (mnames X) -> exists s, a = Str s).

(** Data with the given labels, or an array. *)
Definition Labelled (I : Type) n d (labels : seq name) (X : mtable R I n d) : Prop :=
  (mkind X = NumpyArray /\ mindex X = [::] /\ mnames X = [::]) \/
  (mkind X <> NumpyArray /\ mnames X = labels).

(** The labels of the components. *)
Definition pca_labels (k : nat) : seq name := map (fun i => Str (String.append "pca" (TrModel.str_of_nat i))) (iota 0 k).

End Spec.
