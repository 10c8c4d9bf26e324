(** * Model of prediction and score of [GeometricHarmonicsInterpolator] (proof-free).

    Source: datafold/dynfold/outofsample.py (cited as outofsample.py).

    Numbers are elements of a real closed field.  [krow x] is the row of the kernel matrix between a
    point [x] and the training points (the normalisations of a kernel between new and training points
    act on every row by itself, see C36), [aux] are the precomputed coefficients (outofsample.py 99-105, C41).
    Data has at least one row and one feature; a target of shape (n,) counts as one column
    (outofsample.py 170-171, 363-364).  [mean_squared_error] is scikit-learn's. *)

From Coq Require Import ZArith.
From mathcomp Require Import all_ssreflect all_algebra.
From Verif Require Import Np.
Import Order.Theory GRing.Theory Num.Theory.
Set Implicit Arguments.
Unset Strict Implicit.
Unset Printing Implicit Defensive.
Local Open Scope ring_scope.

Section Model.
Variable R : rcfType.

(** numpy arrays with zero, one and two axes *)
Inductive arr := A0 (x : R) | A1 (n : nat) (v : 'rV[R]_n) | A2 (n m : nat) (M : 'M[R]_(n, m)).

Definition shape (a : arr) : seq nat :=
  match a with A0 _ => [::] | A1 n _ => [:: n] | A2 n m _ => [:: n; m] end.

(** [np.squeeze] of an array with two axes *)
Definition squeeze n m (M : 'M[R]_(n, m)) : arr :=
  match n, m return 'M[R]_(n, m) -> arr with
  | 1%N, 1%N => fun M => A0 (M 0 0)
  | 1%N, m'  => fun M => A1 (row 0 M)
  | n', 1%N  => fun M => A1 (\row_i M i 0)
  | n', m'   => fun M => A2 M
  end M.

Variables (p n q : nat).
Variable krow : 'rV[R]_p -> 'rV[R]_n.
Variable aux : 'M[R]_(n, q).

(** The values before [np.squeeze]. *)
Definition interpolated m (X : 'M[R]_(m, p)) : 'M[R]_(m, q) := (\matrix_(i < m) krow (row i X)) *m aux.

(** outofsample.py 225-246 [predict] *)
Definition predict m (X : 'M[R]_(m, p)) : arr := squeeze (interpolated X).

Inductive multioutput := RawValues | UniformAverage.

(** The result of [score]: a number or one number per target. *)
Inductive score_t := Number (x : R) | PerTarget (v : 'rV[R]_q).

(** scikit-learn's [check_consistent_length] and [_check_reg_targets]: an array with one axis is a
    column, an array without axes is refused; numbers of samples, then of targets must agree. *)
Definition as_targets m (a : arr) : result 'M[R]_(m, q) :=
  match a with
  | A0 _ => Err TypeError
  | A1 k v =>
      if k != m then Err ValueError
      else if q == 1%N then Ok (\matrix_(i, j) (if insub (val i) is Some l then v 0 l else 0))
      else Err ValueError
  | A2 k r M =>
      if k != m then Err ValueError
      else if r != q then Err ValueError
      else Ok (\matrix_(i, j) (if insub (val i) is Some l then (if insub (val j) is Some c then M l c else 0) else 0))
  end.

(** Mean squared error of every target; [sample_weight=None] is passed in any case (outofsample.py
    369-371). *)
Definition mean_squared_errors m (Y P : 'M[R]_(m, q)) : 'rV[R]_q :=
  \row_j ((\sum_i (Y i j - P i j) ^+ 2) / m%:R).

(** outofsample.py 317-379 [score]; [sample_weight] is not used. *)
Definition score (mo : multioutput) m (X : 'M[R]_(m, p)) (Y : 'M[R]_(m, q)) (sample_weight : option ('I_m -> R)) : result score_t :=
  bind (as_targets m (predict X)) (fun P =>
  let errors := mean_squared_errors Y P in
  match mo with
  | RawValues =>
      if q == 1%N then Ok (Number (- Num.sqrt (if insub 0%N is Some j then errors 0 j else 0)))
      else Ok (PerTarget (\row_j - Num.sqrt (errors 0 j)))
  | UniformAverage => Ok (Number (- Num.sqrt ((\sum_j errors 0 j) / q%:R)))
  end).

(** outofsample.py 248-315 [gradient] at the point [x]: the checks of [vcol] (0 <= vcol <= number of
    targets), then the column; a column that does not exist is an IndexError. *)
Definition gradient (X_fit : 'M[R]_(n, p)) (y : 'M[R]_(n, q)) (vcol : option Z) m (X : 'M[R]_(m, p)) : result 'M[R]_(m, p) :=
  if ~~ isSome vcol && (1 < q)%N then Err NotImplementedError else
  let c := if vcol is Some c then c else Z0 in
  if Z.ltb c Z0 || Z.ltb (Z.of_nat q) c then Err ValueError else
  match insub (Z.to_nat c) : option 'I_q with
  | None => Err IndexError
  | Some j => Ok (\matrix_(l, a) \sum_i (X l a - X_fit i a) * (krow (row l X) 0 i * y i j))
  end.

End Model.
