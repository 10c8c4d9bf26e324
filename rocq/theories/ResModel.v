(** * Model of the residual filter of DMDStandard (proof-free).

    Source: datafold/dynfold/dmd.py (cited as dmd.py), datafold/utils/general.py (general.py).

    Numbers are elements of an algebraically closed field [C] with norm and conjugation (exact
    complex arithmetic).  Columns of the eigenvector matrix are kept next to their eigenvalue. *)

From mathcomp Require Import all_ssreflect all_algebra.
From Verif Require Import LinModel.
Import Order.Theory GRing.Theory Num.Theory.
Set Implicit Arguments.
Unset Strict Implicit.
Unset Printing Implicit Defensive.
Local Open Scope ring_scope.

Section Model.
Variable C : numClosedFieldType.

(** [np.conj] of a matrix. *)
Definition conj_mx m n (M : 'M[C]_(m, n)) : 'M[C]_(m, n) := map_mx conjC M.

(** [eigvec.conj().T @ M @ eigvec] (dmd.py 889-898). *)
Definition quad n (M : 'M[C]_n) (v : 'cV[C]_n) : C := ((conj_mx v)^T *m M *m v) 0 0.

(** The literal 1e-15 of dmd.py 900. *)
Definition tiny : C := 10%:R ^- 15.

(** dmd.py 883-901: the residual of one pair; [None] is [np.inf].  A negative squared residual
    (nan in numpy) has an imaginary root here, which is not below any threshold either. *)
Definition numerator n (G G_dash R : 'M[C]_n) (lam : C) : 'M[C]_n :=
  R - lam *: G_dash^T - lam^* *: G_dash + `|lam| ^+ 2 *: G.

Definition residual n (G G_dash R : 'M[C]_n) (lam : C) (v : 'cV[C]_n) : option C :=
  let denom := 'Re (quad G v) in
  if tiny < `|denom| then Some (sqrtC ('Re (quad (numerator G G_dash R lam) v) / denom)) else None.

(** Comparison [<=] of floats with infinity. *)
Definition leq_res (a b : option C) : bool :=
  match a, b with
  | _, None => true
  | None, Some _ => false
  | Some x, Some y => x <= y
  end.

(** The dictionary [residual_filter]; a plain number is turned into {threshold: number}
    (dmd.py 905-906).  Left out: the key store_residuals and values of a wrong type. *)
Record filter := Filter {
  threshold : option C; quantile : option C; keep_n : option nat; sort_res : bool }.

(** [np.quantile(residuals, q)], not modelled. *)
Variable np_quantile : seq (option C) -> C -> option C.

(** Python truth value of [dict.get(key, False)]. *)
Definition truthy (x : option C) : option C := if x is Some t then if t == 0 then None else Some t else None.
Definition truthy_nat (x : option nat) : option nat := if x is Some k.+1 then Some k.+1 else None.

(** dmd.py 910-927: the largest residual that is kept; [None] stands for the ValueError of the
    last branch or of [np.partition] (kth out of bounds).  [np.partition(r, k-1)[k-1]] is entry
    k-1 of the sorted array.  Simplification: keep_n is not negative. *)
Definition bound (f : filter) (r : seq (option C)) : option (option C) :=
  match truthy (threshold f) with
  | Some t => Some (Some t)
  | None =>
    match truthy (quantile f) with
    | Some q => Some (np_quantile r q)
    | None =>
      match truthy_nat (keep_n f) with
      | Some k => if (k <= size r)%N then Some (nth None (sort leq_res r) k.-1) else None
      | None => None
      end
    end
  end.

(** dmd.py 877-959 [DMDStandard._remove_spectral_pollution].  [None]: ValueError (wrong
    dictionary, [np.min] of an empty array in 933, or all components removed).  Warnings are left
    out, as are the left eigenvectors, which are indexed with the same mask. *)
Definition remove_spectral_pollution n (G G_dash R : 'M[C]_n) (f : filter) (pairs : seq (C * 'cV[C]_n))
  : option (seq (C * 'cV[C]_n)) :=
  let res p := residual G G_dash R p.1 p.2 in
  let residuals := map res pairs in
  match bound f residuals with
  | None => None
  | Some b =>
    let kept := [seq p <- pairs | leq_res (res p) b] in
    if ~~ has isSome residuals then None
    else if kept is [::] then None
    else Some (if sort_res f then sort (fun p q => leq_res (res p) (res q)) kept else kept)
  end.

(** [np.linalg.eig] followed by [sort_eigenpairs] (dmd.py 987-991). *)
Variable eig : forall n, 'M[C]_n -> seq (C * 'cV[C]_n).
Variable lstsq : lstsq_t C.

(** dmd.py 754-836 and 1255-1290: [DMDStandard(rank=None, residual_filter=f).fit] in spectral mode
    without control input; [X], [Y]: the shift matrices with snapshots in rows. *)
Definition fit_full s n (N : nat) (w : option 'rV[C]_s) (f : filter) (X Y : 'M[C]_(s, n))
  : option (seq (C * 'cV[C]_n)) :=
  let G := full_gram N w X X in
  let G_dash := full_gram N w X Y in
  let R := full_gram N w Y Y in
  remove_spectral_pollution G G_dash R f (eig (full_system_matrix lstsq N w X Y)).

(** dmd.py 838-873: the matrices of the reduced variant, snapshots in columns. *)
Definition reduced_grams s n (X Y : 'M[C]_(n, s)) : 'M[C]_n * 'M[C]_n * 'M[C]_n :=
  (X *m X^T, Y *m X^T, Y *m Y^T).

End Model.
