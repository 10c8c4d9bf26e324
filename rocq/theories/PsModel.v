(** * Model of [DMDStandard.pseudospectrum] (proof-free).

    Source: datafold/dynfold/dmd.py (cited as dmd.py).

    Exact complex arithmetic as in ResModel.v, whose [numerator] (dmd.py 883-901) is also the matrix
    of dmd.py 1086-1091.  The number of observables is at least one. *)

From mathcomp Require Import all_ssreflect all_algebra.
From Verif Require Import LinModel ResModel.
Import Order.Theory GRing.Theory Num.Theory.
Set Implicit Arguments.
Unset Strict Implicit.
Unset Printing Implicit Defensive.
Local Open Scope ring_scope.

(** A value or the class of the exception. *)
Inductive outcome (A : Type) : Type :=
| Value (a : A)
| AttributeErr
| ValueErr.
Arguments AttributeErr {A}.
Arguments ValueErr {A}.

Section Model.
Variable C : numClosedFieldType.
Variable n : nat.

(** What [fit] leaves behind: [None] if the attributes [_G], [_G_dash], [_R] are not set;
    [Some None] if they are set to the value None. *)
Definition grams_t := ('M[C]_n.+1 * 'M[C]_n.+1 * 'M[C]_n.+1)%type.
Definition stored_t := option (option grams_t).

(** dmd.py 779-843, 865-867, 1258-1275 and 1317-1320: [spectral] is [sys_mode == "spectral"],
    [filter] is [residual_filter is not None].  [X], [Y]: shift matrices with snapshots in rows. *)
Definition fit_full_stored s (N : nat) (w : option 'rV[C]_s) (spectral filter compute : bool)
    (X Y : 'M[C]_(s, n.+1)) : stored_t :=
  if spectral && compute
  then Some (if filter then Some (full_gram N w X X, full_gram N w X Y, full_gram N w Y Y) else None)
  else None.

(** Snapshots in columns. *)
Definition fit_reduced_stored s (spectral compute : bool) (X Y : 'M[C]_(n.+1, s)) : stored_t :=
  if spectral && compute then Some (Some (reduced_grams X Y)) else None.

(** [np.linalg.norm] of a matrix: the Frobenius norm. *)
Definition frobenius (M : 'M[C]_n.+1) : C := sqrtC (\sum_i \sum_j `|M i j| ^+ 2).

(** dmd.py 1061-1062. *)
Definition g_adapt (G : 'M[C]_n.+1) (regparam : C) : 'M[C]_n.+1 :=
  G + (frobenius G * regparam)%:M.

(** [np.linalg.eigh]: eigenvalues and matrix of eigenvectors (columns). *)
Variable eigh : 'M[C]_n.+1 -> 'rV[C]_n.+1 * 'M[C]_n.+1.
(** [scipy.sparse.linalg.eigs(M, k=1, sigma=0, which="LM")]; [None] is LinAlgError.  For matrices
    with fewer than three rows scipy returns all pairs and not only one. *)
Variable eigs : 'M[C]_n.+1 -> option (seq (C * 'cV[C]_n.+1)).

(** dmd.py 1065-1068. *)
Definition inv_root (d : C) : C := if d == 0 then d else sqrtC (1 / `|d|).
Definition sq_matrix (G : 'M[C]_n.+1) (regparam : C) : 'M[C]_n.+1 :=
  let: (D, V) := eigh (g_adapt G regparam) in
  V *m (diag_mx (map_mx inv_root D) *m V^T).

(** dmd.py 1080-1112: one grid point: the residual ([None] is inf) and the column of [eigfuncs]. *)
Definition at_point (g : grams_t) (regparam z : C) : outcome (option C * 'cV[C]_n.+1) :=
  let: (G, G_dash, R) := g in
  let SQ := sq_matrix G regparam in
  match eigs (SQ *m numerator G G_dash R z *m SQ) with
  | None => Value (None, 0)
  | Some [:: (mu, v)] => Value (Some (sqrtC ('Re mu)), v)
  | Some _ => ValueErr
  end.

Fixpoint on_grid (g : grams_t) (regparam : C) (grid : seq C) : outcome (seq (option C * 'cV[C]_n.+1)) :=
  match grid with
  | [::] => Value [::]
  | z :: zs =>
    match at_point g regparam z with
    | Value r => match on_grid g regparam zs with
                 | Value rs => Value (r :: rs)
                 | AttributeErr => AttributeErr
                 | ValueErr => ValueErr
                 end
    | AttributeErr => AttributeErr
    | ValueErr => ValueErr
    end
  end.

(** dmd.py 1019-1117 [DMDStandard.pseudospectrum]; the f-string of 1046-1047 reads the attribute
    [compute_pesudospectrum], which does not exist; a missing attribute and [None.copy()] are
    AttributeErrors.  The grid and the residuals are flat; the residuals and the columns of
    [eigfuncs] are kept next to each other. *)
Definition pseudospectrum (compute : bool) (st : stored_t) (regparam : C) (grid : seq C)
  : outcome (seq (option C * 'cV[C]_n.+1)) :=
  if ~~ compute then AttributeErr
  else match st with
       | Some (Some g) => on_grid g regparam grid
       | _ => AttributeErr
       end.

(** dmd.py 1163-1175, the part of [spectral_measure] before the measure is computed:
    [filter] is [residual_filter is not None]; the result is the content of the caller's array,
    which [observable /= norm] changes in place.  Simplification: the array has the right shape. *)
Definition spectral_measure_argument (filter : bool) (st : stored_t) (observable : 'cV[C]_n.+1)
  : outcome 'cV[C]_n.+1 :=
  if ~~ filter then AttributeErr
  else match st with
       | Some (Some _) => Value ((sqrtC (\sum_k `|observable k 0| ^+ 2))^-1 *: observable)
       | _ => AttributeErr
       end.

End Model.
