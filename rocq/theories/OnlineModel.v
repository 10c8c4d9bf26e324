(** * Model of OnlineDMD (proof-free).

    Source: datafold/dynfold/dmd.py 2377-2631 (cited as dmd.py).

    Exact arithmetic over a field instead of floating point.  A snapshot pair is a
    pair of column vectors (xm, xp); the pairs of a time series collection are those
    of its shift matrices (see TscModel.v).  The spectral components derived from
    [A] after the update (2624-2636) and the validation of the data (2579-2586) are
    not modelled. *)

From mathcomp Require Import all_ssreflect all_algebra.
Import GRing.Theory.
From Verif Require Import LinModel.
Set Implicit Arguments.
Unset Strict Implicit.
Unset Printing Implicit Defensive.
Local Open Scope ring_scope.

Section Model.
Variable F : fieldType.
Variable n : nat.
(** [weighting] *)
Variable w : F.

Definition pair_t := ('cV[F]_n * 'cV[F]_n)%type.

Record online := Online { oA : 'M[F]_n; oP : 'M[F]_n; otimestep : nat }.

(** dmd.py 2592-2613: the body of the loop of [partial_fit]. *)
Definition online_update (st : online) (xy : pair_t) : online :=
  let: (xm, xp) := xy in
  let Pxm := oP st *m xm in
  let gamma := (1 + (xm^T *m Pxm) 0 0)^-1 in
  let A := oA st + (gamma *: (xp - oA st *m xm)) *m Pxm^T in
  let P1 := oP st - gamma *: (Pxm *m Pxm^T) in
  let P2 := w^-1 *: P1 in
  let P3 := P2 + P2^T in
  Online A (2%:R^-1 *: P3) (otimestep st).+1.

(** dmd.py 2469-2482 [_basic_initialize]: [A0] is the random matrix, [epsilon] the
    constant 1e-15. *)
Definition basic_initialize (A0 : 'M[F]_n) (epsilon : F) : online :=
  Online A0 ((1 / epsilon) *: 1%:M) 0.

Section Batch.
Variable lstsq : lstsq_t F.
(** [np.linalg.pinv] *)
Variable pinv : forall s n : nat, 'M[F]_(s, n) -> 'M[F]_(n, s).

(** dmd.py 2493-2531 [fit]: [sw] is the square root of the weighting; snapshots in
    rows.  The case weighting = 1 of 2510-2515 multiplies by 1. *)
Definition batch_initialize s (sw : F) (Xm Xp : 'M[F]_(s, n)) : online :=
  let weights := \row_(i < s) sw ^+ (s.-1 - i) in
  let Xmhat := diagmat_dot_mat weights Xm in
  let Xphat := diagmat_dot_mat weights Xp in
  let A := (pinv Xmhat *m Xphat)^T in
  let P := w^-1 *: lstsq (Xmhat^T *m Xmhat) 1%:M in
  Online A P s.

(** dmd.py 2533-2638 [partial_fit]: [None] is the state without attribute [A]. *)
Definition partial_fit (A0 : 'M[F]_n) (epsilon sw : F) (batch_fit : bool)
    (st : option online) (pairs : seq pair_t) : online :=
  match st, batch_fit with
  | None, true =>
      batch_initialize sw (\matrix_(i < size pairs, j < n) (nth (0, 0) pairs i).1 j 0)
                          (\matrix_(i < size pairs, j < n) (nth (0, 0) pairs i).2 j 0)
  | None, false => foldl online_update (basic_initialize A0 epsilon) pairs
  | Some st, _ => foldl online_update st pairs
  end.

(** A sequence of calls of [partial_fit]. *)
Definition partial_fits (A0 : 'M[F]_n) (epsilon sw : F) (batch_fit : bool) (batches : seq (seq pair_t))
  : option online :=
  foldl (fun st b => Some (partial_fit A0 epsilon sw batch_fit st b)) None batches.

End Batch.

(** dmd.py 2484-2491 [ready_]. *)
Definition ready (with_warm_up : bool) (st : online) : bool :=
  if with_warm_up then (2 * n <= otimestep st)%N else true.

End Model.
