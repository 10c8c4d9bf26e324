(** * OnlineDMD: the theorem of C23. *)

From mathcomp Require Import all_ssreflect all_algebra.
Import Order.Theory GRing.Theory Num.Theory.
From Verif Require Import LinModel LinSpec LinProofs OnlineModel OnlineSpec OnlineProofs.
Set Implicit Arguments.
Unset Strict Implicit.
Unset Printing Implicit Defensive.
Local Open Scope ring_scope.

(** After any non-empty sequence of batches the matrix is the unique minimiser of the
    weighted squared error over all pairs seen, regularised by the initial guess. *)
Theorem C23_online_least_squares (R : realFieldType) (n : nat) (lstsq : lstsq_t R)
    (pinv : forall s n : nat, 'M[R]_(s, n) -> 'M[R]_(n, s))
    (w epsilon sw : R) (A0 : 'M[R]_n) (batches : seq (seq ('cV[R]_n * 'cV[R]_n))) :
  0 < w -> 0 < epsilon -> batches != [::] ->
  exists st, partial_fits w lstsq pinv A0 epsilon sw false batches = Some st
    /\ otimestep st = size (flatten batches)
    /\ forall K,
        stream_cost w epsilon A0 (flatten batches) (oA st) <= stream_cost w epsilon A0 (flatten batches) K
        /\ (stream_cost w epsilon A0 (flatten batches) K = stream_cost w epsilon A0 (flatten batches) (oA st)
            -> K = oA st).
Proof. exact: online_basic. Qed.
Print Assumptions C23_online_least_squares.

(** With [batch_fit], if the states of the first batch span the state space, the matrix
    is the unique minimiser of the weighted squared error without regularisation. *)
Theorem C23_batch_fit_least_squares (R : realFieldType) (n : nat) (lstsq : lstsq_t R)
    (pinv : forall s n : nat, 'M[R]_(s, n) -> 'M[R]_(n, s)) :
  solves_consistent lstsq -> pinv_least_squares pinv ->
  forall (w epsilon sw : R) (A0 : 'M[R]_n) (b : seq ('cV[R]_n * 'cV[R]_n)) (bs : seq (seq ('cV[R]_n * 'cV[R]_n))),
  0 < sw -> w = sw ^+ 2 -> stream_spanning b ->
  exists st, partial_fits w lstsq pinv A0 epsilon sw true (b :: bs) = Some st
    /\ otimestep st = size (flatten (b :: bs))
    /\ forall K,
        stream_error w (flatten (b :: bs)) (oA st) <= stream_error w (flatten (b :: bs)) K
        /\ (stream_error w (flatten (b :: bs)) K = stream_error w (flatten (b :: bs)) (oA st)
            -> K = oA st).
Proof. exact: online_batch. Qed.
Print Assumptions C23_batch_fit_least_squares.

(** How the stream is cut into batches does not matter: without [batch_fit] the whole
    state is the same ... *)
Theorem C23_batching (R : realFieldType) (n : nat) (lstsq : lstsq_t R)
    (pinv : forall s n : nat, 'M[R]_(s, n) -> 'M[R]_(n, s))
    (w epsilon sw : R) (A0 : 'M[R]_n) (bs bs' : seq (seq ('cV[R]_n * 'cV[R]_n))) :
  bs != [::] -> bs' != [::] -> flatten bs = flatten bs' ->
  partial_fits w lstsq pinv A0 epsilon sw false bs = partial_fits w lstsq pinv A0 epsilon sw false bs'.
Proof. by move=> H H' E; rewrite !partial_fits_false // E. Qed.
Print Assumptions C23_batching.

(** ... and with [batch_fit] the matrix is the same, also if the first batches differ. *)
Theorem C23_batching_batch_fit (R : realFieldType) (n : nat) (lstsq : lstsq_t R)
    (pinv : forall s n : nat, 'M[R]_(s, n) -> 'M[R]_(n, s)) :
  solves_consistent lstsq -> pinv_least_squares pinv ->
  forall (w epsilon sw : R) (A0 : 'M[R]_n) (b b' : seq ('cV[R]_n * 'cV[R]_n)) bs bs',
  0 < sw -> w = sw ^+ 2 -> stream_spanning b -> stream_spanning b' ->
  flatten (b :: bs) = flatten (b' :: bs') ->
  exists st st', partial_fits w lstsq pinv A0 epsilon sw true (b :: bs) = Some st
    /\ partial_fits w lstsq pinv A0 epsilon sw true (b' :: bs') = Some st'
    /\ oA st = oA st'.
Proof.
move=> Hl Hp w eps sw A0 b b' bs bs' Hs Ew Hb Hb' E.
have [st [E1 [_ H1]]] := online_batch Hl Hp eps A0 bs Hs Ew Hb.
have [st' [E2 [_ H2]]] := online_batch Hl Hp eps A0 bs' Hs Ew Hb'.
exists st, st'; split=> //; split=> //.
rewrite -E in H2; apply: (proj2 (H2 _)); apply/eqP.
by rewrite eq_le (proj1 (H1 _)) (proj1 (H2 _)).
Qed.
Print Assumptions C23_batching_batch_fit.

(** A stream with [2 n] pairs or more, and no shorter one, ends the warm up. *)
Theorem C23_ready (R : realFieldType) (n : nat) (lstsq : lstsq_t R)
    (pinv : forall s n : nat, 'M[R]_(s, n) -> 'M[R]_(n, s))
    (w epsilon sw : R) (A0 : 'M[R]_n) (batch_fit : bool) (batches : seq (seq ('cV[R]_n * 'cV[R]_n))) st :
  partial_fits w lstsq pinv A0 epsilon sw batch_fit batches = Some st ->
  (ready true st <-> (2 * n <= size (flatten batches))%N).
Proof.
case: batches=> [//|b bs]; case: batch_fit.
  by rewrite partial_fits_true=> -[<-]; rewrite /ready timestep_foldl /= size_cat.
by rewrite partial_fits_false // => -[<-]; rewrite /ready timestep_foldl.
Qed.
Print Assumptions C23_ready.

(** The assumptions on [lstsq] and [pinv] are met by actual functions. *)
Theorem C23_oracles_exist (R : realFieldType) :
  (exists lstsq : lstsq_t R, solves_consistent lstsq)
  /\ (exists pinv : forall s n : nat, 'M[R]_(s, n) -> 'M[R]_(n, s), pinv_least_squares pinv).
Proof. by split; [exists (@pinv_lstsq R); apply: pinv_lstsq_ok | exists (@lsq_pinv R); apply: lsq_pinv_ok]. Qed.
Print Assumptions C23_oracles_exist.

(** A concrete stream: one state variable, weighting 1/4, pairs (1, 3) and (2, 2) in two
    batches, initial guess 0 with epsilon 1; the result is 19/18. *)
Example C23_example :
  let c (q : rat) : 'cV[rat]_1 := q%:M in
  stream_spanning [:: (c 1, c 3%:R)]
  /\ exists st, partial_fits 4%:R^-1 (@pinv_lstsq _) (@lsq_pinv _) 0 1 2%:R^-1 false
        [:: [:: (c 1, c 3%:R)]; [:: (c 2%:R, c 2%:R)]] = Some st
      /\ oA st = (19%:R / 18%:R)%:M.
Proof.
split.
  move=> v /(_ _ (mem_head _ _)); rewrite big_ord1 /= mxE eqxx mul1r => H.
  by apply/matrixP=> i j; rewrite !ord1 [RHS]mxE.
rewrite partial_fits_false //; eexists; split; first reflexivity.
apply/matrixP=> i j; rewrite !ord1 /=.
rewrite !(mxE, big_ord1) /=.
by apply/eqP; vm_compute.
Qed.
