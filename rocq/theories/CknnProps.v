(** * C44 (cut-off estimate) and C45 (continuous nearest neighbours). *)

From mathcomp Require Import all_ssreflect all_algebra.
From Verif Require Import CknnModel CknnSpec CknnProofs CknnExample.
Import Order.Theory GRing.Theory Num.Theory.
Set Implicit Arguments.
Unset Strict Implicit.
Unset Printing Implicit Defensive.
Local Open Scope ring_scope.

(** Every point has at least k points within the estimated cut-off, which is the smallest such
    value: for one point it is the distance of the k-th nearest. *)
Theorem C44_cut_off_estimate :
  forall (R : rcfType) m n (D : 'M[R]_(m, n)) k cut, estimate_cutoff D k = Some cut ->
  (forall i, (k <= #|[set j | (D i j <= cut)%R]|)%N) /\ exists i, KthNearest D k i cut.
Proof. exact: cutoff_kth. Qed.
Print Assumptions C44_cut_off_estimate.

(** k = 1, accepted by the code, gives the cut-off 0: the nearest point is the point itself. *)
Theorem C44_cut_off_k1_refuted :
  forall (R : rcfType) n (D : 'M[R]_n.+1), Distances D -> estimate_cutoff D 1 = Some 0.
Proof.
move=> R n D HD; have [v E] : exists v, kth_nearest_neighbor_dist D 1 = Some v.
  by rewrite /kth_nearest_neighbor_dist /=; eexists.
case EC: (estimate_cutoff D 1) => [c|].
  by have [_ [i /(kth_unique (kth_nearest i E)) <-]] := cutoff_kth EC; rewrite (k1_zero i HD E).
move: EC; rewrite /estimate_cutoff E; case El: [seq _ | _ <- _] => // _.
by have := size_map (fun i => v 0 i) (enum 'I_n.+1); rewrite El size_enum_ord.
Qed.
Print Assumptions C44_cut_off_k1_refuted.

(** The pairwise kernel is a symmetric adjacency matrix with an edge (i, j) iff
    d(i,j) < delta * sqrt(d_k(i) d_k(j)). *)
Theorem C45_edges :
  forall (R : rcfType) n (c : cknn R n) sym (D : 'M[R]_n) A c', Distances D ->
  evaluate_pdist c sym D = Some (A, c') ->
  exists dk : 'I_n -> R, (forall i, KthNearest D (k_neighbor c) i (dk i) /\ 0 < dk i) /\
    (forall i j, A i j = (D i j < delta c * Num.sqrt (dk i * dk j))) /\ (forall i j, A i j = A j i).
Proof. exact: edges. Qed.
Print Assumptions C45_edges.

(** The component-wise evaluation at the reference points gives the same graph. *)
Theorem C45_training_points :
  forall (R : rcfType) n (c : cknn R n) sym (D : 'M[R]_n) A c', Distances D ->
  evaluate_pdist c sym D = Some (A, c') -> (k_neighbor c < n)%N -> evaluate_cdist c' D = Some A.
Proof. exact: training. Qed.
Print Assumptions C45_training_points.

(** A kernel object evaluates one reference set: a second pairwise evaluation is rejected. *)
Theorem C45_second_pairwise_rejected :
  forall (R : rcfType) n (c : cknn R n) sym (D D' : 'M[R]_n) A c',
  evaluate_pdist c sym D = Some (A, c') -> evaluate_pdist c' sym D' = None.
Proof.
move=> R n c sym D D' A c' /pdist_some[dk [F [_ _ _ ->]]].
by rewrite /evaluate_pdist; case: ifP.
Qed.
Print Assumptions C45_second_pairwise_rejected.

Example C45_example : forall R : rcfType, exists (c : cknn R 3) A c',
  new_cknn 3 2 (2%:R : R) = Some c /\ Distances (line R) /\
  evaluate_pdist c true (line R) = Some (A, c') /\ (k_neighbor c < 3)%N /\
  A (inord 0) (inord 1) = true /\ A (inord 1) (inord 2) = true /\ A (inord 0) (inord 2) = false.
Proof. exact: cknn_example. Qed.

(** The constructor accepts k_neighbor=1, but every pairwise evaluation fails. *)
Theorem C45_k1_refuted :
  forall (R : rcfType) n (d : R), 0 < d ->
  exists c : cknn R n.+1, new_cknn n.+1 1 d = Some c /\
    forall sym (D : 'M[R]_n.+1), Distances D -> evaluate_pdist c sym D = None.
Proof.
move=> R n d d0; exists (Cknn 1 d None); split; first by rewrite /new_cknn leNgt d0.
by move=> sym D HD; apply: k1_none.
Qed.
Print Assumptions C45_k1_refuted.
