(** * C48: which eigensolver is used. *)

From mathcomp Require Import all_ssreflect all_algebra.
From Verif Require Import KernModel KernSpec KernProofs EigModel EigSpec EigProofs EigExample.
Import GRing.Theory Num.Theory.
Set Implicit Arguments.
Unset Strict Implicit.
Unset Printing Implicit Defensive.
Local Open Scope ring_scope.

(** A solver for symmetric matrices is used iff the kernel is declared symmetric and either the
    distance is declared symmetric, too, or all eigenpairs are requested. *)
Theorem C48_solver : forall (f : flags) (n k : nat),
  symmetric_solver (choose f n k) <-> kernel_symmetric f /\ (k = n \/ dist_symmetric f).
Proof. exact: choice. Qed.
Print Assumptions C48_solver.

(** The returned pairs are eigenpairs of the kernel matrix (which is symmetric if declared so),
    if not all are requested, or the distance is symmetric, or the kernel is declared
    non-symmetric. *)
Theorem C48_eigenpairs : forall (R : rcfType) (B : backend R) (f : flags) (n : nat) (A : 'M[R]_n)
  (k : nat) (normalize validate : bool) (e : 'rV[R]_k) (V : 'M[R]_(n, k)), ScipySolvers B ->
  (is_symmetric f -> Symmetric A) ->
  (k != n) || dist_symmetric f || ~~ kernel_symmetric f ->
  compute_kernel_eigenpairs B f A k normalize validate = Some (e, V) -> EigenPairs A e V.
Proof. exact: eigenpairs_ok. Qed.
Print Assumptions C48_eigenpairs.

(** If all eigenpairs of a kernel that is declared symmetric are requested and its matrix is not
    symmetric (e.g. nearest neighbour distances), the result is wrong, for every such matrix. *)
Theorem C48_all_eigenpairs_refuted : forall (R : rcfType) (B : backend R) (f : flags) (n : nat)
  (A : 'M[R]_n) (normalize validate : bool) (e : 'rV[R]_n) (V : 'M[R]_n), ScipySolvers B ->
  kernel_symmetric f -> ~ Symmetric A ->
  compute_kernel_eigenpairs B f A n normalize validate = Some (e, V) -> ~ EigenPairs A e V.
Proof. exact: all_pairs_wrong. Qed.
Print Assumptions C48_all_eigenpairs_refuted.

(** The same for the diffusion maps kernel (symmetrize_kernel=True, the default) on a
    non-symmetric distance: all eigenpairs of the Markov matrix are wrong, if it is not
    symmetric by chance. *)
Theorem C48_dmap_refuted : forall (R : rcfType) (B : backend R) (c : dmap_cfg R) (n : nat)
  (K : 'M[R]_n) (normalize validate : bool) (e : 'rV[R]_n) (V : 'M[R]_n), ScipySolvers B ->
  is_stochastic c -> symmetrize_kernel c -> ~~ distance_symmetric c -> ~~ alpha_positive c ->
  PositiveRows K ->
  exists P, normalize_pdist c K = Some (P, None, None) /\ Markov K P /\
    (~ Symmetric P -> compute_kernel_eigenpairs B (dmap_flags c) P n normalize validate = Some (e, V) ->
     ~ EigenPairs P e V).
Proof.
move=> R B c n K nrm val e V HB H1 H2 H3 H4 HK; exists (stochastic_kernel K); split; first exact: dmap_matrix.
split; first exact: stochastic_markov.
by move=> HS; apply: all_pairs_wrong => //=; rewrite H2.
Qed.
Print Assumptions C48_dmap_refuted.

(** Two points, the first linked to the second. *)
Example C48_example : forall R : rcfType,
  ScipySolvers (checking_backend (ex_e R) 1%:M) /\
  normalize_pdist (ex_cfg R) (ex_K R) = Some (ex_P R, None, None) /\ PositiveRows (ex_K R) /\
  ~ Symmetric (ex_P R) /\
  (forall nrm, compute_kernel_eigenpairs (checking_backend (ex_e R) 1%:M) (dmap_flags (ex_cfg R)) (ex_P R) 2 nrm true
    = Some (ex_e R, 1%:M)).
Proof.
move=> R; split; first exact: checking_backend_ok.
split; first exact: dmap_matrix.
split; first exact: ex_rows.
split; [exact: ex_not_symmetric|exact: ex_compute].
Qed.
