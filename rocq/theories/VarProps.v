(** * C94: variable bandwidth diffusion maps. *)

From mathcomp Require Import all_ssreflect all_algebra.
From Verif Require Import LinModel KernModel KernSpec FieldTac VarModel VarSpec VarProofs VarExample.
Import Order.Theory GRing.Theory Num.Theory.
Set Implicit Arguments.
Unset Strict Implicit.
Unset Printing Implicit Defensive.
Local Open Scope ring_scope.

(** ** For positive parameters the constructor accepts exactly the exponents beta below the bound
    of the theory. *)
Theorem C94_accepts :
  forall (R : rcfType) (c : var_cfg R), 0 < dim c -> 0 < epsilon c -> 0 < nn c ->
  accepts c = ((dim c + 2%:R) * beta c < dim c ^+ 2 - dim c - 1).
Proof. exact: accepts_iff. Qed.
Print Assumptions C94_accepts.

(** ** The checks of the other parameters have no effect for an integer dimension: a dimension of
    zero, a negative bandwidth and a negative number of neighbours are accepted together. *)
Theorem C94_validation_refuted :
  forall R : rcfType, exists c : var_cfg R,
  dim_int c /\ dim c <= 0 /\ epsilon c < 0 /\ nn c < 0 /\ accepts c.
Proof. exact: validation_refuted. Qed.
Print Assumptions C94_validation_refuted.

(** ** With symmetrize_kernel=True.  The stored operator is the identity plus the generator of a
    diffusion whose weights are the variable bandwidth kernel; the bandwidth is a power of the
    density, which is estimated with the mean distance to the nearest neighbours.  The columns of
    eigenvectors_ are eigenvectors of the stored operator, and eigenvalues_ are powers of their
    eigenvalues, which are at most one. *)
Theorem C94_fit :
  forall (R : rcfType) (exp : R -> R) (pow : R -> R -> R) (twopi : R) (c : var_cfg R) n k
    (eig : eig_t R k) (D : 'M[R]_n) G' e' V',
  ExpLaw exp -> PowLaw pow -> 0 < twopi ->
  EigenSolver eig -> Distances D -> (1 < n)%N -> 0 < nn c -> 0 < epsilon c -> symmetrize c ->
  var_fit exp pow twopi c eig D = Some (G', e', V') ->
  exists (r q rho : 'I_n -> R) K G e,
    [/\ forall i, NearestMean D `|nn c|%N i (r i),
        Density exp pow (dim c) D r q /\ Bandwidth pow (beta c) q rho,
        VariableKernel exp pow (epsilon c) (dim c) (- dim c / 4%:R) D rho K /\ Weights K rho,
        Generator K rho G /\ G' = 1%:M + G
      & [/\ EigenPairs G' e V', forall j, exists i, V' i j != 0,
            forall j, e 0 j <= 1 & forall j, e' 0 j = pow (e 0 j) (1 / epsilon c)]].
Proof.
move=> R exp pow twopi c n k eig D G' e' V' H1 H2 H3 H4 H5 H6 H7 H8 H9 H10.
exact: (fit_symmetric H1 H2 H3 H4 H5 H6 H7 H8 H9 H10).
Qed.
Print Assumptions C94_fit.

(** ... it exists, unless the eigensolver gives up, and there are not more neighbours than
    samples. *)
Theorem C94_total :
  forall (R : rcfType) (exp : R -> R) (pow : R -> R -> R) (twopi : R) (c : var_cfg R) n k
    (eig : eig_t R k) (D : 'M[R]_n),
  ExpLaw exp -> PowLaw pow -> 0 < twopi ->
  Distances D -> (1 < n)%N -> 0 < nn c -> 0 < epsilon c ->
  (forall A : 'M[R]_n, eig n A <> None) ->
  (var_fit exp pow twopi c eig D <> None <-> nn c <= n%:Z).
Proof.
move=> R exp pow twopi c n k eig D H1 H2 H3 H5 H6 H7 H8 H9; split.
  by rewrite /var_fit; case: (ltP n%:Z (nn c)) => // _ [].
by move=> Hle; exact: (fit_total H1 H2 H3 H5 H6 H7 Hle H8 H9).
Qed.
Print Assumptions C94_total.

(** ** The matrix that is given to the eigensolver is symmetric. *)
Theorem C94_symmetric :
  forall (R : rcfType) (exp : R -> R) (pow : R -> R -> R) (twopi : R) (c : var_cfg R) n k
    (D : 'M[R]_n) L s,
  symmetrize c -> evaluate exp pow twopi c k D = Some (L, s) -> Symmetric L.
Proof. by move=> R exp pow twopi c n k D L s; exact: symmetric_matrix. Qed.
Print Assumptions C94_symmetric.

(** ** A generator maps constants to zero, so the stored operator keeps them. *)
Theorem C94_constant :
  forall (R : rcfType) n (K : 'M[R]_n) (rho : 'rV[R]_n) G,
  Weights K (rho 0) -> Generator K (rho 0) G -> G *m const_mx 1 = 0 :> 'cV[R]_n.
Proof. by move=> R n K rho G HW; exact: generator_const. Qed.
Print Assumptions C94_constant.

(** ** With the default symmetrize_kernel=False the same weights are used, but they are not
    divided by the sums of their rows ... *)
Theorem C94_default :
  forall (R : rcfType) (exp : R -> R) (pow : R -> R -> R) (twopi : R) (c : var_cfg R) n k
    (D : 'M[R]_n),
  ExpLaw exp -> PowLaw pow -> 0 < twopi ->
  Distances D -> (1 < n)%N -> (0 < k)%N -> 0 < epsilon c -> symmetrize c = false ->
  exists (r q rho : 'I_n -> R) K L,
    [/\ forall i, NearestMean D k i (r i),
        Density exp pow (dim c) D r q /\ Bandwidth pow (beta c) q rho,
        VariableKernel exp pow (epsilon c) (dim c) (- dim c / 4%:R) D rho K /\ Weights K rho,
        evaluate exp pow twopi c k D = Some (L, None)
      & forall (v : 'cV[R]_n) i,
          (L *m v) i 0 = (\sum_j K i j * v j 0 - v i 0) / (epsilon c * rho i ^+ 2)].
Proof.
move=> R exp pow twopi c n k D H1 H2 H3 H4 H5 H6 H7 H8.
exact: (default_form H1 H2 H3 H4 H5 H6 H7 H8).
Qed.
Print Assumptions C94_default.

(** ... so the result is not a generator: for any two samples and all parameters it maps the
    constant function to a positive function. *)
Theorem C94_default_refuted :
  forall (R : rcfType) (exp : R -> R) (pow : R -> R -> R) (twopi : R) (c : var_cfg R) k
    (D : 'M[R]_2),
  ExpLaw exp -> PowLaw pow -> 0 < twopi ->
  Distances D -> (0 < k)%N -> 0 < epsilon c -> 0 <= dim c -> symmetrize c = false ->
  exists L, evaluate exp pow twopi c k D = Some (L, None) /\
    (forall i, 0 < (L *m (const_mx 1 : 'cV[R]_2)) i 0) /\
    ~ exists K rho, Weights K rho /\ Generator K rho L.
Proof.
move=> R exp pow twopi c k D H1 H2 H3 H4 H5 H6 H7 H8.
exact: (default_refuted H1 H2 H3 H4 H5 H6 H7 H8).
Qed.
Print Assumptions C94_default_refuted.

(** A concrete case: two samples at distance one, one dimension. *)
Example C94_example :
  forall R : rcfType, exists (exp : R -> R) pow (twopi : R) c (eig : eig_t R 2) (D : 'M[R]_2) f,
  ExpLaw exp /\ PowLaw pow /\ 0 < twopi /\ EigenSolver eig /\ Distances D /\ 0 < nn c /\
  0 < epsilon c /\ 0 < dim c /\ symmetrize c /\ accepts c /\
  var_fit exp pow twopi c eig D = Some f.
Proof.
move=> R; have [f Hf] := ex_fit R.
exists (@ex_exp R), (@ex_pow R), 6%:R, (ex_cfg R), (@ex_eig R), (ex_dist R), f.
split; first exact: ex_exp_law.
split; first exact: ex_pow_law.
split; first by rewrite ltr0n.
split; first exact: ex_eig_ok.
split; first exact: ex_dist_ok.
do 4 (split; first by rewrite // ltr01).
by split; first exact: ex_accepts.
Qed.
