(** * Proofs about the Mahalanobis kernel. *)

From Coq Require Import List.
From mathcomp Require Import all_ssreflect all_algebra.
From Verif Require Import Np MahModel MahSpec.
Import Order.Theory GRing.Theory Num.Theory.
Set Implicit Arguments.
Unset Strict Implicit.
Unset Printing Implicit Defensive.
Local Open Scope ring_scope.

Section P.
Variables (R : rcfType) (m : nat).
Implicit Types (X : nat -> 'rV[R]_m) (V : nat -> 'M[R]_m) (D : dist_matrix R).

Lemma formE (W : 'M[R]_m) (x : 'rV[R]_m) : (x *m W *m x^T) 0 0 = form W x.
Proof.
rewrite mxE /form [RHS]exchange_big /=; apply: eq_bigr => b _.
by rewrite [x^T b 0]mxE mxE mulr_suml.
Qed.

Lemma formD (W W' : 'M[R]_m) x : form (W + W') x = form W x + form W' x.
Proof. by rewrite -!formE mulmxDr mulmxDl mxE. Qed.

Lemma formN (W : 'M[R]_m) x : form W (- x) = form W x.
Proof. by rewrite -!formE linearN /= !mulNmx mulmxN opprK. Qed.

Lemma sq_distance_sym X V i j : sq_distance X V i j = sq_distance X V j i.
Proof. by rewrite /sq_distance -opprB !formN addrC. Qed.

Lemma sq_distance_ge0 n X V i j : Psd n V -> (i < n)%N -> (j < n)%N -> 0 <= sq_distance X V i j.
Proof. by move=> H Hi Hj; rewrite divr_ge0 ?ler0n // addr_ge0 ?H. Qed.

Lemma mahalanobisE X V i j : mahalanobis_distance X V i j = Num.sqrt (sq_distance X V i j).
Proof. by rewrite /mahalanobis_distance -!scalemxAl mxE formE formD mulrC. Qed.

Lemma mahalanobis_sqr n X V i j : Psd n V -> (i < n)%N -> (j < n)%N -> mahalanobis_distance X V i j ^+ 2 = sq_distance X V i j.
Proof. by move=> H Hi Hj; rewrite mahalanobisE sqr_sqrtr // (sq_distance_ge0 _ H). Qed.

Lemma all_iotaP (P : nat -> bool) N : reflect (forall i, (i < N)%N -> P i) (all P (iota 0 N)).
Proof.
by apply: (iffP allP) => H i; have := H i; rewrite mem_iota add0n.
Qed.

Lemma shape_csr D : (n_rows (to_csr D), n_cols (to_csr D)) = shape D.
Proof. by case: D. Qed.

Lemma stored_csr D i j : Stored D i j <-> entry (to_csr D) i j <> None.
Proof.
case: D => [r c M|A] //=; case: eqP => [->|E]; first by split.
by split.
Qed.

Section Eval.
Variables (np nc : nat) (X : nat -> 'rV[R]_m) (V : nat -> 'M[R]_m) (expf : R -> R) (estimate : csr R -> result R).
Notation evaluate := (evaluate np nc X V expf estimate).

(** the value that is stored for a pair in the kernel before it is made symmetric *)
Definition raw (eps : R) (D : dist_matrix R) (i j : nat) : R :=
  if entry (to_csr D) i j is Some v then
    expf (- 1 / (2%:R * eps) * (if j == i then v else mahalanobis_distance X V i j) ^+ 2)
  else 0.

Lemma evaluate_ok e D K D' : evaluate e D = Ok (K, D') -> exists eps,
  [/\ (if e is Some e' then eps = e' else estimate (replace_distances X V (to_csr D)) = Ok eps),
      accesses_ok np nc (to_csr D), (shape D).1 = (shape D).2 &
      (forall i j, K i j = 2%:R^-1 * (raw eps D i j + raw eps D j i)) /\
      D' = if D is Sparse A then Sparse (map_data (fun d => d ^+ 2) (replace_distances X V A)) else D].
Proof.
rewrite /MahModel.evaluate; case Ha: accesses_ok => //=.
case Ee: (if e is Some e' then Ok e' else _) => [eps|] //=.
case: eqP => //= Es [<- <-]; exists eps; split.
- by case: e Ee => [e'|//] [->].
- by [].
- by case: (D) Es.
- split; last by case: (D).
  move=> i j; rewrite /value /map_data /=; congr (_ * (_ + _)); rewrite /raw; by case: entry.
Qed.

Lemma evaluate_index e D : ~~ accesses_ok np nc (to_csr D) -> evaluate e D = Err IndexError.
Proof. by rewrite /MahModel.evaluate => ->. Qed.

Lemma evaluate_shape eps D : accesses_ok np nc (to_csr D) -> (shape D).1 <> (shape D).2 -> evaluate (Some eps) D = Err ValueError.
Proof.
rewrite /MahModel.evaluate => -> /= H.
by have -> : n_rows (to_csr D) != n_cols (to_csr D) by apply/eqP; case: (D) H.
Qed.

Lemma evaluate_square eps D : accesses_ok np nc (to_csr D) -> (shape D).1 = (shape D).2 -> exists p, evaluate (Some eps) D = Ok p.
Proof.
rewrite /MahModel.evaluate => -> /= H.
have -> : (n_rows (to_csr D) != n_cols (to_csr D)) = false by apply/negbTE; rewrite negbK; apply/eqP; case: (D) H.
by eexists.
Qed.

Lemma accesses_square D n : shape D = (n, n) -> accesses_ok np nc (to_csr D) <-> (n <= np)%N /\ (n <= nc)%N.
Proof.
move=> Hs; have [Er Ec] : n_rows (to_csr D) = n /\ n_cols (to_csr D) = n by have := shape_csr D; rewrite Hs => -[].
rewrite /accesses_ok Er Ec; split.
  move/all_iotaP => H; case: n Hs Er Ec H => [//|n] _ _ _ H.
  by have /andP [/andP []] := H n (ltnSn n).
case=> H1 H2; apply/all_iotaP => i Hi; rewrite (leq_trans Hi H1) (leq_trans Hi H2) /=.
by apply/all_iotaP => j Hj; rewrite (leq_trans Hj H1) (leq_trans Hj H2) orbT.
Qed.

Lemma raw_stored n eps D i j : Psd n V -> (i < n)%N -> (j < n)%N -> i <> j -> Stored D i j ->
  raw eps D i j = gauss expf eps (sq_distance X V i j).
Proof.
move=> HV Hi Hj Hij /stored_csr; rewrite /raw; case: entry => // v _.
case: eqP => [E|_]; first by case: Hij.
by rewrite (mahalanobis_sqr _ HV) // /gauss mulrAC mulN1r.
Qed.

Lemma raw_not_stored eps D i j : ~ Stored D i j -> raw eps D i j = 0.
Proof. by move=> H; rewrite /raw; case E: entry => [v|//]; case: H; apply/stored_csr; rewrite E. Qed.

Lemma half_twice (x : R) : 2%:R^-1 * (x + x) = x.
Proof. by rewrite -mulr2n -[x *+ 2]mulr_natl mulrA mulVf ?mul1r // pnatr_eq0. Qed.

End Eval.

End P.
