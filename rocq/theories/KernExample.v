(** * Concrete cases for C35, C37, C55 and the proofs about pre-images. *)

From mathcomp Require Import all_ssreflect all_algebra.
From Verif Require Import RingTac LinModel LinSpec LinProofs KernModel KernSpec KernProofs.
Import Order.Theory GRing.Theory Num.Theory.
Set Implicit Arguments.
Unset Strict Implicit.
Unset Printing Implicit Defensive.
Local Open Scope ring_scope.

Section Examples.
Variable R : rcfType.
Add Ring RRing : (rt_theory R).

(** 2 x 2 matrices and vectors by their entries. *)
Definition mx2 (a b c d : R) : 'M[R]_2 :=
  \matrix_(i, j) (if i == 0 then (if j == 0 then a else b) else (if j == 0 then c else d)).
Definition rv2 (a b : R) : 'rV[R]_2 := \row_j (if j == 0 then a else b).

Lemma ord2 (i : 'I_2) : i = 0 \/ i = 1.
Proof. by case: i => [[|[|//]] H]; [left|right]; apply/val_inj. Qed.

Lemma sum2 (f : 'I_2 -> R) : \sum_j f j = f 0 + f 1.
Proof. by rewrite !big_ord_recl big_ord0 addr0; congr (_ + f _); apply/val_inj. Qed.

(** A solver that knows one candidate and checks it. *)
Definition checking_solver (e : 'rV[R]_2) (V : 'M[R]_2) : eig_t R 2 :=
  fun n => match n with
           | 2%N => fun A : 'M[R]_2 => if A *m V == V *m diag_mx e then Some (e, V) else None
           | _ => fun _ => None
           end.

Lemma checking_solver_ok (e : 'rV[R]_2) (V : 'M[R]_2) : (forall j, exists i, V i j != 0) -> EigenSolver (checking_solver e V).
Proof.
move=> HV n A e' V'; case: n A V' => [|[|[|n]]] A V' //=.
by case: eqP => // H [<- <-]; split.
Qed.

Lemma noiseE n (M : 'M[R]_n) (v : 'rV[R]_n) i j :
  remove_noise (mat_dot_diagmat (diagmat_dot_mat (reciprocal v) M) (reciprocal v)) i j
  = (M i j + M j i) / 2%:R / (v 0 i * v 0 j).
Proof. by rewrite !mxE invfM; mring R. Qed.

Lemma unsymmetric_example :
  exists (K A P : 'M[R]_2) d, PositiveRows K /\ Nonneg K /\
    normalize_pdist (DmapCfg true false id true true) K = Some (A, Some d, None) /\
    Markov K P /\ (exists v : 'cV[R]_2, v != 0 /\ P *m v = v) /\
    (forall v : 'cV[R]_2, A *m v = v -> v = 0).
Proof.
pose K := mx2 1 0 3%:R 1.
have K00 : K 0 0 = 1 by rewrite mxE.
have K01 : K 0 1 = 0 by rewrite mxE.
have K10 : K 1 0 = 3%:R by rewrite mxE.
have K11 : K 1 1 = 1 by rewrite mxE.
have S0 : \sum_k K 0 k = 1 by rewrite sum2 K00 K01 addr0.
have S1 : \sum_k K 1 k = 2%:R ^+ 2 by rewrite sum2 K10 K11 -natrX -(natrD _ 3 1).
have HP : PositiveRows K.
  by move=> i; case: (ord2 i) => ->; rewrite ?S0 ?S1 ?ltr01 ?exprn_gt0 ?ltr0n.
have q0 : Num.sqrt (\sum_k K 0 k) = 1 by rewrite S0 sqrtr1.
have q1 : Num.sqrt (\sum_k K 1 k) = 2%:R by rewrite S1 sqrtr_sqr ger0_norm // ler0n.
rewrite /normalize_pdist /= /conjugate_kernel /sym_division.
pose v := \row_j Num.sqrt (row_sums K 0 j).
have v0 : v 0 0 = 1 by rewrite !mxE q0.
have v1 : v 0 1 = 2%:R by rewrite !mxE q1.
have Hz : has_zero v = false.
  by apply/has_zeroPn => j; case: (ord2 j) => ->; rewrite ?v0 ?v1 ?oner_neq0 ?pnatr_eq0.
exists K; eexists; exists (stochastic_kernel K); eexists; rewrite -/v Hz; split=> //; split.
  by move=> i j; rewrite mxE; do 2 case: ifP => _ //; rewrite ?ler0n ?ler01.
split; first reflexivity.
split; first exact: stochastic_markov.
split.
- exists (const_mx 1); split.
    by apply/eqP => /matrixP/(_ 0 0); rewrite !mxE => /eqP; rewrite oner_eq0.
  apply/matrixP => i j; rewrite mxE.
  rewrite (eq_bigr (fun k => K i k / (\sum_l K i l))); last first.
    by move=> k _; rewrite (stochastic_markov HP) [const_mx _ _ _]mxE mulr1.
  by rewrite -mulr_suml mulfV ?mxE // gt_eqF // HP.
- set A := remove_noise _.
  have A00 : A 0 0 = 1.
    by rewrite /A noiseE v0 K00 mulr1 divr1 -(natrD _ 1 1) mulfV ?pnatr_eq0.
  have A01 : A 0 1 != 0.
    rewrite /A noiseE v0 v1 K01 K10 add0r mul1r.
    by rewrite !mulf_neq0 ?invr_neq0 ?pnatr_eq0.
  have A10 : A 1 0 != 0.
    rewrite /A noiseE v0 v1 K01 K10 addr0 mulr1.
    by rewrite !mulf_neq0 ?invr_neq0 ?pnatr_eq0.
  move=> w /matrixP Hw.
  have := Hw 0 0; rewrite mxE sum2 A00 mul1r => H0.
  have /eqP : A 0 1 * w 1 0 = 0 by apply: (addrI (w 0 0)); rewrite addr0.
  rewrite mulf_eq0 (negbTE A01) /= => /eqP w1.
  have := Hw 1 0; rewrite mxE sum2 w1 mulr0 addr0 => /eqP.
  rewrite mulf_eq0 (negbTE A10) /= => /eqP w0.
  by apply/matrixP => i j; rewrite [j]ord1 mxE; case: (ord2 i) => ->.
Qed.

Lemma dmap_example :
  exists (eig : eig_t R 2) (c : dmap_cfg R) (K : 'M[R]_2) f,
  EigenSolver eig /\ Symmetric K /\ PositiveRows K /\ Nonneg K /\
  (forall x, 0 < x -> 0 < pow_alpha c x) /\ is_conjugate c /\ alpha_positive c /\
  fit eig c K = Some f /\ (forall j, eigenvalues f 0 j != 0) /\ K 0 1 != 0.
Proof.
pose b : R := 4%:R^-1; pose a : R := 1 - b.
have Hb : 0 < b by rewrite invr_gt0 ltr0n.
have Hb4 : b * 4%:R = 1 by rewrite mulVf ?pnatr_eq0.
have Ha : 0 <= a by rewrite subr_ge0 invf_le1 ?ler1n ?ltr0n.
have Hab : a - b != 0.
  apply/eqP => E; have : (a - b) * 4%:R = 2%:R.
    have -> : (a - b) * 4%:R = 4%:R - (b * 4%:R + b * 4%:R) by rewrite /a; mring R.
    by rewrite Hb4 -(natrD _ 1 1) -natrB.
  by rewrite E mul0r => /eqP; rewrite eq_sym pnatr_eq0.
pose K := mx2 a b b a; pose V := mx2 1 1 1 (-1); pose e := rv2 1 (a - b).
have K00 : K 0 0 = a by rewrite mxE.
have K01 : K 0 1 = b by rewrite mxE.
have K10 : K 1 0 = b by rewrite mxE.
have K11 : K 1 1 = a by rewrite mxE.
have HS : Symmetric K.
  by move=> i j; case: (ord2 i) => ->; case: (ord2 j) => ->; rewrite ?K00 ?K01 ?K10 ?K11.
have S i : \sum_k K i k = 1.
  by case: (ord2 i) => ->; rewrite sum2 ?K00 ?K01 ?K10 ?K11 /a; mring R.
have HP : PositiveRows K by move=> i; rewrite S ltr01.
have HN : Nonneg K.
  by move=> i j; case: (ord2 i) => ->; case: (ord2 j) => ->; rewrite ?K00 ?K01 ?K10 ?K11 // ltW.
pose c : dmap_cfg R := DmapCfg true true id true true.
have [K' EK'] : exists K', density_pdist c K = Some (K', map_mx id (row_sums K)).
  by apply: (density_some (c := c)) => i; rewrite /= S oner_neq0.
have [HS' HK'] := density_symmetric HS EK'.
have KK : K' = K by apply/matrixP => i j; rewrite HK' /= !S mulr1 divr1.
subst K'.
have [A [d [EA [HA Hd]]]] := conjugate_entries HS HP.
have AK : A = K by apply/matrixP => i j; rewrite HA !S sqrtr1 mulr1 divr1.
subst A.
have HV : K *m V = V *m diag_mx e.
  apply/matrixP => i j; rewrite mul_mx_diag !mxE sum2.
  by case: (ord2 i) => ->; case: (ord2 j) => ->; rewrite !mxE /= /a; mring R.
exists (checking_solver e V), c, K; eexists; split; last split=> //.
  apply: checking_solver_ok => j; exists 0; by case: (ord2 j) => ->; rewrite mxE /= oner_neq0.
do 5 (split=> //).
split.
  by rewrite /fit /normalize_pdist /= EK' EA /solve_eigenproblem /= HV eqxx.
split=> /=; last by rewrite K01 gt_eqF.
by move=> j; case: (ord2 j) => ->; rewrite mxE /= ?oner_neq0.
Qed.

Lemma preimage_train n k l p (lstsq : lstsq_t R) (f : dmap_fit R n k) (sel : 'I_l -> 'I_k)
         (X : 'M[R]_(n, p)) Z :
  solves_consistent lstsq -> fit_transform f sel None = Some (existT _ l Z) ->
  (exists C, X = select_vectors sel (eigenvectors f) *m C) ->
  inverse_transform lstsq f sel X Z = X.
Proof.
move=> HL [] /eqP; rewrite -tag_eqE /tag_eq /= => /andP[_].
rewrite tagged_asE => /eqP <- [C EX].
by rewrite /inverse_transform; apply: (HL _ _ _ _ _ C).
Qed.

Lemma preimage_example :
  exists (eig : eig_t R 2) (K : 'M[R]_2) (f : dmap_fit R 2 2) (lstsq : lstsq_t R) (X : 'M[R]_(2, 1)) Z,
  EigenSolver eig /\ solves_consistent lstsq /\
  fit eig (DmapCfg false false id true true) K = Some f /\ Symmetric K /\ PositiveRows K /\
  fit_transform f id (Some id) = Some (existT _ 2%N Z) /\
  (exists C, X = eigenvectors f *m C) /\ inverse_transform lstsq f id X Z = 2%:R *: X /\ X != 0.
Proof.
pose V := 1%:M : 'M[R]_2; pose e := const_mx 2%:R : 'rV[R]_2; pose K := 2%:R%:M : 'M[R]_2.
have EV : mat_dot_diagmat V (reciprocal (col_norm V)) = V.
  apply/matrixP => i j; rewrite !mxE sum2 !mxE.
  by case: (ord2 i) => ->; case: (ord2 j) => ->;
     rewrite /= ?mulr0 // expr0n expr1n ?addr0 ?add0r sqrtr1 invr1 mulr1.
have HK : K *m V == V *m diag_mx e.
  by apply/eqP; rewrite mulmx1 mul1mx diag_const_mx.
pose f := DmapFit e V None : dmap_fit R 2 2.
have sV : select_vectors id V = V by apply/matrixP => i j; rewrite mxE.
exists (checking_solver e V), K, f, (@pinv_lstsq R), (const_mx 1), (\matrix_(i, j) (2%:R * V i j)).
split.
  by apply: checking_solver_ok => j; exists j; rewrite mxE eqxx oner_neq0.
split; first exact: pinv_lstsq_ok.
split; first by rewrite /fit /= /solve_eigenproblem /= HK EV.
split; first by move=> i j; rewrite !mxE eq_sym.
split.
  by move=> i; rewrite sum2 !mxE; case: (ord2 i) => ->; rewrite /= ?mulr1n ?mulr0n ?addr0 ?add0r ltr0n.
split.
  rewrite /fit_transform embedding_all /=; congr Some; congr existT.
  by apply/matrixP => i j; rewrite sV !mxE.
split; first by exists (const_mx 1); rewrite mul1mx.
split; last first.
  by apply/eqP => /matrixP/(_ 0 0); rewrite !mxE => /eqP; rewrite oner_eq0.
rewrite /inverse_transform /= sV.
have -> : (\matrix_(i, j) (2%:R * V i j)) = 2%:R *: V by apply/matrixP => i j; rewrite !mxE.
rewrite -scalemxAl; congr (_ *: _).
by apply: (pinv_lstsq_ok (Z := const_mx 1)); rewrite mul1mx.
Qed.

End Examples.
