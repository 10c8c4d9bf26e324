(** * Proofs for C35, C36, C37, C55. *)

From mathcomp Require Import all_ssreflect all_algebra.
From Verif Require Import RingTac LinModel KernModel KernSpec.
Import Order.Theory GRing.Theory Num.Theory.
Set Implicit Arguments.
Unset Strict Implicit.
Unset Printing Implicit Defensive.
Local Open Scope ring_scope.

Section Proofs.
Variable R : rcfType.
Add Ring RRing : (rt_theory R).

Lemma mat_dot_diagE m n (M : 'M[R]_(m, n)) (d : 'rV[R]_n) : mat_dot_diagmat M d = M *m diag_mx d.
Proof. by apply/matrixP => i j; rewrite mul_mx_diag !mxE mulrC. Qed.

Lemma diag_dot_matE m n (M : 'M[R]_(m, n)) (d : 'rV[R]_m) : diagmat_dot_mat d M = diag_mx d *m M.
Proof. by apply/matrixP => i j; rewrite mul_diag_mx !mxE mulrC. Qed.

Lemma has_zeroPn n (v : 'rV[R]_n) : (has_zero v = false) <-> (forall j, v 0 j != 0).
Proof.
rewrite /has_zero; split.
- by move/negbT/existsPn=> H j; apply: H.
- by move=> H; apply/negbTE/existsPn => j; exact: H.
Qed.

Lemma two_neq0 : 2%:R != 0 :> R. Proof. by rewrite pnatr_eq0. Qed.

Lemma sqrt_neq0 (x : R) : 0 < x -> Num.sqrt x != 0.
Proof. by move=> H; rewrite sqrtr_eq0 -ltNge. Qed.

(** ** C35 *)

Lemma conjugate_entries n (K : 'M[R]_n) : Symmetric K -> PositiveRows K ->
  exists A d, conjugate_kernel K = Some (A, d) /\
    (forall i j, A i j = K i j / (Num.sqrt (\sum_k K i k) * Num.sqrt (\sum_k K j k))) /\
    (forall i, d 0 i = (Num.sqrt (\sum_k K i k))^-1).
Proof.
move=> HS HP; rewrite /conjugate_kernel /sym_division.
set v := \row_j _.
have vE i : v 0 i = Num.sqrt (\sum_k K i k) by rewrite !mxE.
have -> : has_zero v = false by apply/has_zeroPn => j; rewrite vE sqrt_neq0.
eexists; eexists; split; first reflexivity; split.
- move=> i j; rewrite !mxE.
  have -> : K j i = K i j by rewrite HS.
  set a := Num.sqrt (\sum_k K i k); set b := Num.sqrt (\sum_k K j k).
  have -> : b^-1 * (K i j * a^-1) + a^-1 * (K i j * b^-1) = 2%:R * (K i j / (a * b)).
    by rewrite invfM mulr_natl mulr2n; mring R.
  by rewrite mulrAC mulfV ?two_neq0 // mul1r.
- by move=> i; rewrite mxE vE.
Qed.

Lemma markov_unique m n (K P Q : 'M[R]_(m, n)) : Markov K P -> Markov K Q -> P = Q.
Proof. by move=> HP HQ; apply/matrixP => i j; rewrite HP HQ. Qed.

Lemma sqr_inv_sqrt (x : R) : 0 < x -> (Num.sqrt x)^-1 * (Num.sqrt x)^-1 = x^-1.
Proof. by move=> H; rewrite -invfM -expr2 sqr_sqrtr // ltW. Qed.

Lemma unsymmetric_markov n (K A : 'M[R]_n) d : Symmetric K -> PositiveRows K ->
  conjugate_kernel K = Some (A, d) -> Markov K (unsymmetric_kernel A d).
Proof.
move=> HS HP HC; have [A' [d' [E [HA Hd]]]] := conjugate_entries HS HP.
move: HC; rewrite E => -[EA Ed]; subst A' d' => i j.
rewrite !mxE HA !Hd invrK.
have Hj := sqrt_neq0 (HP j).
rewrite invfM mulrC -!mulrA.
rewrite [(Num.sqrt (\sum_k K j k))^-1 * _]mulrCA [_^-1 * Num.sqrt _]mulVf // mulr1.
by rewrite sqr_inv_sqrt.
Qed.

Lemma has_basis n (K A : 'M[R]_n) d : Symmetric K -> PositiveRows K ->
  conjugate_kernel K = Some (A, d) -> forall i, d 0 i != 0.
Proof.
move=> HS HP HC; have [A' [d' [E [HA Hd]]]] := conjugate_entries HS HP.
move: HC; rewrite E => -[EA Ed]; subst A' d' => i.
by rewrite Hd invr_eq0 sqrt_neq0.
Qed.

Lemma diag_reciprocal n (d : 'rV[R]_n) : (forall i, d 0 i != 0) ->
  diag_mx (reciprocal d) *m diag_mx d = 1%:M.
Proof.
move=> H; apply/matrixP => i j; rewrite mul_diag_mx !mxE.
by case: (i =P j) => [->|_]; rewrite ?mulr1n ?mulr0n ?mulVf ?mulr0.
Qed.

Lemma diag_reciprocal' n (d : 'rV[R]_n) : (forall i, d 0 i != 0) ->
  diag_mx d *m diag_mx (reciprocal d) = 1%:M.
Proof.
move=> H; apply/matrixP => i j; rewrite mul_diag_mx !mxE.
by case: (i =P j) => [->|_]; rewrite ?mulr1n ?mulr0n ?mulfV ?mulr0.
Qed.

Lemma conjugate_eigen n k (K A P : 'M[R]_n) d (e : 'rV[R]_k) V : Symmetric K -> PositiveRows K ->
  conjugate_kernel K = Some (A, d) -> Markov K P ->
  EigenPairs A e V <-> EigenPairs P e (diag_mx d *m V).
Proof.
move=> HS HP HC HM.
have EP : P = diag_mx d *m A *m diag_mx (reciprocal d).
  rewrite -diag_dot_matE -mat_dot_diagE; exact: (markov_unique HM (unsymmetric_markov HS HP HC)).
have Hd := has_basis HS HP HC.
rewrite /EigenPairs EP -!mulmxA (mulmxA (diag_mx (reciprocal d)) (diag_mx d)) diag_reciprocal // mul1mx.
split=> [->|H]; first by [].
have := congr1 (mulmx (diag_mx (reciprocal d))) H.
by rewrite !mulmxA diag_reciprocal // !mul1mx.
Qed.

Lemma conjugate_zero_row n (K : 'M[R]_n) i : \sum_j K i j = 0 -> conjugate_kernel K = None.
Proof.
move=> H; rewrite /conjugate_kernel /sym_division.
suff -> : has_zero (\row_j Num.sqrt (row_sums K 0 j)) by [].
by apply/existsP; exists i; rewrite !mxE H sqrtr0.
Qed.

(** ** C36 *)

Lemma stochastic_markov m n (K : 'M[R]_(m, n)) : PositiveRows K -> Markov K (stochastic_kernel K).
Proof.
move=> HP i j; rewrite /stochastic_kernel !mxE.
have H := HP i; rewrite gt_eqF // orFb invr_lt0 ltNge ltW //=.
Qed.

Lemma stochastic_row m n (K : 'M[R]_(m, n)) i : Nonneg K ->
  (0 < \sum_j K i j -> Distribution (row i K) (row i (stochastic_kernel K))) /\
  (\sum_j K i j = 0 -> row i (stochastic_kernel K) = 0).
Proof.
move=> HN; rewrite /stochastic_kernel; split.
- move=> H; have E j : row i (diagmat_dot_mat (\row_i0 (if (row_sums K 0 i0 == 0)
      || ((row_sums K 0 i0)^-1 < 0) then 0 else (row_sums K 0 i0)^-1)) K) 0 j = (\sum_j K i j)^-1 * K i j.
    by rewrite !mxE gt_eqF // orFb invr_lt0 ltNge ltW //= mulrC.
  split; last split.
  + by rewrite (eq_bigr _ (fun j _ => E j)) -mulr_sumr mulVf // gt_eqF.
  + by move=> j; rewrite E mulr_ge0 // invr_ge0 ltW.
  + by exists (\sum_j K i j)^-1 => j; rewrite E !mxE.
- by move=> H; apply/matrixP => a j; rewrite !mxE H eqxx mulr0.
Qed.

Lemma stochastic_sparse_eq m n (K : 'M[R]_(m, n)) : Nonneg K ->
  stochastic_kernel_sparse K = stochastic_kernel K.
Proof.
move=> HN; apply/matrixP => i j; rewrite /stochastic_kernel !mxE.
have -> : \sum_k `|K i k| = \sum_k K i k by apply: eq_bigr => k _; rewrite ger0_norm.
have S0 : 0 <= \sum_k K i k by apply: sumr_ge0.
have [E|E] := boolP (\sum_k K i k == 0); last by rewrite invr_lt0 ltNge S0 /= (negbTE E).
have -> : K i j = 0; last by rewrite /= !mul0r.
by apply/eqP; move: E; rewrite psumr_eq0 // => /allP/(_ j (mem_index_enum _)) /implyP; apply.
Qed.

Lemma density_symmetric n (c : dmap_cfg R) (K K' : 'M[R]_n) rs : Symmetric K ->
  density_pdist c K = Some (K', rs) ->
  Symmetric K' /\ forall i j, K' i j = K i j / (pow_alpha c (\sum_k K i k) * pow_alpha c (\sum_k K j k)).
Proof.
move=> HS; rewrite /density_pdist /sym_division; case: (has_zero _) => // -[<- _].
have E i j : mat_dot_diagmat (diagmat_dot_mat (reciprocal (map_mx (pow_alpha c) (row_sums K))) K)
      (reciprocal (map_mx (pow_alpha c) (row_sums K))) i j
    = K i j / (pow_alpha c (\sum_k K i k) * pow_alpha c (\sum_k K j k)).
  by rewrite !mxE invfM; mring R.
have E' i j : (if distance_symmetric c
    then remove_noise (mat_dot_diagmat (diagmat_dot_mat (reciprocal (map_mx (pow_alpha c) (row_sums K))) K)
      (reciprocal (map_mx (pow_alpha c) (row_sums K))))
    else mat_dot_diagmat (diagmat_dot_mat (reciprocal (map_mx (pow_alpha c) (row_sums K))) K)
      (reciprocal (map_mx (pow_alpha c) (row_sums K)))) i j
    = K i j / (pow_alpha c (\sum_k K i k) * pow_alpha c (\sum_k K j k)).
  case: (distance_symmetric c); last exact: E.
  rewrite mxE !E (HS j i).
  set a := pow_alpha c (\sum_k K i k); set b := pow_alpha c (\sum_k K j k).
  have -> : K i j / (a * b) + K i j / (b * a) = 2%:R * (K i j / (a * b)) by rewrite [b * a]mulrC mulr_natl mulr2n.
  by rewrite mulrAC mulfV ?two_neq0 // mul1r.
by split=> [i j|//]; rewrite !E' (HS j i); congr (_ / _); exact: mulrC.
Qed.

Lemma density_some n (c : dmap_cfg R) (K : 'M[R]_n) :
  (forall i, pow_alpha c (\sum_k K i k) != 0) -> exists K' , density_pdist c K = Some (K', map_mx (pow_alpha c) (row_sums K)).
Proof.
move=> H; rewrite /density_pdist /sym_division.
have -> : has_zero (map_mx (pow_alpha c) (row_sums K)) = false by apply/has_zeroPn => j; rewrite !mxE.
by eexists.
Qed.

Lemma density_cdist_zero m n (c : dmap_cfg R) fit (K : 'M[R]_(m, n)) i :
  pow_alpha c (\sum_k K i k) = 0 -> density_cdist c fit K = None.
Proof.
move=> H; rewrite /density_cdist /sym_division2.
suff -> : has_zero (map_mx (pow_alpha c) (row_sums K)) by [].
by apply/existsP; exists i; rewrite !mxE H.
Qed.

(** ** C37 *)

(** On the training points the component-wise density normalisation is the pair-wise one. *)
Lemma density_same n (c : dmap_cfg R) (K K' : 'M[R]_n) rs :
  (distance_symmetric c -> Symmetric K) ->
  density_pdist c K = Some (K', rs) -> density_cdist c rs K = Some K'.
Proof.
move=> HS; rewrite /density_pdist /density_cdist /sym_division /sym_division2.
case E: (has_zero _) => // -[<- <-]; rewrite E /=; congr Some.
case ED: (distance_symmetric c) => //; apply/matrixP => i j.
rewrite !mxE (HS ED j i).
set a := (pow_alpha c (\sum_j0 K i j0))^-1; set b := (pow_alpha c (\sum_j0 K j j0))^-1.
have -> : b * (K i j * a) + a * (K i j * b) = 2%:R * (b * (K i j * a)) by rewrite mulr_natl mulr2n; mring R.
by rewrite mulrAC mulfV ?two_neq0 // mul1r.
Qed.

Lemma eigen_scale n k (A : 'M[R]_n) (e : 'rV[R]_k) V d :
  EigenPairs A e V -> EigenPairs A e (mat_dot_diagmat V d).
Proof.
rewrite /EigenPairs mat_dot_diagE mulmxA => ->; rewrite -!mulmxA; congr (_ *m _).
by apply/matrixP => i j; rewrite !mul_diag_mx !mxE; case: (i =P j) => [->|_]; rewrite ?mulr1n ?mulr0n ?mulr0 // mulrC.
Qed.

Lemma eigen_select n k c (A : 'M[R]_n) (e : 'rV[R]_k) V (sel : 'I_c -> 'I_k) :
  EigenPairs A e V -> EigenPairs A (select_vectors sel e) (select_vectors sel V).
Proof.
rewrite /EigenPairs => H; apply/matrixP => i j.
have := congr1 (fun M : 'M[R]_(n, k) => M i (sel j)) H.
rewrite !mul_mx_diag !mxE => <-; apply: eq_bigr => l _; by rewrite !mxE.
Qed.

Lemma nystroem_train n k (A : 'M[R]_n) (e : 'rV[R]_k) V : (forall j, e 0 j != 0) ->
  EigenPairs A e V -> nystroem A V e = V.
Proof. by move=> He H; rewrite /nystroem mat_dot_diagE mulmxA H -mulmxA diag_reciprocal' // mulmx1. Qed.

(** After a successful fit the stored vectors are eigenvectors of the component-wise kernel
    matrix of the training points. *)
Lemma fit_eigen n k (eig : eig_t R k) (c : dmap_cfg R) (K : 'M[R]_n) f :
  EigenSolver eig -> (distance_symmetric c -> Symmetric K) ->
  PositiveRows K -> Nonneg K -> (forall x, 0 < x -> 0 < pow_alpha c x) ->
  fit eig c K = Some f ->
  exists P, normalize_cdist c (row_sums_fit f) K = Some P /\ EigenPairs P (eigenvalues f) (eigenvectors f).
Proof.
move=> HE HS HP HN Hpow; rewrite /fit /normalize_pdist /normalize_cdist.
case Est: (is_stochastic c) => /=; last first.
  rewrite /solve_eigenproblem; case EE: (eig n K) => [[e V]|] // [<-] /=.
  by exists K; split=> //; apply: eigen_scale; have [] := HE _ _ _ _ EE.
(* the density step gives the same matrix K' with positive rows, symmetric if K is *)
set D := (if alpha_positive c then _ else _).
case ED: D => [[K' rs]|] //.
have [HC [HS' HP']] : (if alpha_positive c then match rs with Some rs => density_cdist c rs K | None => None end
       else Some K) = Some K' /\ (distance_symmetric c -> Symmetric K') /\ PositiveRows K'.
  move: ED; rewrite /D; case: (alpha_positive c); last by case=> <- _.
  case EDD: (density_pdist c K) => [[K2 r2]|] // [E2 E3]; subst K2 rs.
  split; first exact: density_same HS EDD.
  split; first by move=> Hs; have [] := density_symmetric (HS Hs) EDD.
  have HK' i j : K' i j = K i j / (pow_alpha c (\sum_k K i k) * pow_alpha c (\sum_k K j k)).
    have := density_same HS EDD; rewrite /density_cdist /sym_division2; case: ifP => // _ [<-].
    have [_ [_ Er]] : True /\ True /\ r2 = map_mx (pow_alpha c) (row_sums K).
      by move: EDD; rewrite /density_pdist; case: (sym_division _ _ _) => // a [_ <-].
    by rewrite Er !mxE invfM; mring R.
  move=> i.
  have Hpi q : 0 < pow_alpha c (\sum_l K q l) by apply: Hpow; apply: HP.
  have [j Hj] : exists j, 0 < K i j.
    apply/existsP; apply: contraT; rewrite negb_exists => /forallP H0.
    have := HP i; rewrite big1 ?ltxx // => j _; apply/eqP; rewrite eq_le HN andbT leNgt; exact: H0.
  rewrite (bigD1 j) //= ltr_paddr //; last by rewrite HK' divr_gt0 // mulr_gt0.
  apply: sumr_ge0 => l _; rewrite HK' divr_ge0 ?HN // mulr_ge0 // ltW //.
case EC: (is_conjugate c).
- have Hds : distance_symmetric c by move: EC; rewrite /is_conjugate => /andP[].
  have [A [d [EA _]]] := conjugate_entries (HS' Hds) HP'.
  rewrite EA /solve_eigenproblem; case EE: (eig n A) => [[e V]|] // [<-] /=.
  exists (stochastic_kernel K'); rewrite HC; split=> //.
  apply: eigen_scale; rewrite diag_dot_matE.
  apply/(conjugate_eigen e V (HS' Hds) HP' EA (stochastic_markov HP')).
  by have [] := HE _ _ _ _ EE.
- rewrite /solve_eigenproblem; case EE: (eig n _) => [[e V]|] // [<-] /=.
  exists (stochastic_kernel K'); rewrite HC; split=> //.
  by apply: eigen_scale; have [] := HE _ _ _ _ EE.
Qed.

Lemma transform_train n k l (eig : eig_t R k) (c : dmap_cfg R) (K : 'M[R]_n) f (sel : 'I_l -> 'I_k) texp :
  EigenSolver eig -> (distance_symmetric c -> Symmetric K) ->
  PositiveRows K -> Nonneg K -> (forall x, 0 < x -> 0 < pow_alpha c x) ->
  fit eig c K = Some f -> (forall j, eigenvalues f 0 (sel j) != 0) ->
  transform c f sel texp K = fit_transform f sel texp.
Proof.
move=> HE HS HP HN Hpow HF He; have [P [EP HPE]] := fit_eigen HE HS HP HN Hpow HF.
rewrite /transform EP /fit_transform nystroem_train //; first by move=> j; rewrite mxE.
exact: eigen_select.
Qed.

Lemma embedding_mismatch m l k (p : R -> R) (e : 'rV[R]_k) (M : 'M[R]_(m, l)) :
  l != k -> l != 1%N -> k != 1%N -> embedding (Some p) e M = None.
Proof.
rewrite /embedding /multiply_broadcast => H1 H2 H3; case: eqVneq => [E|_].
  by rewrite E eqxx in H1.
by case: l M H1 H2 => [|[|l]] M H1 H2 //; case: k e H1 H3 => [|[|k]] e H1 H3.
Qed.

Lemma embedding_single m k (p : R -> R) (e : 'rV[R]_k) (M : 'M[R]_(m, 1)) :
  k != 1%N -> exists B, embedding (Some p) e M = Some (existT _ k B).
Proof.
rewrite /embedding /multiply_broadcast => H; case: eqVneq => [E|_]; first by rewrite E eqxx in H.
by eexists.
Qed.

Lemma embedding_all m k (p : R -> R) (e : 'rV[R]_k) (M : 'M[R]_(m, k)) :
  embedding (Some p) e M = Some (existT _ k (\matrix_(i, j) (p (e 0 j) * M i j))).
Proof.
rewrite /embedding /multiply_broadcast; case: eqVneq => [E|]; last by rewrite eqxx.
congr Some; congr existT; apply/matrixP => i j; rewrite !mxE castmxE !mxE /=.
by congr (p (e _ _) * _); apply/val_inj.
Qed.

End Proofs.
