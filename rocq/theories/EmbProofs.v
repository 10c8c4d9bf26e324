(** * Proofs for C39, C40, C41. *)

From mathcomp Require Import all_ssreflect all_algebra.
From Verif Require Import RingTac LinModel KernModel KernSpec KernProofs KernExample EmbModel EmbSpec.
Import Order.Theory GRing.Theory Num.Theory.
Set Implicit Arguments.
Unset Strict Implicit.
Unset Printing Implicit Defensive.
Local Open Scope ring_scope.

Section Proofs.
Variable R : rcfType.
Add Ring RRing : (rt_theory R).

Lemma orthonormalE n k (V : 'M[R]_(n, k)) : Orthonormal V <-> V^T *m V = 1%:M.
Proof.
split=> [H|H].
- apply/matrixP => i j; rewrite !mxE -H; by apply: eq_bigr => l _; rewrite mxE.
- move=> i j; have := congr1 (fun M : 'M[R]_k => M i j) H; rewrite !mxE => <-.
  by apply: eq_bigr => l _; rewrite mxE.
Qed.

Lemma trmxZ' m n (c : R) (A : 'M[R]_(m, n)) : (c *: A)^T = c *: A^T.
Proof. by apply/matrixP => i j; rewrite !mxE. Qed.
Lemma trmxD' m n (A B : 'M[R]_(m, n)) : (A + B)^T = A^T + B^T.
Proof. by apply/matrixP => i j; rewrite !mxE. Qed.

(** ** C39 *)

Lemma select_mul n m k c (A : 'M[R]_(n, m)) (V : 'M[R]_(m, k)) (sel : 'I_c -> 'I_k) :
  select_vectors sel (A *m V) = A *m select_vectors sel V.
Proof. by apply/matrixP => i j; rewrite !mxE; apply: eq_bigr => l _; rewrite mxE. Qed.

Lemma select_diag n k c (V : 'M[R]_(n, k)) (s : 'rV[R]_k) (sel : 'I_c -> 'I_k) :
  select_vectors sel (V *m diag_mx s) = select_vectors sel V *m diag_mx (select_vectors sel s).
Proof. by apply/matrixP => i j; rewrite mul_mx_diag mxE mul_mx_diag !mxE. Qed.

Lemma rose_training n l k c (svd : svd_t R k) (K : 'M[R]_(n, l)) f (sel : 'I_c -> 'I_k) texp :
  SvdSolver svd -> rose_fit_model svd K = Some f ->
  (forall j, svdvalues f 0 (sel j) != 0) ->
  rose_transform f sel texp K
  = match texp with
    | None => rose_fit_transform f sel
    | Some p => rose_fit_transform f sel *m diag_mx (\row_j p (svdvalues f 0 (sel j)))
    end.
Proof.
move=> HS; rewrite /rose_fit_model.
case E: (rose_eval None K) => [[M st] nd].
have E2 : rose_eval (Some st) K = (M, st, nd).
  by move: E; rewrite /rose_eval /= => -[<- <- <-].
case ES: (svd n l M) => [[[U s] V]|] // [<-] /= Hs; have [H1 _] := HS _ _ _ _ _ _ ES.
rewrite /rose_transform -[stochastic_normalization _]/st E2 /=.
have N : M *m mat_dot_diagmat (select_vectors sel V) (reciprocal (select_vectors sel s)) = select_vectors sel U.
  rewrite mat_dot_diagE mulmxA -select_mul H1 select_diag -mulmxA diag_reciprocal' ?mulmx1 // => j.
  by rewrite mxE.
have L : diagmat_dot_mat nd (select_vectors sel U) = rose_fit_transform (RoseFit (diagmat_dot_mat nd U) s V st) sel.
  by apply/matrixP => i j; rewrite !mxE.
rewrite N L; case: texp => //= p.
rewrite mat_dot_diagE; congr (_ *m diag_mx _); by apply/matrixP => i j; rewrite !mxE [i]ord1.
Qed.

Lemma rose_row_sums n l (K : 'M[R]_(n, l)) i :
  row_sums (mat_dot_diagmat K (\row_j \sum_i K i j)) 0 i = \sum_q (K *m K^T) i q.
Proof.
rewrite mxE (eq_bigr (fun j => \sum_q K i j * K q j)); last first.
  by move=> j _; rewrite !mxE mulr_suml; apply: eq_bigr => q _; rewrite mulrC.
by rewrite exchange_big; apply: eq_bigr => q _; rewrite mxE; apply: eq_bigr => j _; rewrite mxE.
Qed.

Lemma rose_markov n l k (svd : svd_t R k) (K : 'M[R]_(n, l)) f (P : 'M[R]_n) :
  SvdSolver svd -> PositiveRows (K *m K^T) -> Markov (K *m K^T) P ->
  rose_fit_model svd K = Some f ->
  EigenPairs P (\row_j svdvalues f 0 j ^+ 2) (svdvec_left f).
Proof.
move=> HS HP HM; rewrite /rose_fit_model /rose_eval.
set nd : 'rV[R]_n := \row_i _; set M := diagmat_dot_mat nd K.
have ndE i : nd 0 i = (Num.sqrt (\sum_q (K *m K^T) i q))^-1.
  by rewrite mxE rose_row_sums gt_eqF // HP.
case ES: (svd n l M) => [[[U s] V]|] // [<-] /=; have [H1 [H2 _]] := HS _ _ _ _ _ _ ES.
rewrite /EigenPairs diag_dot_matE.
have EP : P = diag_mx nd *m M *m K^T.
  apply/matrixP => i j; rewrite HM /M diag_dot_matE -!mulmxA.
  rewrite mul_diag_mx [RHS]mxE mul_diag_mx [X in _ = _ * X]mxE ndE mulrA sqr_inv_sqrt; first by rewrite mulrC.
  exact: HP.
have HMK : M^T = K^T *m diag_mx nd by rewrite /M diag_dot_matE trmx_mul tr_diag_mx.
rewrite EP -!mulmxA (mulmxA K^T) -HMK H2 (mulmxA M) H1 -!mulmxA.
congr (_ *m (_ *m _)); apply/matrixP => i j; rewrite mul_mx_diag !mxE.
by case: (i =P j) => [->|_]; rewrite ?mulr1n ?mulr0n ?mul0r // expr2.
Qed.

(** ** C40 *)

Lemma n_functions_min n p1 p2 : (n_functions n p1 p2 <= minn p1 p2)%N.
Proof.
by apply: leq_trans (geq_minr _ _) _; rewrite leq_min !geq_min !leq_pred /= orbT.
Qed.

(** Only the columns of the first block are used. *)
Definition first_block n p1 p2 (j : 'I_(n_functions n p1 p2)) : 'I_(minn p1 p2) :=
  widen_ord (n_functions_min n p1 p2) j.

Lemma fun_indexE n p1 p2 (j : 'I_(n_functions n p1 p2)) : fun_index j = lshift _ (first_block j).
Proof. exact/val_inj. Qed.

Section Jsf.
Variables (s p1 p2 n : nat) (W1 : 'M[R]_(s, p1)) (W2 : 'M[R]_(s, p2)) (svd : full_svd_t R).
Hypothesis HW1 : Orthonormal W1.
Hypothesis HW2 : Orthonormal W2.
Hypothesis Hsvd : FullSvd svd.

Let M := W1^T *m W2.
Variables (Q' : 'M[R]_(p1, minn p1 p2)) (s' : 'rV[R]_(minn p1 p2)) (T' : 'M[R]_(p2, minn p1 p2)).
Hypothesis ES : svd M = Some (Q', s', T').
Let Q := select_vectors (@first_block n p1 p2) Q'.
Let sv := select_vectors (@first_block n p1 p2) s'.
Let T := select_vectors (@first_block n p1 p2) T'.
Let D : 'rV[R]_(n_functions n p1 p2) := \row_j (Num.sqrt (1 + sv 0 j))^-1.
Let S1 : 'rV[R]_(n_functions n p1 p2) := \row_j (1 + sv 0 j).
Let F := (1 / Num.sqrt 2%:R) *: ((W1 *m Q + W2 *m T) *m diag_mx D).

Lemma jsf_form : jsf_vectors svd n W1 W2 = Some (s', F).
Proof.
rewrite /jsf_vectors /F /Q /T /D /sv -/M ES; congr (Some (_, _)).
congr (_ *: _); rewrite mat_dot_diagE mulmxA; congr (_ *m diag_mx _); last first.
  by apply/matrixP => i j; rewrite [LHS]mxE fun_indexE row_mxEl !mxE.
have -> : \matrix_(i, j) col_mx (row_mx Q' Q') (row_mx T' (- T')) i (@fun_index n p1 p2 j)
  = col_mx (select_vectors (@first_block n p1 p2) Q') (select_vectors (@first_block n p1 p2) T').
  apply/matrixP => i j; rewrite mxE fun_indexE -(splitK i); case: (fintype.split i) => l /=.
    by rewrite !col_mxEu row_mxEl mxE.
  by rewrite !col_mxEd row_mxEl mxE.
by rewrite mul_row_col.
Qed.

Lemma sing : SingularTriplets M Q' s' T'.
Proof. exact: Hsvd ES. Qed.

Lemma sv_ge0 j : 0 <= sv 0 j.
Proof. by case: sing => _ [_ [_ [_ H]]]; rewrite mxE. Qed.

Lemma sv1_gt0 j : 0 < 1 + sv 0 j.
Proof. by rewrite ltr_spaddl ?ltr01 ?sv_ge0. Qed.

Lemma sel_orth k c (sel : 'I_c -> 'I_k) m (V : 'M[R]_(m, k)) : injective sel -> V^T *m V = 1%:M ->
  (select_vectors sel V)^T *m select_vectors sel V = 1%:M.
Proof.
move=> inj H; apply/matrixP => i j; have := congr1 (fun X : 'M[R]_k => X (sel i) (sel j)) H.
by rewrite !mxE (inj_eq inj) => <-; apply: eq_bigr => l _; rewrite !mxE.
Qed.

Lemma fb_inj : injective (@first_block n p1 p2).
Proof. by move=> i j /(congr1 val) /= /val_inj. Qed.

Lemma QQ : Q^T *m Q = 1%:M. Proof. by case: sing => _ [_ [H _]]; apply: sel_orth fb_inj H. Qed.
Lemma TT : T^T *m T = 1%:M. Proof. by case: sing => _ [_ [_ [H _]]]; apply: sel_orth fb_inj H. Qed.
Lemma MT : M *m T = Q *m diag_mx sv.
Proof. by case: sing => H _; rewrite /T -select_mul H select_diag. Qed.
Lemma MQ : M^T *m Q = T *m diag_mx sv.
Proof. by case: sing => _ [H _]; rewrite /Q -select_mul H select_diag. Qed.

Lemma diag_S1 : diag_mx S1 = 1%:M + diag_mx sv.
Proof. by apply/matrixP => i j; rewrite !mxE; case: eqP; rewrite ?mulr1n ?mulr0n ?addr0. Qed.

Lemma W1F : W1^T *m (W1 *m Q + W2 *m T) = Q *m diag_mx S1.
Proof.
by rewrite mulmxDr !mulmxA (proj1 (orthonormalE _) HW1) mul1mx -/M MT diag_S1 mulmxDr mulmx1.
Qed.
Lemma W2F : W2^T *m (W1 *m Q + W2 *m T) = T *m diag_mx S1.
Proof.
rewrite mulmxDr !mulmxA (proj1 (orthonormalE _) HW2) mul1mx.
have -> : W2^T *m W1 = M^T by rewrite trmx_mul trmxK.
by rewrite MQ diag_S1 mulmxDr mulmx1 addrC.
Qed.

Lemma jsf_orthonormal : Orthonormal F.
Proof.
apply/orthonormalE; rewrite /F trmxZ' -scalemxAl -scalemxAr scalerA.
rewrite trmx_mul tr_diag_mx -!mulmxA [X in _ *: (_ *m X)]mulmxA.
rewrite trmxD' !trmx_mul mulmxDl -!mulmxA W1F W2F !mulmxA QQ TT !mul1mx.
have -> : 1 / Num.sqrt 2%:R * (1 / Num.sqrt 2%:R) = 2%:R^-1 :> R.
  by rewrite !div1r -invfM -expr2 sqr_sqrtr ?ler0n.
apply/matrixP => i j; rewrite [LHS]mxE mul_mx_diag [X in _ * X]mxE mul_diag_mx ![(\matrix_(_, _) _) _ _]mxE.
rewrite !mxE; case: (i =P j) => [->|_]; rewrite ?mulr1n ?mulr0n ?addr0 ?mulr0 ?mul0r ?mulr0 //.
have := sv1_gt0 j; rewrite mxE => Hp; set q := Num.sqrt _; set a := 1 + _.
have Ea : q * q = a by rewrite -expr2 sqr_sqrtr ?(ltW Hp).
have Nq : q != 0 by rewrite gt_eqF // sqrtr_gt0.
rewrite -Ea; apply: (@mulfI _ 2%:R); first by rewrite pnatr_eq0.
rewrite [LHS]mulrA (mulfV (two_neq0 R)) mul1r mulr1 mulrDr mulrDl.
have -> : q^-1 * (q * q) * q^-1 = 1 by rewrite mulrA mulVf // mul1r mulfV.
by rewrite -(natrD _ 1 1).
Qed.

Lemma jsf_extend (K1 K2 : 'M[R]_s) (e1 : 'rV[R]_p1) (e2 : 'rV[R]_p2) Y :
  EigenPairs K1 e1 W1 -> EigenPairs K2 e2 W2 ->
  (forall j, e1 0 j != 0) -> (forall j, e2 0 j != 0) ->
  jsf_transform W1 W2 e1 e2 F K1 K2 = Some Y ->
  Y = F *m diag_mx (\row_j ((1 + sv 0 j) / 2%:R)).
Proof.
move=> H1 H2 N1 N2; rewrite /jsf_transform; case: ifP => // _ [<-].
rewrite (nystroem_train N1 H1) (nystroem_train N2 H2) /F -!scalemxAr -scalemxAl.
set c := 1 / Num.sqrt 2%:R; set G := W1 *m Q + W2 *m T.
have E1 : W1^T *m (G *m diag_mx D) = Q *m diag_mx S1 *m diag_mx D by rewrite mulmxA W1F.
have E2 : W2^T *m (G *m diag_mx D) = T *m diag_mx S1 *m diag_mx D by rewrite mulmxA W2F.
rewrite E1 E2 -scalerDr scalerA (mulrC _ c) -scalerA; congr (c *: _).
have -> : diag_mx (\row_j ((1 + sv 0 j) / 2%:R)) = 2%:R^-1 *: diag_mx S1.
  by apply/matrixP => i j; rewrite !mxE; case: (i =P j) => _; rewrite ?mulr1n ?mulr0n ?mulr0 // mulrC.
rewrite -scalemxAr; congr (_ *: _).
have C : diag_mx D *m diag_mx S1 = diag_mx S1 *m diag_mx D.
  by apply/matrixP => i j; rewrite !mul_mx_diag !mxE; case: (i =P j) => [->|_]; rewrite ?mulr1n ?mulr0n ?mul0r // mulrC.
by rewrite -[in RHS]mulmxA C !mulmxA -!mulmxDl /G.
Qed.
End Jsf.

(** Three and more splits. *)
Lemma stack_gram s (ws : seq (split R s)) :
  tagged (stack ws) *m (tagged (stack ws))^T = \sum_(w <- ws) evecs w *m (evecs w)^T.
Proof.
elim: ws => [|w ws IH] /=; first by rewrite big_nil mul0mx.
by rewrite big_cons tr_row_mx mul_row_col IH.
Qed.

Lemma jsf_multi_orthonormal s k (svd : svd_t R k) (ws : seq (split R s)) sv F : SvdSolver svd ->
  jsf_vectors_multi svd ws = Some (sv, F) -> Orthonormal F.
Proof.
move=> H; rewrite /jsf_vectors_multi; case E: (svd _ _ _) => [[[U s'] V]|] // [_ <-].
by apply/orthonormalE; have [_ [_ []]] := H _ _ _ _ _ _ E.
Qed.

Lemma jsf_multi_extend s k (svd : svd_t R k) (ks : seq (split R s * 'M[R]_s)) sv F : SvdSolver svd ->
  (forall wk, List.In wk ks -> EigenPairs wk.2 (evals wk.1) (evecs wk.1) /\ forall j, evals wk.1 0 j != 0) ->
  jsf_vectors_multi svd [seq wk.1 | wk <- ks] = Some (sv, F) ->
  jsf_transform_multi F ks = F *m diag_mx (\row_j (sv 0 j ^+ 2 / (size ks)%:R)).
Proof.
move=> HS H; rewrite /jsf_vectors_multi; set ws := map _ _; set M := tagged (stack ws).
case E: (svd _ _ _) => [[[U s'] V]|] // [<- <-].
have [H1 [H2 _]] := HS _ _ _ _ _ _ E; rewrite /jsf_transform_multi.
have -> : \sum_(wk <- ks) nystroem wk.2 (evecs wk.1) (evals wk.1) *m ((evecs wk.1)^T *m U)
  = \sum_(w <- ws) evecs w *m (evecs w)^T *m U.
  rewrite /ws big_map; clear -H; elim: ks H => [|wk ks IH] H; rewrite ?big_nil // !big_cons.
  have [E N] := H wk (or_introl erefl); rewrite (nystroem_train N E) mulmxA; congr (_ + _).
  by apply: IH => wk' Hin; apply: H; right.
rewrite -mulmx_suml -stack_gram -/M -mulmxA H2 mulmxA H1 -mulmxA scalemxAr; congr (_ *m _).
apply/matrixP => i j; rewrite mxE mul_mx_diag !mxE.
by case: eqP => [->|_]; rewrite ?mulr1n ?mulr0n ?mul0r ?mulr0 // mulrC expr2.
Qed.

(** ** C41 *)

Lemma ghi_training n k p (eig : eig_t R k) (c : dmap_cfg R) (K : 'M[R]_n) f (y : 'M[R]_(n, p)) :
  EigenSolver eig -> (distance_symmetric c -> Symmetric K) ->
  PositiveRows K -> Nonneg K -> (forall x, 0 < x -> 0 < pow_alpha c x) ->
  fit eig c K = Some f -> (forall j, eigenvalues f 0 j != 0) ->
  ghi_predict c f y K = Some (eigenvectors f *m ((eigenvectors f)^T *m y)).
Proof.
move=> HE HS HP HN Hpow HF He; have [P [EP HPE]] := fit_eigen HE HS HP HN Hpow HF.
have N := nystroem_train He HPE; rewrite /nystroem in N.
by rewrite /ghi_predict EP /ghi_aux (mulmxA P) N.
Qed.

Lemma ghi_orthonormal n k (eig : eig_t R k) (c : dmap_cfg R) (K : 'M[R]_n) f :
  OrthonormalSolver eig -> is_stochastic c = false -> Symmetric K ->
  fit eig c K = Some f -> Orthonormal (eigenvectors f).
Proof.
move=> HO Hc HS; rewrite /fit /normalize_pdist Hc /= /solve_eigenproblem.
case E: (eig n K) => [[e V]|] // [<-] /=; have HV := HO _ _ _ _ E HS.
move=> i j; rewrite -HV; apply: eq_bigr => l _; rewrite !mxE.
have N q : \sum_i0 V i0 q ^+ 2 = 1.
  have -> : \sum_i0 V i0 q ^+ 2 = \sum_l V l q * V l q by apply: eq_bigr => t _; rewrite expr2.
  by rewrite HV eqxx.
by rewrite !N sqrtr1 invr1 ?mulr1 ?mul1r.
Qed.

(** No sign conditions are needed without stochastic normalisation. *)
Lemma ghi_plain n k p (eig : eig_t R k) (c : dmap_cfg R) (K : 'M[R]_n) f (y : 'M[R]_(n, p)) :
  EigenSolver eig -> is_stochastic c = false ->
  fit eig c K = Some f -> (forall j, eigenvalues f 0 j != 0) ->
  ghi_predict c f y K = Some (eigenvectors f *m ((eigenvectors f)^T *m y)).
Proof.
move=> HE Hc; rewrite /fit /normalize_pdist /ghi_predict /normalize_cdist Hc /= /solve_eigenproblem.
case E: (eig n K) => [[e V]|] // [<-] /= He; congr Some.
have HPE : EigenPairs K e (mat_dot_diagmat V (reciprocal (col_norm V))).
  by apply: eigen_scale; have [] := HE _ _ _ _ E.
have N := nystroem_train He HPE; rewrite /nystroem in N.
by rewrite /ghi_aux /= (mulmxA K) N.
Qed.

Lemma ghi_projection n k p (eig : eig_t R k) (c : dmap_cfg R) (K : 'M[R]_n) f (y : 'M[R]_(n, p)) :
  EigenSolver eig -> OrthonormalSolver eig -> is_stochastic c = false -> Symmetric K ->
  fit eig c K = Some f -> (forall j, eigenvalues f 0 j != 0) ->
  exists Y, ghi_predict c f y K = Some Y /\ Projection (eigenvectors f) y Y.
Proof.
move=> HE HO Hc HS HF He; eexists; split; first exact: (ghi_plain y HE Hc HF He).
have HV := proj1 (orthonormalE _) (ghi_orthonormal HO Hc HS HF).
split; first by eexists.
by rewrite mulmxBr mulmxA HV mul1mx subrr.
Qed.

Lemma projection_span n k p (V : 'M[R]_(n, k)) (y Y : 'M[R]_(n, p)) : Orthonormal V ->
  Projection V y Y -> (exists C, y = V *m C) -> Y = y.
Proof.
move=> /orthonormalE HV [[C ->] H] [C' E]; move: H; rewrite {}E -mulmxBr mulmxA HV mul1mx.
by move/eqP; rewrite subr_eq0 => /eqP ->.
Qed.

End Proofs.
