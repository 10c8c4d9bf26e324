(** * Concrete cases for C39, C40, C41. *)

From mathcomp Require Import all_ssreflect all_algebra.
From Verif Require Import RingTac FieldTac LinModel KernModel KernSpec KernProofs KernExample.
From Verif Require Import EmbModel EmbSpec EmbProofs.
Import Order.Theory GRing.Theory Num.Theory.
Set Implicit Arguments.
Unset Strict Implicit.
Unset Printing Implicit Defensive.
Local Open Scope ring_scope.

Section Examples.
Variable R : rcfType.
Add Field RField : (ft_theory R).

(** A matrix by the list of its rows. *)
Definition mxl m n (rows : seq (seq R)) : 'M[R]_(m, n) := \matrix_(i, j) nth 0 (nth [::] rows i) j.

Lemma ord3 (i : 'I_3) : [\/ i = inord 0, i = inord 1 | i = inord 2].
Proof.
by case: i => [[|[|[|//]]] H]; [apply: Or31|apply: Or32|apply: Or33]; apply/val_inj; rewrite /= inordK.
Qed.

Lemma sum3 (f : 'I_3 -> R) : \sum_j f j = f (inord 0) + f (inord 1) + f (inord 2).
Proof.
rewrite !big_ord_recl big_ord0 addr0 addrA; congr (f _ + f _ + f _); apply/val_inj; by rewrite /= inordK.
Qed.

(** ** C39 *)

(** A solver that knows one candidate and checks it. *)
Definition checking_svd (U : 'M[R]_2) (s : 'rV[R]_2) (V : 'M[R]_2) : svd_t R 2 :=
  fun n l => match n, l return 'M[R]_(n, l) -> option ('M[R]_(n, 2) * 'rV[R]_2 * 'M[R]_(l, 2)) with
             | 2%N, 2%N => fun M =>
                 if [&& M *m V == U *m diag_mx s, M^T *m U == V *m diag_mx s, U^T *m U == 1%:M,
                        V^T *m V == 1%:M & [forall j, 0 <= s 0 j]]
                 then Some (U, s, V) else None
             | _, _ => fun _ => None
             end.

Lemma checking_svd_ok U s V : SvdSolver (checking_svd U s V).
Proof.
move=> n l M U' s' V'; case: n M U' => [|[|[|n]]] M U' //; case: l M V' => [|[|[|l]]] M V' //=.
case: ifP => // /and5P[/eqP H1 /eqP H2 /eqP H3 /eqP H4 /forallP H5] [<- <- <-].
by split=> //; split=> //; split.
Qed.

Lemma rose_example :
  exists (svd : svd_t R 2) (K : 'M[R]_2) f,
  SvdSolver svd /\ Nonneg K /\ PositiveRows (K *m K^T) /\ rose_fit_model svd K = Some f /\
  (forall j, svdvalues f 0 j != 0) /\
  rose_transform f id (Some (fun x => x ^+ 2)) K != rose_fit_transform f id.
Proof.
pose K := mx2 (3%:R : R) 1 1 3%:R; pose q : R := Num.sqrt 2%:R.
have Hq : q * q = 2%:R by rewrite -expr2 sqr_sqrtr ?ler0n.
have q0 : q != 0 by rewrite gt_eqF // sqrtr_gt0 ltr0n.
pose U := mx2 q^-1 q^-1 q^-1 (- q^-1); pose s := rv2 (1 : R) 2%:R^-1.
have r4 i : row_sums (mat_dot_diagmat K (\row_j \sum_i K i j)) 0 i = 4%:R ^+ 2.
  rewrite !mxE sum2 !mxE !sum2 !mxE; case: (ord2 i) => -> /=; mfield R.
pose nd : 'rV[R]_2 := const_mx 4%:R^-1.
have End : (\row_i (if row_sums (mat_dot_diagmat K (\row_j \sum_i K i j)) 0 i == 0 then 0
  else (Num.sqrt (row_sums (mat_dot_diagmat K (\row_j \sum_i K i j)) 0 i))^-1)) = nd.
  apply/matrixP => i j; rewrite mxE r4 !mxE sqrtr_sqr expf_eq0 /= pnatr_eq0 /= ger0_norm ?ler0n //.
pose M := diagmat_dot_mat nd K.
have qq : q^-1 * q^-1 = 2%:R^-1 by rewrite -invfM Hq.
have C1 : M *m U = U *m diag_mx s.
  apply/matrixP => i j; rewrite mul_mx_diag !mxE sum2 !mxE.
  by case: (ord2 i) => ->; case: (ord2 j) => -> /=; mfield R.
have C2 : M^T *m U = U *m diag_mx s.
  apply/matrixP => i j; rewrite mul_mx_diag !mxE sum2 !mxE.
  by case: (ord2 i) => ->; case: (ord2 j) => -> /=; mfield R.
have C3 : U^T *m U = 1%:M.
  apply/matrixP => i j; rewrite !mxE sum2 !mxE.
  case: (ord2 i) => ->; case: (ord2 j) => -> /=; rewrite ?mulrNN ?mulrN ?mulNr ?qq ?subrr //; mfield R.
have C5 : [forall j, 0 <= s 0 j].
  by apply/forallP => j; rewrite mxE; case: ifP; rewrite ?ler01 ?invr_ge0 ?ler0n.
pose f := RoseFit (diagmat_dot_mat nd U) s U (\row_j \sum_i K i j).
have Ef : rose_fit_model (checking_svd U s U) K = Some f.
  by rewrite /rose_fit_model /rose_eval End /= -/M C1 C2 C3 C5 !eqxx.
have Hs j : s 0 j != 0.
  by rewrite mxE; case: ifP => _; rewrite ?oner_neq0 ?invr_neq0 ?pnatr_eq0.
exists (checking_svd U s U), K, f; split; first exact: checking_svd_ok.
split; first by move=> i j; rewrite mxE; do 2 case: ifP => _; rewrite ?ler0n ?ler01.
split.
  move=> i; rewrite sum2 !mxE !sum2 !mxE; case: (ord2 i) => -> /=;
  by do 6 rewrite ?addr_gt0 ?mulr_gt0 ?ltr0n ?ltr01.
split=> //; split=> //.
rewrite (rose_training (svd := checking_svd U s U)) //; last exact: checking_svd_ok.
apply/eqP => /matrixP/(_ 0 1); rewrite mul_mx_diag !mxE /= => E.
have : q^-1 * 4%:R^-1 != 0 :> R by rewrite mulf_neq0 ?invr_neq0 ?pnatr_eq0.
move=> N; have := mulfI N (etrans E (esym (mulr1 _))).
move/eqP; rewrite expr2 -invfM invr_eq1 -natrM.
by rewrite (eqr_nat R 4 1).
Qed.

(** ** C40 *)

(** The decomposition of multiples of the 2 x 2 identity. *)
Definition scalar_svd (a : R) : full_svd_t R :=
  fun p1 p2 => match p1, p2 return 'M[R]_(p1, p2) ->
      option ('M[R]_(p1, minn p1 p2) * 'rV[R]_(minn p1 p2) * 'M[R]_(p2, minn p1 p2)) with
    | 2%N, 2%N => fun M => if M == a%:M then Some (1%:M : 'M[R]_2, const_mx a, 1%:M) else None
    | _, _ => fun _ => None
    end.

Lemma scalar_svd_ok a : 0 <= a -> FullSvd (scalar_svd a).
Proof.
move=> Ha p1 p2 M U' s' V'; case: p1 M U' s' V' => [|[|[|p1]]] M U' s' V' //; case: p2 M U' s' V' => [|[|[|p2]]] M U' s' V' //=.
case: eqP => // -> [<- <- <-].
have : SingularTriplets (a%:M : 'M[R]_2) 1%:M (const_mx a) (1%:M : 'M[R]_2); last exact.
split; first by rewrite diag_const_mx mulmx1 mul1mx.
split; first by rewrite diag_const_mx tr_scalar_mx mulmx1 mul1mx.
by rewrite trmx1 mul1mx; do !split=> //; move=> j; rewrite mxE.
Qed.

Lemma half_scaling (x t : R) : x = x * ((1 + t) / 2%:R) -> x * ((1 - t) / 2%:R) = 0.
Proof.
move=> E; have -> : x * ((1 - t) / 2%:R) = x - x * ((1 + t) / 2%:R) by mfield R.
by rewrite -E subrr.
Qed.

Lemma jsf_example :
  exists (W1 W2 : 'M[R]_(2 + 2, 2)) (K1 K2 : 'M[R]_(2 + 2)) (e1 e2 : 'rV[R]_2) (svd : full_svd_t R) sv F Y,
  Orthonormal W1 /\ Orthonormal W2 /\ FullSvd svd /\
  EigenPairs K1 e1 W1 /\ EigenPairs K2 e2 W2 /\ (forall j, e1 0 j != 0) /\ (forall j, e2 0 j != 0) /\
  jsf_vectors svd 1 W1 W2 = Some (sv, F) /\ jsf_transform W1 W2 e1 e2 F K1 K2 = Some Y /\
  (forall j, sv 0 j < 1).
Proof.
pose a : R := 3%:R / 5%:R; pose b : R := 4%:R / 5%:R.
pose W1 : 'M[R]_(2 + 2, 2) := col_mx 1%:M 0; pose W2 : 'M[R]_(2 + 2, 2) := col_mx a%:M b%:M.
have E1 : W1^T *m W1 = 1%:M by rewrite tr_col_mx mul_row_col trmx1 mulmx1 mulmx0 addr0.
have E2 : W2^T *m W2 = 1%:M.
  rewrite tr_col_mx mul_row_col !tr_scalar_mx -!scalar_mxM -raddfD /=; congr (_%:M).
  rewrite /a /b; mfield R.
have E3 : W1^T *m W2 = a%:M.
  by rewrite tr_col_mx mul_row_col trmx1 mul1mx trmx0 mul0mx addr0.
have Ha : 0 <= a by rewrite divr_ge0 ?ler0n.
pose o : 'rV[R]_2 := const_mx 1.
have EP (W : 'M[R]_(2 + 2, 2)) : W^T *m W = 1%:M -> EigenPairs (W *m W^T) o W.
  by move=> E; rewrite /EigenPairs -mulmxA E mulmx1 diag_const_mx mulmx1.
have ES : scalar_svd a (W1^T *m W2) = Some (1%:M : 'M[R]_2, const_mx a, 1%:M) by rewrite E3 /= eqxx.
exists W1, W2, (W1 *m W1^T), (W2 *m W2^T), o, o, (scalar_svd a).
do 3 eexists; split; first exact/orthonormalE.
split; first exact/orthonormalE.
split; first exact: scalar_svd_ok.
split; first exact: EP.
split; first exact: EP.
do 2 (split; first by move=> j; rewrite mxE oner_neq0).
split; first exact: (jsf_form 1 ES).
split; first by rewrite /jsf_transform /= ; reflexivity.
move=> j; rewrite mxE ltr_pdivr_mulr ?ltr0n // mul1r ltr_nat //.
Qed.

(** The decomposition of matrices with two orthogonal rows of squared norm 3. *)
Definition gram3_svd : svd_t R 2 :=
  fun n l => match n return 'M[R]_(n, l) -> option ('M[R]_(n, 2) * 'rV[R]_2 * 'M[R]_(l, 2)) with
    | 2%N => fun M => if M *m M^T == (3%:R)%:M
                      then Some (1%:M, const_mx (Num.sqrt 3%:R), (Num.sqrt 3%:R)^-1 *: M^T) else None
    | _ => fun _ => None
    end.

Lemma gram3_svd_ok : SvdSolver gram3_svd.
Proof.
move=> n l M U' s' V'; case: n M U' => [|[|[|n]]] M U' //=; case: eqP => // H [<- <- <-].
have N : Num.sqrt 3%:R != 0 :> R by rewrite gt_eqF // sqrtr_gt0 ltr0n.
have Q : Num.sqrt 3%:R * Num.sqrt 3%:R = 3%:R :> R by rewrite -expr2 sqr_sqrtr ?ler0n.
split; last split; last split; last split.
- by rewrite -scalemxAr H diag_const_mx mul1mx scale_scalar_mx -[X in (_ * X)%:M]Q mulrA mulVf // mul1r.
- by rewrite diag_const_mx mulmx1 mul_mx_scalar scalerA mulfV // scale1r.
- by rewrite trmx1 mul1mx.
- rewrite trmxZ' trmxK -scalemxAl -scalemxAr scalerA H scale_scalar_mx -invfM Q.
  by rewrite mulVf // pnatr_eq0.
- by move=> j; rewrite mxE sqrtr_ge0.
Qed.

Lemma jsf_multi_example :
  exists (svd : svd_t R 2) (ks : seq (split R 2 * 'M[R]_2)) sv F,
  SvdSolver svd /\ size ks = 3%N /\
  (forall wk, List.In wk ks -> EigenPairs wk.2 (evals wk.1) (evecs wk.1) /\ forall j, evals wk.1 0 j != 0) /\
  jsf_vectors_multi svd [seq wk.1 | wk <- ks] = Some (sv, F).
Proof.
pose w := (Split (1%:M : 'M[R]_2) (const_mx 2%:R), (2%:R)%:M : 'M[R]_2).
exists gram3_svd, [:: w; w; w]; do 2 eexists; split; first exact: gram3_svd_ok.
split=> //; split.
  move=> wk [<-|[<-|[<-|//]]] /=; split; try by move=> j; rewrite mxE pnatr_eq0.
  1-3: by rewrite /EigenPairs mulmx1 mul1mx diag_const_mx.
rewrite /jsf_vectors_multi /gram3_svd stack_gram.
have -> : \sum_(w <- [seq wk.1 | wk <- [:: w; w; w]]) evecs w *m (evecs w)^T = (3%:R)%:M :> 'M[R]_2.
  by rewrite !big_cons big_nil /= trmx1 mulmx1 addr0 -!raddfD /= !mulrS addr0.
by rewrite eqxx; reflexivity.
Qed.

(** ** C41 *)

Definition checking_solver3 (e : 'rV[R]_2) (V : 'M[R]_(3, 2)) : eig_t R 2 :=
  fun n => match n with
           | 3%N => fun A : 'M[R]_3 => if (A *m V == V *m diag_mx e)
              && ([forall i, [forall j, A i j == A j i]] ==> (V^T *m V == 1%:M)) then Some (e, V) else None
           | _ => fun _ => None
           end.

Lemma checking_solver3_ok (e : 'rV[R]_2) (V : 'M[R]_(3, 2)) : (forall j, exists i, V i j != 0) ->
  EigenSolver (checking_solver3 e V) /\ OrthonormalSolver (checking_solver3 e V).
Proof.
move=> HV; split=> n A e' V'; case: n A V' => [|[|[|[|n]]]] A V' //=; case: ifP => // /andP[/eqP H1 H2] [E1 E2]; subst e' V'.
  by split.
move=> HS; apply/orthonormalE; apply/eqP; apply: (implyP H2).
by apply/forallP => i; apply/forallP => j; rewrite HS.
Qed.

(** Two identical points and a third one. *)
Definition ghiK : 'M[R]_3 := mxl 3 3 [:: [:: 2%:R; 2%:R; 1]; [:: 2%:R; 2%:R; 1]; [:: 1; 1; 2%:R]].

Lemma ghi_constant_example :
  exists (eig : eig_t R 2) (K : 'M[R]_3) f Y,
  let c := DmapCfg true false id false true in
  EigenSolver eig /\ OrthonormalSolver eig /\ Symmetric K /\ PositiveRows K /\ Nonneg K /\
  fit eig c K = Some f /\ (forall j, eigenvalues f 0 j != 0) /\
  ghi_predict c f (const_mx 1 : 'cV[R]_3) K = Some Y /\
  (exists C, (const_mx 1 : 'cV[R]_3) = eigenvectors f *m C) /\
  Y (inord 0) 0 = 31%:R / 33%:R.
Proof.
pose c : dmap_cfg R := DmapCfg true false id false true.
pose V : 'M[R]_(3, 2) := mxl 3 2 [:: [:: 1; 2%:R]; [:: 1; 2%:R]; [:: 1; - 5%:R]].
pose e : 'rV[R]_2 := mxl 1 2 [:: [:: 1; 3%:R / 10%:R]].
have SK : Symmetric ghiK.
  by move=> i j; rewrite !mxE; case: (ord3 i) => ->; case: (ord3 j) => ->; rewrite !inordK.
have S i : \sum_k ghiK i k = if i == inord 2 then 4%:R else 5%:R.
  rewrite sum3 !mxE; case: (ord3 i) => ->; rewrite !inordK //= -?(inj_eq val_inj) /= ?inordK //=; mfield R.
have HP : PositiveRows ghiK by move=> i; rewrite S; case: ifP => _; rewrite ltr0n.
have HN : Nonneg ghiK.
  by move=> i j; rewrite !mxE; case: (ord3 i) => ->; case: (ord3 j) => ->; rewrite !inordK //= ?ler0n ?ler01.
pose P := stochastic_kernel ghiK.
have HM := stochastic_markov HP.
have EV : P *m V = V *m diag_mx e.
  apply/matrixP => i j; rewrite mul_mx_diag [LHS]mxE sum3 !HM !S [RHS]mxE.
  case: (ord3 i) => ->; case: (ord2 j) => ->; rewrite !mxE !inordK //= -?(inj_eq val_inj) /= ?inordK //=; mfield R.
have NS : [forall i, [forall j, P i j == P j i]] = false.
  apply/negP => /forallP/(_ (inord 0))/forallP/(_ (inord 2)); rewrite !HM !S !mxE !inordK //=.
  rewrite -?(inj_eq val_inj) /= ?inordK //= !mul1r => /eqP/invr_inj/eqP.
  by rewrite (eqr_nat R 5 4).
have HV0 : forall j, exists i, V i j != 0.
  by move=> j; exists (inord 0); case: (ord2 j) => ->; rewrite mxE inordK //= ?oner_neq0 ?pnatr_eq0.
have [HE HO] := checking_solver3_ok e HV0.
have Ffit : fit (checking_solver3 e V) c ghiK
  = Some (DmapFit e (mat_dot_diagmat V (reciprocal (col_norm V))) None).
  by rewrite /fit /normalize_pdist /= /solve_eigenproblem /= -/P EV eqxx NS.
set f := DmapFit _ _ _ in Ffit.
have He j : eigenvalues f 0 j != 0.
  by case: (ord2 j) => ->; rewrite mxE /= ?oner_neq0 ?mulf_neq0 ?invr_neq0 ?pnatr_eq0.
have PR := @ghi_training R 3 2 1 _ c ghiK f (const_mx 1) HE (fun _ => SK) HP HN (fun x H => H) Ffit He.
pose n0 : R := Num.sqrt 3%:R; pose n1 : R := Num.sqrt 33%:R.
have N0 : n0 != 0 by rewrite gt_eqF // sqrtr_gt0 ltr0n.
have N1 : n1 != 0 by rewrite gt_eqF // sqrtr_gt0 ltr0n.
have Q0 : n0 * n0 = 3%:R by rewrite -expr2 sqr_sqrtr ?ler0n.
have Q1 : n1 * n1 = 33%:R by rewrite -expr2 sqr_sqrtr ?ler0n.
have CN j : col_norm V 0 j = if j == 0 then n0 else n1.
  rewrite mxE sum3; case: (ord2 j) => ->; rewrite !mxE !inordK //=; congr Num.sqrt; mfield R.
have EVE i j : eigenvectors f i j = V i j / (if j == 0 then n0 else n1).
  by rewrite /= mat_dot_diagE mul_mx_diag mxE [reciprocal _ _ _]mxE CN.
exists (checking_solver3 e V), ghiK, f; eexists; do 7 (split=> //); split; first exact: PR.
split.
- exists (mxl 2 1 [:: [:: n0]; [:: 0]]); apply/matrixP => i j; rewrite [j]ord1 mxE [RHS]mxE sum2 !EVE.
  case: (ord3 i) => ->; rewrite !mxE !inordK //=; mfield R.
- rewrite mxE sum2 !EVE.
  have T j : ((eigenvectors f)^T *m (const_mx 1 : 'cV[R]_3)) j 0
    = (V (inord 0) j + V (inord 1) j + V (inord 2) j) / (if j == 0 then n0 else n1).
    by rewrite mxE sum3 ![(eigenvectors f)^T _ _]mxE !EVE ![const_mx _ _ _]mxE !mulr1 -!mulrDl.
  rewrite !T !mxE !inordK //=.
  have -> : 1 / n0 * ((1 + 1 + 1) / n0) + 2%:R / n1 * ((2%:R + 2%:R - 5%:R) / n1)
     = 3%:R / (n0 * n0) - 2%:R / (n1 * n1) by mfield R.
  rewrite Q0 Q1; mfield R.
Qed.

(** A kernel with rational orthonormal eigenvectors. *)
Lemma ghi_projection_example :
  exists (eig : eig_t R 2) (K : 'M[R]_3) f,
  let c := DmapCfg false false id true true in
  EigenSolver eig /\ OrthonormalSolver eig /\ Symmetric K /\
  fit eig c K = Some f /\ (forall j, eigenvalues f 0 j != 0) /\ K (inord 0) (inord 1) != 0.
Proof.
pose V : 'M[R]_(3, 2) := mxl 3 2 [:: [:: 3%:R / 5%:R; 0]; [:: 4%:R / 5%:R; 0]; [:: 0; 1]].
pose e : 'rV[R]_2 := mxl 1 2 [:: [:: 2%:R; 1]].
pose K : 'M[R]_3 := mxl 3 3 [:: [:: 34%:R / 25%:R; 12%:R / 25%:R; 0];
  [:: 12%:R / 25%:R; 41%:R / 25%:R; 0]; [:: 0; 0; 1]].
have SK : Symmetric K.
  by move=> i j; rewrite !mxE; case: (ord3 i) => ->; case: (ord3 j) => ->; rewrite !inordK.
have EV : K *m V = V *m diag_mx e.
  apply/matrixP => i j; rewrite mul_mx_diag [LHS]mxE sum3 [RHS]mxE.
  case: (ord3 i) => ->; case: (ord2 j) => ->; rewrite !mxE !inordK //=; mfield R.
have OV : V^T *m V = 1%:M.
  apply/matrixP => i j; rewrite [LHS]mxE sum3 !mxE.
  case: (ord2 i) => ->; case: (ord2 j) => ->; rewrite !inordK //=; mfield R.
have HV0 : forall j, exists i, V i j != 0.
  move=> j; case: (ord2 j) => ->; [exists (inord 0)|exists (inord 2)]; rewrite mxE inordK //= ?oner_neq0 //.
  by rewrite mulf_neq0 ?invr_neq0 ?pnatr_eq0.
have [HE HO] := checking_solver3_ok e HV0.
exists (checking_solver3 e V), K; eexists; do 3 (split=> //); split.
  by rewrite /fit /normalize_pdist /= /solve_eigenproblem /= EV OV !eqxx implybT; reflexivity.
split=> [j|]; first by case: (ord2 j) => ->; rewrite mxE /= ?oner_neq0 ?pnatr_eq0.
by rewrite mxE !inordK //= mulf_neq0 ?invr_neq0 ?pnatr_eq0.
Qed.
End Examples.
