(** * Proofs about the identification and evolution of linear systems. *)

From mathcomp Require Import all_ssreflect fingroup perm all_algebra.
Import Order.Theory GRing.Theory Num.Theory.
From Verif Require Import LinModel LinSpec.
Set Implicit Arguments.
Unset Strict Implicit.
Unset Printing Implicit Defensive.
Local Open Scope ring_scope.

Section Field.
Variable F : fieldType.

Lemma mat_dot_diagmatE m n (M : 'M[F]_(m, n)) d : mat_dot_diagmat M d = M *m diag_mx d.
Proof. by apply/matrixP=> i j; rewrite mul_mx_diag !mxE mulrC. Qed.

Lemma diagmat_dot_matE m n d (M : 'M[F]_(m, n)) : diagmat_dot_mat d M = diag_mx d *m M.
Proof. by apply/matrixP=> i j; rewrite mul_diag_mx !mxE mulrC. Qed.

End Field.

Section Real.
Variable R : realFieldType.

(** squared weighted norm of a matrix *)
Definition wsq s p (w : 'rV[R]_s) (E : 'M[R]_(s, p)) : R :=
  \sum_i w 0 i * \sum_j E i j ^+ 2.

Definition wdot s p (w : 'rV[R]_s) (E H : 'M[R]_(s, p)) : R :=
  \sum_i w 0 i * \sum_j E i j * H i j.

Lemma wsq_ge0 s p (w : 'rV[R]_s) (E : 'M[R]_(s, p)) : (forall i, 0 <= w 0 i) -> 0 <= wsq w E.
Proof.
move=> Hw; apply: sumr_ge0=> i _; apply: mulr_ge0=> //.
by apply: sumr_ge0=> j _; apply: sqr_ge0.
Qed.

Lemma wsqD s p (w : 'rV[R]_s) (E H : 'M[R]_(s, p)) :
  wsq w (E + H) = wsq w E + wsq w H + 2%:R * wdot w E H.
Proof.
rewrite /wsq /wdot mulr_sumr -!big_split /=; apply: eq_bigr=> i _.
rewrite mulrCA -!mulrDr; congr (_ * _).
rewrite mulr_sumr -!big_split /=; apply: eq_bigr=> j _.
by rewrite !mxE sqrrD mulr_natl; rewrite addrAC.
Qed.

Lemma wdot_trace s p (w : 'rV[R]_s) (E H : 'M[R]_(s, p)) :
  wdot w E H = \tr (E^T *m diag_mx w *m H).
Proof.
rewrite /wdot /mxtrace.
under [RHS]eq_bigr=> j _.
  rewrite mxE. under eq_bigr=> i _. rewrite mul_mx_diag !mxE. over. over.
rewrite exchange_big /=; apply: eq_bigr=> i _; rewrite mulr_sumr; apply: eq_bigr=> j _.
by rewrite mulrCA mulrA.
Qed.

Lemma wdot_orth s n p (w : 'rV[R]_s) (X : 'M[R]_(s, n)) (D : 'M[R]_(n, p)) (E : 'M[R]_(s, p)) :
  X^T *m diag_mx w *m E = 0 -> wdot w (X *m D) E = 0.
Proof. by move=> H; rewrite wdot_trace trmx_mul -!mulmxA (mulmxA X^T) H mulmx0 mxtrace0. Qed.

(** the Gram matrix is consistent *)
Lemma gram_consistent s n p (w : 'rV[R]_s) (X : 'M[R]_(s, n)) (Y : 'M[R]_(s, p)) :
  (forall i, 0 <= w 0 i) ->
  exists Z, (X^T *m (diag_mx w *m X)) *m Z = X^T *m (diag_mx w *m Y).
Proof.
move=> Hw; set G := X^T *m _.
have HWX : (diag_mx w *m X <= G)%MS.
  rewrite submxE -/G; set V := cokermx G.
  have HG : G *m V = 0 by apply: mulmx_coker.
  have H0 : wsq w (X *m V) = 0.
    have -> : wsq w (X *m V) = wdot w (X *m V) (X *m V).
      by rewrite /wsq /wdot; apply: eq_bigr=> i _; congr (_ * _); apply: eq_bigr=> j _; rewrite expr2.
    by apply: wdot_orth; rewrite -mulmxA mulmxA -mulmxA (mulmxA (diag_mx w)) mulmxA.
  apply/eqP/matrixP=> i j; rewrite -mulmxA mul_diag_mx mxE [RHS]mxE.
  have Hall : forall i, true -> (w 0 i * \sum_j (X *m V) i j ^+ 2)%R = 0.
    apply/psumr_eq0P; last exact: H0.
    by move=> k _; apply: mulr_ge0=> //; apply: sumr_ge0=> ? _; apply: sqr_ge0.
  have := Hall i isT; move/eqP; rewrite mulf_eq0; case/orP=> [/eqP -> |]; first by rewrite mul0r.
  rewrite psumr_eq0; last by move=> ? _; apply: sqr_ge0.
  by move/allP/(_ j); rewrite mem_index_enum sqrf_eq0=> /(_ isT) /eqP ->; rewrite mulr0.
have HY : (Y^T *m (diag_mx w *m X) <= G)%MS by apply: submx_trans HWX; apply: submxMl.
have HGs : G^T = G by rewrite /G !trmx_mul trmxK tr_diag_mx mulmxA.
case/submxP: HY=> D HD; exists D^T.
rewrite -[G]HGs -trmx_mul -HD !trmx_mul trmxK tr_diag_mx mulmxA //.
Qed.

Lemma one_step_errorE s n p (w : 'rV[R]_s) (X : 'M[R]_(s, n)) (Y : 'M[R]_(s, p)) (K : 'M[R]_(p, n)) :
  one_step_error w X Y K = wsq w (Y - X *m K^T).
Proof.
apply: eq_bigr=> i _; congr (_ * _); apply: eq_bigr=> j _; rewrite !mxE; congr ((_ - _) ^+ 2).
by apply: eq_bigr=> k _; rewrite !mxE mulrC.
Qed.

Lemma normal_eq_minimal s n p (w : 'rV[R]_s) (X : 'M[R]_(s, n)) (Y : 'M[R]_(s, p)) (K K' : 'M[R]_(p, n)) :
  (forall i, 0 <= w 0 i) ->
  (X^T *m (diag_mx w *m X)) *m K^T = X^T *m (diag_mx w *m Y) ->
  one_step_error w X Y K' = one_step_error w X Y K + wsq w (X *m (K - K')^T).
Proof.
move=> Hw HN; rewrite !one_step_errorE.
have -> : Y - X *m K'^T = X *m (K - K')^T + (Y - X *m K^T).
  rewrite linearB /= mulmxBr [_ + (Y - _)]addrC addrA; congr (_ - _); by rewrite addrNK.
rewrite [LHS]wsqD wdot_orth; first by rewrite mulr0 addr0 addrC.
by rewrite mulmxBr -mulmxA -HN !mulmxA subrr.
Qed.

Lemma lsq_minimal (lstsq : lstsq_t R) s n p (w : 'rV[R]_s) (X : 'M[R]_(s, n)) (Y : 'M[R]_(s, p)) G G' :
  solves_consistent lstsq -> (forall i, 0 <= w 0 i) ->
  G = X^T *m (diag_mx w *m X) -> G' = X^T *m (diag_mx w *m Y) ->
  forall K', one_step_error w X Y (lstsq _ _ _ G G')^T <= one_step_error w X Y K'.
Proof.
move=> Hl Hw -> -> K'; case: (gram_consistent X Y Hw)=> Z /Hl HZ.
rewrite (@normal_eq_minimal _ _ _ w X Y (lstsq n n p (X^T *m (diag_mx w *m X)) (X^T *m (diag_mx w *m Y)))^T K') //.
  by rewrite ler_addl wsq_ge0.
by rewrite trmxK.
Qed.

Lemma full_gramE s n p N (w : option 'rV[R]_s) (X : 'M[R]_(s, n)) (Y : 'M[R]_(s, p)) :
  full_gram N w X Y = X^T *m (diag_mx (weights N w) *m Y).
Proof.
case: w=> [w|] /=; first by rewrite diagmat_dot_matE.
by rewrite diag_const_mx mul_scalar_mx -scalemxAr.
Qed.

Lemma full_system_minimal (lstsq : lstsq_t R) s n N (w : option 'rV[R]_s) (X Y : 'M[R]_(s, n)) :
  solves_consistent lstsq -> (forall i, 0 <= weights N w 0 i) ->
  forall K', one_step_error (weights N w) X Y (full_system_matrix lstsq N w X Y)
             <= one_step_error (weights N w) X Y K'.
Proof. by move=> Hl Hw K'; apply: lsq_minimal; rewrite ?full_gramE. Qed.

Lemma wsq_eq0 s p (w : 'rV[R]_s) (E : 'M[R]_(s, p)) : (forall i, 0 < w 0 i) -> wsq w E = 0 -> E = 0.
Proof.
move=> Hw H0.
have Hall : forall i, true -> (w 0 i * \sum_j E i j ^+ 2)%R = 0.
  apply/psumr_eq0P; last exact: H0.
  by move=> k _; apply: mulr_ge0; [apply: ltW|apply: sumr_ge0=> ? _; apply: sqr_ge0].
apply/matrixP=> i j; rewrite mxE.
have := Hall i isT; move/eqP; rewrite mulf_eq0 (gt_eqF (Hw i)) /=.
rewrite psumr_eq0; last by move=> ? _; apply: sqr_ge0.
by move/allP/(_ j); rewrite mem_index_enum sqrf_eq0=> /(_ isT) /eqP ->.
Qed.

(** uniqueness for spanning snapshots *)
Lemma spanning_inj s n p (X : 'M[R]_(s, n)) (D : 'M[R]_(n, p)) :
  spanning X -> X *m D = 0 -> D = 0.
Proof.
move=> Hs H0; apply/matrixP=> k j; rewrite mxE.
have Hc : col j D = 0.
  apply: Hs=> i; have := congr1 (fun M : 'M_(s, p) => M i j) H0.
  by rewrite !mxE=> H; rewrite -[RHS]H; apply: eq_bigr=> l _; rewrite mxE.
by have := congr1 (fun M : 'cV_n => M k 0) Hc; rewrite !mxE.
Qed.

Lemma lsq_recovers (lstsq : lstsq_t R) s n p (w : 'rV[R]_s) (X : 'M[R]_(s, n)) (Y : 'M[R]_(s, p)) (K : 'M[R]_(p, n)) G G' :
  solves_consistent lstsq -> (forall i, 0 < w 0 i) -> spanning X ->
  G = X^T *m (diag_mx w *m X) -> G' = X^T *m (diag_mx w *m Y) ->
  (forall i j, Y i j = \sum_k K j k * X i k) ->
  lstsq _ _ _ G G' = K^T.
Proof.
move=> Hl Hw Hs EG EG' HY.
have HYX : Y = X *m K^T.
  by apply/matrixP=> i j; rewrite HY !mxE; apply: eq_bigr=> k _; rewrite mxE mulrC.
set Z := lstsq _ _ _ G G'.
have HGZ : G *m Z = G' by apply: (Hl _ _ _ G G' K^T); rewrite EG EG' HYX !mulmxA.
have H0 : G *m (Z - K^T) = 0.
  by rewrite mulmxBr HGZ EG EG' HYX !mulmxA subrr.
have : X *m (Z - K^T) = 0.
  apply: (wsq_eq0 Hw).
  have -> : wsq w (X *m (Z - K^T)) = wdot w (X *m (Z - K^T)) (X *m (Z - K^T)).
    by rewrite /wsq /wdot; apply: eq_bigr=> i _; congr (_ * _); apply: eq_bigr=> j _; rewrite expr2.
  by apply: wdot_orth; rewrite -[RHS]H0 EG !mulmxA.
by move/(spanning_inj Hs)/eqP; rewrite subr_eq0=> /eqP.
Qed.

Lemma full_system_recovers (lstsq : lstsq_t R) s n N (w : option 'rV[R]_s) (X Y : 'M[R]_(s, n)) (A : 'M[R]_n) :
  solves_consistent lstsq -> (forall i, 0 < weights N w 0 i) -> spanning X ->
  (forall i j, Y i j = \sum_k A j k * X i k) ->
  full_system_matrix lstsq N w X Y = A.
Proof.
move=> Hl Hw Hs HY; rewrite /full_system_matrix.
rewrite (@lsq_recovers lstsq _ _ _ (weights N w) X Y A) ?trmxK ?full_gramE //.
Qed.

(** control *)
Lemma control_gram s n q (Xm : 'M[R]_(s, n)) (Um : 'M[R]_(s, q)) :
  col_mx Xm^T Um^T = (row_mx Xm Um)^T.
Proof. by rewrite tr_row_mx. Qed.

Lemma control_system (lstsq : lstsq_t R) s n q N (Xm Xp : 'M[R]_(s, n)) (Um : 'M[R]_(s, q)) :
  let XU := row_mx Xm Um in let w := const_mx N%:R^-1 in
  row_mx (koopman_and_control lstsq N Xm Xp Um).1 (koopman_and_control lstsq N Xm Xp Um).2
  = (lstsq _ _ _ (XU^T *m (diag_mx w *m XU)) (XU^T *m (diag_mx w *m Xp)))^T.
Proof.
rewrite /koopman_and_control /= hsubmxK control_gram trmxK !linearZ /= !trmx_mul !trmxK.
by rewrite diag_const_mx !mul_scalar_mx -!scalemxAr.
Qed.

(** existence of the least squares routine *)
Definition pinv_lstsq : lstsq_t R := fun m n p A B => (B^T *m pinvmx A^T)^T.

Lemma pinv_lstsq_ok : solves_consistent pinv_lstsq.
Proof.
move=> m n p A B Z H; rewrite /pinv_lstsq -[A in A *m _]trmxK -trmx_mul.
by rewrite mulmxKpV ?trmxK // -H trmx_mul submxMl.
Qed.

End Real.

Section Evolve.
Variable F : fieldType.
Variable lstsq : lstsq_t F.
Variable re : F -> F.

Lemma mxpow_trajectory n m (A : 'M[F]_n) (x : 'M[F]_(n, m)) k : mxpow A k *m x = trajectory A x k.
Proof. by elim: k=> [|k IH] /=; rewrite ?mul1mx // -mulmxA IH. Qed.

Lemma trajectoryD n m (A : 'M[F]_n) (x : 'M[F]_(n, m)) j k :
  trajectory A x (j + k) = trajectory A (trajectory A x k) j.
Proof. by elim: j=> [|j IH] //=; rewrite IH. Qed.

Lemma spectral_power n (A V L : 'M[F]_n) (d : 'rV[F]_n) k :
  A = V *m diag_mx d *m L -> L *m V = 1%:M ->
  V *m diag_mx (map_mx (fun x => x ^+ k) d) *m L = mxpow A k.
Proof.
move=> EA ELV; have EVL : V *m L = 1%:M by apply: mulmx1C.
elim: k=> [|k IH] /=.
  have -> : map_mx (fun x => x ^+ 0) d = const_mx 1 by apply/matrixP=> i j; rewrite !mxE.
  by rewrite diag_const_mx mulmx1 EVL.
have -> : diag_mx (map_mx (fun x => x ^+ k.+1) d) = diag_mx d *m diag_mx (map_mx (fun x => x ^+ k) d).
  rewrite mulmx_diag; congr diag_mx; apply/matrixP=> i j; rewrite !mxE exprS.
  by rewrite [i]ord1.
by rewrite -IH EA !mulmxA -[_ *m L *m V]mulmxA ELV mulmx1.
Qed.

Lemma eig_diag n (A V : 'M[F]_n) (d : 'rV[F]_n) :
  A *m V = V *m diag_mx d -> V \in unitmx -> A = V *m diag_mx d *m invmx V.
Proof. by move=> H HV; rewrite -H mulmxK. Qed.

(** both ways to obtain the spectral states of a square eigenbasis *)
Lemma spectral_states n m (V : 'M[F]_n) (L : option 'M[F]_n) (X : 'M[F]_(n, m)) :
  solves_consistent lstsq -> V \in unitmx ->
  (forall L', L = Some L' -> L' *m V = 1%:M) ->
  compute_spectral_system_states lstsq V L X = invmx V *m X.
Proof.
move=> Hl HV HL; case: L HL=> [L|] HL /=.
  by congr (_ *m _); rewrite -[LHS](mulmxK HV) (HL L) // mul1mx.
have H : V *m lstsq V X = X by apply: (Hl _ _ _ V X (invmx V *m X)); rewrite mulKVmx.
by rewrite -{2}H mulKmx.
Qed.

Lemma predict_spectral_modes n p m (A V : 'M[F]_n) (d : 'rV[F]_n) (L : option 'M[F]_n)
    (P : 'M[F]_(p, n)) (X : 'M[F]_(n, m)) steps :
  solves_consistent lstsq -> V \in unitmx -> A *m V = V *m diag_mx d ->
  (forall L', L = Some L' -> L' *m V = 1%:M) ->
  predict_spectral lstsq re V d L (P *m V) X steps
  = [seq map_mx re (P *m trajectory A X k) | k <- steps].
Proof.
move=> Hl HV HA HL; rewrite /predict_spectral /flowmap_spectral spectral_states //.
apply: eq_map=> k; rewrite diagmat_dot_matE -mxpow_trajectory.
rewrite -(spectral_power k (eig_diag HA HV)) ?mulVmx //.
by rewrite -!mulmxA.
Qed.

Lemma predict_spectral_matrix n m (A V : 'M[F]_n) (d : 'rV[F]_n) (L : option 'M[F]_n)
    (X : 'M[F]_(n, m)) steps :
  solves_consistent lstsq -> V \in unitmx -> A *m V = V *m diag_mx d ->
  (forall L', L = Some L' -> L' *m V = 1%:M) ->
  predict_spectral lstsq re V d L V X steps = predict_matrix re A X steps.
Proof.
move=> Hl HV HA HL; rewrite -{1}[V in predict_spectral _ _ _ _ _ V]mul1mx.
rewrite (predict_spectral_modes _ _ _ Hl HV HA HL); apply: eq_map=> k.
by rewrite mul1mx mxpow_trajectory.
Qed.

Lemma controlled_states_traj n q m (A : 'M[F]_n) (B : 'M[F]_(n, q)) x (Us : seq 'M[F]_(q, m)) :
  (forall k, (k < size Us)%N ->
     map_mx re (ctrajectory A B x (fun j => nth 0 Us j) k.+1) = ctrajectory A B x (fun j => nth 0 Us j) k.+1) ->
  controlled_states re A B x Us = [seq ctrajectory A B x (fun j => nth 0 Us j) k | k <- iota 0 (size Us).+1].
Proof.
elim: Us x=> [|u Us IH] x Hre //=; congr (_ :: _).
have E1 : map_mx re (A *m x + B *m u) = A *m x + B *m u by have := Hre 0%N isT.
have Eshift : forall k, ctrajectory A B x (fun j => nth 0 (u :: Us) j) k.+1
                      = ctrajectory A B (A *m x + B *m u) (fun j => nth 0 Us j) k.
  by elim=> [|k IHk] //=; rewrite -IHk.
rewrite E1 IH.
  transitivity [seq ctrajectory A B x (fun j => nth 0 (u :: Us) j) k | k <- iota (1 + 0)%N (size Us).+1].
    by rewrite iotaDl -map_comp; apply: eq_map=> k; rewrite [RHS]/= -Eshift.
  by rewrite addn0.
move=> k Hk; rewrite -Eshift; exact: (Hre k.+1).
Qed.

Lemma spectral_controlled n q m (A V L : 'M[F]_n) (d : 'rV[F]_n) (B : 'M[F]_(n, q)) (X : 'M[F]_(n, m)) Us :
  A *m V = V *m diag_mx d -> L *m V = 1%:M -> map_mx re X = X ->
  flowmap_spectral_controlled re V L d B (compute_spectral_system_states lstsq V (Some L) X) Us
  = flowmap_matrix_controlled re A B X Us.
Proof.
move=> HA HL HX; have HVL : V *m L = 1%:M by apply: mulmx1C.
rewrite /flowmap_spectral_controlled /flowmap_matrix_controlled /= mulmxA HVL mul1mx HX.
by rewrite diagmat_dot_matE mulmxA -HA -mulmxA HVL mulmx1.
Qed.

(** left eigenvectors *)
Lemma diag_unit n (d : 'rV[F]_n) : (diag_mx d \in unitmx) = [forall i, d 0 i != 0].
Proof.
rewrite unitmxE det_diag unitfE; apply/idP/forallP.
  by move/prodf_neq0=> H i; apply: H.
by move=> H; apply/prodf_neq0=> i _; apply: H.
Qed.

Lemma normed_eig n (A V : 'M[F]_n) (d norms : 'rV[F]_n) :
  A *m V = V *m diag_mx d -> 
  A *m mat_dot_diagmat V (map_mx (fun x => x^-1) norms)
  = mat_dot_diagmat V (map_mx (fun x => x^-1) norms) *m diag_mx d.
Proof. by move=> H; rewrite mat_dot_diagmatE mulmxA H -!mulmxA diag_mxC. Qed.

Lemma normed_unit n (V : 'M[F]_n) (norms : 'rV[F]_n) :
  V \in unitmx -> (forall i, norms 0 i != 0) ->
  mat_dot_diagmat V (map_mx (fun x => x^-1) norms) \in unitmx.
Proof.
move=> HV Hn; rewrite mat_dot_diagmatE unitmx_mul HV diag_unit /=.
by apply/forallP=> i; rewrite mxE invr_eq0.
Qed.

Lemma spectral_components n (A V : 'M[F]_n) (d norms : 'rV[F]_n) b :
  A *m V = V *m diag_mx d -> V \in unitmx -> (forall i, norms 0 i != 0) ->
  match compute_spectral_components A V d norms b with
  | Some (V', d', L) => V' \in unitmx /\ A *m V' = V' *m diag_mx d' /\ d' = d /\ (L == None) = ~~ b /\
       forall L', L = Some L' -> L' *m V' = 1%:M /\ V' *m diag_mx d' *m L' = A
  | None => b /\ exists i, d 0 i = 0
  end.
Proof.
move=> HA HV Hn; rewrite /compute_spectral_components.
have HA' := normed_eig norms HA; have HV' := normed_unit HV Hn.
set V' := mat_dot_diagmat V _ in HA' HV' *.
case: b; last by rewrite eqxx.
rewrite /solve mat_dot_diagmatE unitmx_mul HV' /= diag_unit.
case: ifPn=> [Hd|/forallPn [i]]; last by rewrite negbK=> /eqP; split=> //; exists i.
have Hdu : diag_mx d \in unitmx by rewrite diag_unit.
split=> //; split=> //; split=> //; split=> // L [<-].
have E : invmx (V' *m diag_mx d) *m A *m V' = 1%:M.
  by rewrite -mulmxA HA' mulVmx // unitmx_mul HV' Hdu.
split=> //; rewrite mulKVmx // unitmx_mul HV' //.
Qed.

(** permutation of triplets *)
Lemma sum_perm_mx n r m (M : 'M[F]_(n, r)) (d : 'rV[F]_r) (B : 'M[F]_(r, m)) (s : 'S_r) :
  col_perm s M *m diag_mx (col_perm s d) *m row_perm s B = M *m diag_mx d *m B.
Proof.
apply/matrixP=> i j; rewrite !mxE [RHS](reindex_inj (@perm_inj _ s)) /=.
by apply: eq_bigr=> k _; rewrite !mul_mx_diag !mxE.
Qed.

Lemma triplets_predict n r p m (s : 'S_r) (modes : 'M[F]_(p, r)) d (V : 'M[F]_(n, r)) (L : 'M[F]_(r, n))
   (X : 'M[F]_(n, m)) steps :
  let: (modes', d', V', L') := sort_koopman_triplets s (modes, d, V, Some L) in
  predict_spectral lstsq re V' d' L' modes' X steps = predict_spectral lstsq re V d (Some L) modes X steps.
Proof.
rewrite /= /predict_spectral /flowmap_spectral; apply: eq_map=> k /=.
rewrite !diagmat_dot_matE !mulmxA -[in RHS](sum_perm_mx modes _ _ s).
by congr (map_mx re (_ *m diag_mx _ *m _ *m _)); apply/matrixP=> i j; rewrite !mxE.
Qed.

Lemma triplets_predict_basis n p m (s : 'S_n) (modes : 'M[F]_(p, n)) d (V : 'M[F]_n)
   (X : 'M[F]_(n, m)) steps :
  solves_consistent lstsq -> V \in unitmx ->
  let: (modes', d', V', L') := sort_koopman_triplets s (modes, d, V, None) in
  predict_spectral lstsq re V' d' L' modes' X steps = predict_spectral lstsq re V d None modes X steps.
Proof.
move=> Hl HV /=; rewrite /predict_spectral /flowmap_spectral; apply: eq_map=> k /=.
have HV' : col_perm s V \in unitmx by rewrite col_permE unitmx_mul HV unitmx_perm.
rewrite !diagmat_dot_matE.
have E : forall W : 'M[F]_n, W \in unitmx -> lstsq W X = invmx W *m X.
  move=> W HW; have H : W *m lstsq W X = X by apply: (Hl _ _ _ W X (invmx W *m X)); rewrite mulKVmx.
  by rewrite -{2}H mulKmx.
rewrite !E // !mulmxA -[in RHS](sum_perm_mx modes _ _ s).
have -> : invmx (col_perm s V) = row_perm s (invmx V).
  apply: (can_inj (mulmxK HV')); rewrite mulVmx //.
  apply/matrixP=> i j; rewrite !mxE.
  have := congr1 (fun M : 'M_n => M (s i) (s j)) (mulVmx HV); rewrite !mxE (inj_eq (@perm_inj _ s))=> <-.
  by apply: eq_bigr=> l _; rewrite !mxE.
by congr (map_mx re (_ *m diag_mx _ *m _ *m _)); apply/matrixP=> i j; rewrite !mxE.
Qed.

End Evolve.
