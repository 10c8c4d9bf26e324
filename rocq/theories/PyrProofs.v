(** * Proofs for C42. *)

From mathcomp Require Import all_ssreflect all_algebra.
From Verif Require Import RingTac KernModel KernSpec KernProofs PyrModel PyrSpec.
Import Order.Theory GRing.Theory Num.Theory.
Set Implicit Arguments.
Unset Strict Implicit.
Unset Printing Implicit Defensive.
Local Open Scope ring_scope.

Section Proofs.
Variable R : rcfType.
Add Ring RRing : (rt_theory R).

Lemma sumsq_ge0 n (v : 'cV[R]_n) : 0 <= \sum_i v i 0 ^+ 2.
Proof. by apply: sumr_ge0 => i _; apply: sqr_ge0. Qed.

Lemma norm2_ge0 n (v : 'cV[R]_n) : 0 <= norm2 v.
Proof. exact: sqrtr_ge0. Qed.

Lemma norm2_sqr n (v : 'cV[R]_n) : norm2 v ^+ 2 = \sum_i v i 0 ^+ 2.
Proof. by rewrite sqr_sqrtr // sumsq_ge0. Qed.

Lemma entry_le_norm2 n (v : 'cV[R]_n) i : `|v i 0| <= norm2 v.
Proof.
rewrite -(@ler_pexpn2r _ 2) ?nnegrE ?normr_ge0 ?norm2_ge0 // norm2_sqr real_normK ?num_real //.
by rewrite (bigD1 i) //= ler_addl sumr_ge0 // => k _; apply: sqr_ge0.
Qed.

Lemma norm2_le n (v : 'cV[R]_n) t : 0 <= t -> \sum_i v i 0 ^+ 2 <= t ^+ 2 -> norm2 v <= t.
Proof. by move=> t0 H; rewrite -(@ler_pexpn2r _ 2) ?nnegrE ?norm2_ge0 // norm2_sqr. Qed.

(** ** Columns *)

Lemma nth_mulmx m n (K : 'M[R]_(m, n)) (tv : seq 'cV[R]_n) k :
  nth 0 [seq K *m v | v <- tv] k = K *m nth 0 tv k.
Proof.
case: (ltnP k (size tv)) => H; first by rewrite (nth_map 0).
by rewrite !nth_default ?size_map // mulmx0.
Qed.

Lemma col_add m n q (A : 'M[R]_(m, q)) act (K : 'M[R]_(m, n)) tv j :
  col j (add_columns A act [seq K *m v | v <- tv])
  = if j \in act then col j A + K *m nth 0 tv (index j act) else col j A.
Proof.
apply/colP => i; rewrite mxE [LHS]mxE; case: ifP => H; last by rewrite mxE.
by rewrite [RHS]mxE [col _ _ _ _]mxE nth_mulmx.
Qed.

Lemma col_subE m q (A B : 'M[R]_(m, q)) i j : (col j A - col j B) i 0 = A i j - B i j.
Proof. by rewrite !mxE. Qed.

Lemma add_take m n q (A : 'M[R]_(m, q)) act (K : 'M[R]_(m, n)) tv :
  add_columns A act [seq K *m v | v <- take (size act) tv] = add_columns A act [seq K *m v | v <- tv].
Proof.
apply/matrixP => i j; rewrite !mxE; case: ifP => // H.
by rewrite !nth_mulmx nth_take // index_mem.
Qed.

(** ** The kernel of a level at the training points *)

Lemma prepare_train n (c : lp_cfg R) (G K : 'M[R]_n) rs : Symmetric G -> auto_adaptive c = false ->
  prepare c G = Some (K, rs) -> normalize_cdist (level_kernel c) rs G = Some K.
Proof.
move=> HS Ha; rewrite /prepare /normalize_pdist /normalize_cdist Ha /=.
case Hal: (lp_alpha_positive c) => /=; last by case=> <- _.
case ED: (density_pdist _ _) => [[K' rs']|] //= -[<- <-].
by rewrite (@density_same R n (level_kernel c) G K' rs' (fun _ => HS) ED).
Qed.

Lemma prepare_alpha0 n (c : lp_cfg R) (G : 'M[R]_n) : lp_alpha_positive c = false -> auto_adaptive c = false ->
  prepare c G = Some (stochastic_kernel G, None).
Proof. by move=> Hal Ha; rewrite /prepare /normalize_pdist /= Hal Ha. Qed.

(** ** One iteration without the adaptive criterion *)

Definition rule (c : lp_cfg R) (x : R) : loop_cond := termination_rules_single c x None.

Lemma rule_any c x l : auto_adaptive c = false -> termination_rules_single c x l = rule c x.
Proof. by move=> Ha; rewrite /rule /termination_rules_single Ha. Qed.

Lemma rule_loocv c x : auto_adaptive c = false -> is_loocv (rule c x) = false.
Proof.
move=> Ha; rewrite /rule /termination_rules_single Ha /=.
by case: (if _ is Some _ then _ else _) => //=; case: ifP.
Qed.

Lemma rule_no c x : auto_adaptive c = false -> is_no (rule c x) = ~~ is_res (rule c x).
Proof.
move=> Ha; rewrite /rule /termination_rules_single Ha /=.
by case: (if _ is Some _ then _ else _) => //=; case: ifP.
Qed.

Definition okn (c : lp_cfg R) (x : R) : bool :=
  (if residual_tol c is Some tol then x <= tol else false) || (x < tiny_residual c).

Lemma rule_res c x : auto_adaptive c = false -> is_res (rule c x) = okn c x.
Proof.
move=> Ha; rewrite /rule /termination_rules_single /okn Ha /=.
by case: (if _ is Some _ then _ else _) => //=; case: ifP.
Qed.

Lemma curr_map (c : lp_cfg R) (T : Type) (f : T -> R) (act : seq T) (ln : seq (option R)) :
  auto_adaptive c = false -> size ln = size act ->
  [seq termination_rules_single c p.1 p.2 | p <- zip (map f act) ln] = [seq rule c (f j) | j <- act].
Proof.
move=> Ha; elim: act ln => [|a act IH] [|l ln] //= [H].
by rewrite rule_any // IH.
Qed.

Lemma mask_filter (T : Type) (p : pred T) (s : seq T) : mask (map p s) s = filter p s.
Proof. by rewrite filter_mask. Qed.

Lemma step_shape n q (c : lp_cfg R) gauss (y : 'M[R]_(n, q)) s K rs :
  auto_adaptive c = false -> size (residual_norm s) = size (active s) ->
  prepare c (gauss (epsilon s)) = Some (K, rs) ->
  let approx := add_columns (func_approx s) (active s) [seq K *m v | v <- target_values s] in
  let f := fun j => col j y - col j approx in
  let g := fun j => rule c (norm2 (f j)) in
  let act2 := [seq j <- active s | ~~ is_res (g j)] in
  lp_step c gauss y s =
  Some (LpState approx
    (if has is_no (map g (active s)) then map f act2 else take (size (active s)) (target_values s))
    (if has is_no (map g (active s)) then epsilon s / mu c else epsilon s)
    [seq Some (norm2 (f j)) | j <- act2] act2
    (fun j => if j \in active s then nth NoTermination (map g (active s)) (index j (active s)) else conditions s j)
    (if active s is [::] then tracker s
     else rcons (tracker s) (Level (epsilon s) rs (take (size (active s)) (target_values s)) (active s)))).
Proof.
move=> Ha Hsz Hp approx f g act2; rewrite /lp_step Hp -/approx.
have Ecurr : [seq termination_rules_single c p.1 p.2
   | p <- zip [seq norm2 r | r <- [seq col j y - col j approx | j <- active s]] (residual_norm s)] = map g (active s).
  by rewrite -map_comp curr_map.
rewrite Ecurr.
have Ek : [seq ~~ is_loocv x | x <- map g (active s)] = nseq (size (active s)) true.
  by elim: (active s) => //= a l ->; rewrite /g rule_loocv.
have Ef : [seq x <- map g (active s) | ~~ is_loocv x] = map g (active s).
  by elim: (active s) => //= a l ->; rewrite /g rule_loocv.
rewrite Ek Ef.
have Em : forall T (l : seq T), mask (nseq (size (active s)) true) l = take (size (active s)) l.
  by move=> T; elim: (size (active s)) => [|k IH] [|a l] //=; rewrite IH.
have Et : take (size (active s)) (active s) = active s by rewrite take_size.
rewrite !Em Et.
have Ea : mask [seq ~~ is_res x | x <- map g (active s)] (active s) = act2.
  by rewrite -map_comp mask_filter.
have Eo : forall T (h : 'I_q -> T), take (size (active s)) (map h (active s)) = map h (active s).
  by move=> T h; rewrite -{1}(size_map h) take_size.
have Ez : [seq norm2 r | r <- [seq col j y - col j approx | j <- active s]] = [seq norm2 (f j) | j <- active s].
  by rewrite -map_comp.
rewrite Ez !Eo -!map_mask Ea.
by case: ifP => _; rewrite -!map_comp.
Qed.

(** ** The invariant *)

Definition Inv n q (c : lp_cfg R) (gauss : R -> 'M[R]_n) (y : 'M[R]_(n, q)) (s : lp_state R n q) : Prop :=
  [/\ size (residual_norm s) = size (active s),
      forall j, is_no (conditions s j) = (j \in active s),
      (forall j, j \in active s -> nth 0 (target_values s) (index j (active s))
        = col j y - col j (func_approx s)),
      (forall j, j \notin active s -> okn c (norm2 (col j y - col j (func_approx s)))) &
      lp_predict c gauss (tracker s) = Some (func_approx s)].

Lemma predict_cat n m q (c : lp_cfg R) (gx : R -> 'M[R]_(m, n)) (A : 'M[R]_(m, q)) t1 t2 :
  lp_predict_from c gx A (t1 ++ t2) =
  if lp_predict_from c gx A t1 is Some B then lp_predict_from c gx B t2 else None.
Proof. by elim: t1 A => [|l t1 IH] A //=; case: (normalize_cdist _ _ _). Qed.

Lemma nth_map_index (T : eqType) (S : Type) (x0 : S) (f : T -> S) (s : seq T) j :
  j \in s -> nth x0 (map f s) (index j s) = f j.
Proof. by move=> H; rewrite (nth_map j) ?index_mem // nth_index. Qed.

Lemma Inv_init n q (c : lp_cfg R) gauss (y : 'M[R]_(n, q)) : Inv c gauss y (lp_init c y).
Proof.
split=> //=.
- by rewrite size_nseq size_enum_ord.
- by move=> j; rewrite mem_enum.
- move=> j H; rewrite nth_map_index //; apply/colP => i; rewrite !mxE subr0 //.
- by move=> j; rewrite mem_enum.
Qed.

Lemma Inv_step n q (c : lp_cfg R) gauss (y : 'M[R]_(n, q)) s s' :
  auto_adaptive c = false -> (forall e, Symmetric (gauss e)) ->
  Inv c gauss y s -> lp_step c gauss y s = Some s' -> Inv c gauss y s'.
Proof.
move=> Ha HS [I1 I2 I3 I4 I5].
case Ep: (prepare c (gauss (epsilon s))) => [[K rs]|]; last by rewrite /lp_step Ep.
rewrite (@step_shape _ _ _ _ _ _ _ _ Ha I1 Ep).
set approx := add_columns _ _ _; set f := fun j => col j y - col j approx.
set g := fun j => rule c (norm2 (f j)); set act2 := [seq j <- _ | _].
case=> <-; split=> /=.
- by rewrite !size_map.
- move=> j; rewrite mem_filter; case: ifP => H.
  + by rewrite nth_map_index // rule_no // andbT.
  + by rewrite I2 H andbF.
- move=> j H; have Hj : j \in active s by move: H; rewrite mem_filter => /andP[].
  have Hno : has is_no (map g (active s)).
    rewrite has_map; apply/hasP; exists j => //=.
    by rewrite rule_no //; move: H; rewrite mem_filter => /andP[].
  by rewrite Hno nth_map_index.
- move=> j; rewrite mem_filter negb_and negbK; case Hj: (j \in active s) => /=.
    by rewrite orbF rule_res.
  move=> _; move: (I4 j); rewrite Hj /approx col_add Hj => /(_ isT) //.
- have HK := prepare_train (HS (epsilon s)) Ha Ep.
  case Ea: (active s) => [|a l].
    rewrite I5; congr Some; apply/matrixP => i j.
    by rewrite /approx Ea !mxE in_nil.
  rewrite -Ea /lp_predict -cats1 predict_cat; move: I5; rewrite /lp_predict => ->.
  by rewrite /= HK add_take.
Qed.

Lemma Inv_loop n q fuel (c : lp_cfg R) gauss (y : 'M[R]_(n, q)) s s' :
  auto_adaptive c = false -> (forall e, Symmetric (gauss e)) ->
  Inv c gauss y s -> lp_loop fuel c gauss y s = Some (Some s') ->
  Inv c gauss y s' /\ ~~ [exists j, is_no (conditions s' j)].
Proof.
move=> Ha HS; elim: fuel s => [|fuel IH] s HI /=; case: ifP => // H.
- by case=> <-; rewrite H.
- case E: (lp_step c gauss y s) => [s1|] //; apply: IH; exact: Inv_step Ha HS HI E.
- by case=> <-; rewrite H.
Qed.

Lemma okn_meets n q (c : lp_cfg R) (y A : 'M[R]_(n, q)) j :
  okn c (norm2 (col j y - col j A)) -> Meets (residual_tol c) (tiny_residual c) y A j.
Proof.
have E i : (col j y - col j A) i 0 = y i j - A i j by rewrite !mxE.
rewrite /okn => /orP[|H].
- case Et: (residual_tol c) => [t|] // H; left; exists t => //; split.
    have -> : \sum_i (y i j - A i j) ^+ 2 = norm2 (col j y - col j A) ^+ 2.
      by rewrite norm2_sqr; apply: eq_bigr => i _; rewrite E.
    by rewrite ler_pexpn2r ?nnegrE ?norm2_ge0 //; apply: le_trans H; apply: norm2_ge0.
  by move=> i; rewrite -E; apply: le_trans H; apply: entry_le_norm2.
- by right=> i; rewrite -E; apply: le_lt_trans H; apply: entry_le_norm2.
Qed.

Lemma fit_meets n q fuel (c : lp_cfg R) gauss (y : 'M[R]_(n, q)) tr :
  auto_adaptive c = false -> (forall e, Symmetric (gauss e)) ->
  lp_fit fuel c gauss y = Some (Some tr) ->
  exists2 y_hat, lp_predict c gauss tr = Some y_hat &
    forall j, Meets (residual_tol c) (tiny_residual c) y y_hat j.
Proof.
move=> Ha HS; rewrite /lp_fit; case E: (lp_loop _ _ _ _ _) => [[s|]|] // -[<-].
have [[I1 I2 I3 I4 I5] H] := Inv_loop Ha HS (Inv_init c gauss y) E.
exists (func_approx s) => // j; apply: okn_meets; apply: I4.
by rewrite -I2; apply: contra H => Hj; apply/existsP; exists j.
Qed.

(** ** Duplicate points *)

Definition SameRows n (K : 'M[R]_n) i0 i1 : Prop := forall k, K i0 k = K i1 k.

Lemma stochastic_same m n (K : 'M[R]_(m, n)) i0 i1 : (forall k, K i0 k = K i1 k) ->
  forall k, stochastic_kernel K i0 k = stochastic_kernel K i1 k.
Proof.
move=> H k; have S : \sum_j K i0 j = \sum_j K i1 j by apply: eq_bigr => j _; apply: H.
by rewrite /stochastic_kernel !mxE S H.
Qed.

Lemma prepare_same n (c : lp_cfg R) (G K : 'M[R]_n) rs i0 i1 : Symmetric G -> auto_adaptive c = false ->
  SameRows G i0 i1 -> prepare c G = Some (K, rs) -> SameRows K i0 i1.
Proof.
move=> HS Ha HG; rewrite /prepare /normalize_pdist /= Ha.
have S : \sum_j G i0 j = \sum_j G i1 j by apply: eq_bigr => j _; apply: HG.
case: (lp_alpha_positive c) => /=; last by case=> <- _; apply: stochastic_same.
case ED: (density_pdist _ _) => [[K' rs']|] //= -[<- _].
have [_ HE] := @density_symmetric R n (level_kernel c) G K' rs' HS ED.
by apply: stochastic_same => k; rewrite !HE S HG.
Qed.

Lemma same_mul n (K : 'M[R]_n) i0 i1 (v : 'cV[R]_n) : SameRows K i0 i1 -> (K *m v) i0 0 = (K *m v) i1 0.
Proof. by move=> H; rewrite !mxE; apply: eq_bigr => k _; rewrite H. Qed.

Definition Dup n q (s : lp_state R n q) i0 i1 j : Prop :=
  size (residual_norm s) = size (active s) /\ func_approx s i0 j = func_approx s i1 j /\
  is_no (conditions s j) /\ j \in active s.

Lemma okn_apart n (c : lp_cfg R) (v : 'cV[R]_n) i0 i1 (d : R) :
  v i0 0 - v i1 0 = d ->
  (forall t, residual_tol c = Some t -> 2%:R * t < `|d|) -> 2%:R * tiny_residual c <= `|d| ->
  ~~ okn c (norm2 v).
Proof.
move=> Hd Ht Htiny.
have B : `|d| <= 2%:R * norm2 v.
  rewrite -Hd; apply: le_trans (ler_norm_sub _ _) _.
  have -> : 2%:R * norm2 v = norm2 v + norm2 v by mring R.
  by apply: ler_add; apply: entry_le_norm2.
have two : 0 < 2%:R :> R by rewrite ltr0n.
rewrite /okn negb_or -leNgt; apply/andP; split.
- case E: (residual_tol c) => [t|] //; rewrite -ltNge.
  by rewrite -(ltr_pmul2l two); apply: lt_le_trans B; apply: Ht.
- by rewrite -(ler_pmul2l two); apply: le_trans B.
Qed.

Lemma Dup_step n q (c : lp_cfg R) gauss (y : 'M[R]_(n, q)) s s' i0 i1 j :
  auto_adaptive c = false -> (forall e, Symmetric (gauss e)) -> (forall e, SameRows (gauss e) i0 i1) ->
  (forall t, residual_tol c = Some t -> 2%:R * t < `|y i0 j - y i1 j|) ->
  2%:R * tiny_residual c <= `|y i0 j - y i1 j| ->
  Dup s i0 i1 j -> lp_step c gauss y s = Some s' -> Dup s' i0 i1 j.
Proof.
move=> Ha HS HG Ht Htiny [I1 [I2 [I3 I4]]].
case Ep: (prepare c (gauss (epsilon s))) => [[K rs]|]; last by rewrite /lp_step Ep.
rewrite (@step_shape _ _ _ _ _ _ _ _ Ha I1 Ep).
set approx := add_columns _ _ _; set f := fun j => col j y - col j approx.
set g := fun j => rule c (norm2 (f j)); set act2 := [seq j <- _ | _].
have HA : approx i0 j = approx i1 j.
  have E i : approx i j = func_approx s i j + (K *m nth 0 (target_values s) (index j (active s))) i 0.
    by rewrite /approx [LHS]mxE I4 nth_mulmx.
  by rewrite !E I2 (@same_mul n K i0 i1 _ (prepare_same (HS _) Ha (HG _) Ep)).
have HN : is_res (g j) = false.
  apply/negbTE; rewrite rule_res //; apply: (@okn_apart _ _ _ i0 i1 (y i0 j - y i1 j)) => //.
  by rewrite /f !col_subE HA; mring R.
case=> <-; split=> /=; first by rewrite !size_map.
split; first exact: HA.
by rewrite I4 nth_map_index // rule_no // HN mem_filter HN I4.
Qed.

Lemma dup_loop n q fuel (c : lp_cfg R) gauss (y : 'M[R]_(n, q)) s i0 i1 j :
  auto_adaptive c = false -> (forall e, Symmetric (gauss e)) -> (forall e, SameRows (gauss e) i0 i1) ->
  (forall t, residual_tol c = Some t -> 2%:R * t < `|y i0 j - y i1 j|) ->
  2%:R * tiny_residual c <= `|y i0 j - y i1 j| ->
  Dup s i0 i1 j -> lp_loop fuel c gauss y s = None \/ lp_loop fuel c gauss y s = Some None.
Proof.
move=> Ha HS HG Ht Htiny; elim: fuel s => [|fuel IH] s HD /=.
- have -> : [exists j, is_no (conditions s j)] by apply/existsP; exists j; case: HD => _ [_ []].
  by left.
- have -> : [exists j, is_no (conditions s j)] by apply/existsP; exists j; case: HD => _ [_ []].
  case E: (lp_step c gauss y s) => [s1|]; last by right.
  by apply: IH; apply: Dup_step E.
Qed.

Lemma dup_fit n q fuel (c : lp_cfg R) gauss (y : 'M[R]_(n, q)) i0 i1 j :
  auto_adaptive c = false -> (forall e, Symmetric (gauss e)) -> (forall e, SameRows (gauss e) i0 i1) ->
  (forall t, residual_tol c = Some t -> 2%:R * t < `|y i0 j - y i1 j|) ->
  2%:R * tiny_residual c <= `|y i0 j - y i1 j| ->
  lp_fit fuel c gauss y = None \/ lp_fit fuel c gauss y = Some None.
Proof.
move=> Ha HS HG Ht Htiny; rewrite /lp_fit.
have HD : Dup (lp_init c y) i0 i1 j.
  do !split=> //=; by [rewrite size_nseq size_enum_ord | rewrite !mxE | rewrite mem_enum].
by case: (dup_loop fuel Ha HS HG Ht Htiny HD) => ->; [left|right].
Qed.

Lemma no_exception n q fuel (c : lp_cfg R) gauss (y : 'M[R]_(n, q)) s :
  auto_adaptive c = false -> lp_alpha_positive c = false -> size (residual_norm s) = size (active s) ->
  lp_loop fuel c gauss y s <> Some None.
Proof.
move=> Ha Hal; elim: fuel s => [|fuel IH] s Hs /=; case: ifP => // _.
rewrite (@step_shape _ _ _ _ _ _ _ _ Ha Hs (prepare_alpha0 _ Hal Ha)); apply: IH; by rewrite /= !size_map.
Qed.

(** ** Termination for distinct points *)

Lemma row_sum_ge1 n (G : 'M[R]_n) i : (forall i j, 0 <= G i j) -> G i i = 1 -> 1 <= \sum_j G i j.
Proof. by move=> H0 H1; rewrite (bigD1 i) //= H1 ler_addl sumr_ge0. Qed.

Lemma halves n (G : 'M[R]_n) (v : 'cV[R]_n) :
  (forall i j, 0 <= G i j) -> (forall i, G i i = 1) ->
  (forall i j, i != j -> G i j <= (4%:R * n.+1%:R ^+ 2)^-1) ->
  norm2 (v - stochastic_kernel G *m v) <= norm2 v / 2%:R.
Proof.
move=> H0 H1 Hd; set P := stochastic_kernel G; set m := (n.+1%:R : R).
have m0 : 0 < m by rewrite ltr0n.
have m1 : 1 <= m by rewrite ler1n.
have two : 0 < 2%:R :> R by rewrite ltr0n.
have four : 0 < 4%:R :> R by rewrite ltr0n.
have HP : Markov G P.
  by apply: stochastic_markov => i; apply: lt_le_trans (row_sum_ge1 H0 (H1 i)); apply: ltr01.
have S0 i : \sum_k G i k != 0.
  by rewrite gt_eqF //; apply: lt_le_trans (row_sum_ge1 H0 (H1 i)); apply: ltr01.
have SP i : \sum_j P i j = 1.
  by rewrite (eq_bigr (fun j => G i j / \sum_k G i k)) // -mulr_suml mulfV.
have PB i j : i != j -> 0 <= P i j <= (4%:R * m ^+ 2)^-1.
  move=> Hij; rewrite HP; have S1 := row_sum_ge1 H0 (H1 i).
  have Sp : 0 < \sum_k G i k by apply: lt_le_trans S1; apply: ltr01.
  rewrite divr_ge0 ?H0 ?(ltW Sp) //= ler_pdivr_mulr //.
  apply: le_trans (Hd i j Hij) _; rewrite ler_pemulr // invr_ge0 mulr_ge0 ?ler0n // exprn_ge0 // ltW //.
have EB i : `|(v - P *m v) i 0| <= norm2 v / (2%:R * m).
  have -> : (v - P *m v) i 0 = \sum_j P i j * (v i 0 - v j 0).
    have E : (P *m v) i 0 = \sum_j P i j * v j 0 by rewrite mxE.
    rewrite [LHS]mxE [X in _ + X]mxE E [RHS](eq_bigr (fun j => P i j * v i 0 - P i j * v j 0)); last by move=> j _; rewrite mulrBr.
    by rewrite big_split /= -mulr_suml SP mul1r sumrN.
  apply: le_trans (ler_norm_sum _ _ _) _.
  apply: (@le_trans _ _ (\sum_(j < n) (4%:R * m ^+ 2)^-1 * (2%:R * norm2 v))).
    apply: ler_sum => j _; rewrite normrM; case: (i =P j) => [<-|/eqP Hij].
      by rewrite subrr normr0 mulr0 !mulr_ge0 ?invr_ge0 ?mulr_ge0 ?ler0n ?norm2_ge0 ?exprn_ge0 // ltW.
    have /andP[P0 P1] := PB i j Hij; rewrite (ger0_norm P0); apply: ler_pmul => //.
    apply: le_trans (ler_norm_sub _ _) _.
    have -> : 2%:R * norm2 v = norm2 v + norm2 v by mring R.
    by apply: ler_add; apply: entry_le_norm2.
  rewrite sumr_const card_ord -mulr_natr.
  have -> : (4%:R * m ^+ 2)^-1 * (2%:R * norm2 v) * n%:R = norm2 v / (2%:R * m) * (n%:R / m).
    have -> : 4%:R * m ^+ 2 = (2%:R * m) * (2%:R * m) by rewrite expr2 (natrM R 2 2); mring R.
    rewrite invfM (invfM 2%:R m); set b := m^-1; set t := 2%:R^-1.
    have Ht : t * 2%:R = 1 by rewrite mulVf // gt_eqF.
    by transitivity (norm2 v * (t * b) * (n%:R * b) * (t * 2%:R)); [mring R|rewrite Ht mulr1].
  rewrite ler_pimulr //; first by rewrite divr_ge0 ?norm2_ge0 // mulr_ge0 ?ler0n // ltW.
  by rewrite ler_pdivr_mulr // mul1r ler_nat.
apply: norm2_le; first by rewrite divr_ge0 ?norm2_ge0 ?ler0n.
apply: (@le_trans _ _ (\sum_(i < n) (norm2 v / (2%:R * m)) ^+ 2)).
  apply: ler_sum => i _; rewrite -real_normK ?num_real // ler_pexpn2r ?nnegrE ?normr_ge0 ?EB //.
  by rewrite divr_ge0 ?norm2_ge0 // mulr_ge0 ?ler0n // ltW.
rewrite sumr_const card_ord -mulr_natr.
have -> : (norm2 v / (2%:R * m)) ^+ 2 * n%:R = (norm2 v / 2%:R) ^+ 2 * (n%:R / m / m).
  by rewrite invfM !expr2; set b := m^-1; set t := 2%:R^-1; mring R.
rewrite ler_pimulr ?sqr_ge0 //.
rewrite ler_pdivr_mulr // mul1r; apply: le_trans m1.
by rewrite ler_pdivr_mulr // mul1r ler_nat.
Qed.

Section Termination.
Variables (n q : nat) (c : lp_cfg R) (gauss : R -> 'M[R]_n) (y : 'M[R]_(n, q)).
Hypothesis Ha : auto_adaptive c = false.
Hypothesis Hal : lp_alpha_positive c = false.
Hypothesis HK : KernelFunction gauss.
Hypothesis Htiny : 0 < tiny_residual c.

Let e k := initial_epsilon c / mu c ^+ k.

Definition At (k : nat) (s : lp_state R n q) : Prop :=
  Inv c gauss y s /\ (active s <> [::] -> epsilon s = e k).

Lemma HS x : Symmetric (gauss x). Proof. by move=> i j; have [-> _] := HK x i j. Qed.

Lemma At_step k s : At k s -> active s <> [::] ->
  exists s', [/\ lp_step c gauss y s = Some s', At k.+1 s',
    {subset active s' <= active s},
    (forall j, j \in active s -> let r := nth 0 (target_values s) (index j (active s)) in
      col j y - col j (func_approx s') = r - stochastic_kernel (gauss (e k)) *m r) &
    (forall j, j \in active s' -> ~~ okn c (norm2 (col j y - col j (func_approx s'))))].
Proof.
move=> [HI He] Hact; have HI0 := HI; case: HI => I1 I2 I3 I4 I5.
have Ep := prepare_alpha0 (gauss (epsilon s)) Hal Ha.
have Es := @step_shape _ _ _ _ y _ _ _ Ha I1 Ep.
eexists; split; first exact: Es.
- split; first exact: Inv_step Ha HS HI0 Es.
  move=> /= Hne; set g := fun j => rule c _.
  have -> : has is_no (map g (active s)).
    move: Hne; case E: [seq j <- _ | _] => [|a l] // _.
    have : a \in [seq j <- active s | ~~ is_res (g j)] by rewrite E inE eqxx.
    rewrite mem_filter => /andP[H1 H2]; rewrite has_map; apply/hasP; exists a => //=.
    by rewrite rule_no.
  by rewrite He // /e exprS [mu c * _]mulrC invfM mulrA.
- by move=> j /=; rewrite mem_filter => /andP[].
- move=> j Hj /=; rewrite col_add Hj He // I3 // opprD addrA //.
- by move=> j /=; rewrite mem_filter => /andP[H _]; move: H; rewrite rule_res.
Qed.

Lemma stop_no_active s : Inv c gauss y s -> active s = [::] -> forall fuel, lp_loop fuel c gauss y s = Some (Some s).
Proof.
move=> [_ I2 _ _ _] E fuel; case: fuel => [|fuel] /=; case: ifP => // /existsP[j].
- by rewrite I2 E.
- by rewrite I2 E.
Qed.

Lemma loop_step s s' fuel : Inv c gauss y s -> active s <> [::] -> lp_step c gauss y s = Some s' ->
  lp_loop fuel.+1 c gauss y s = lp_loop fuel c gauss y s'.
Proof.
move=> [_ I2 _ _ _] H E /=; rewrite E; case: ifP => //; case Ea: (active s) H => [|a l] // _.
by move/negbT/negP; case; apply/existsP; exists a; rewrite I2 Ea inE eqxx.
Qed.

Variable N : nat.
Hypothesis HN : forall k i j, (N <= k)%N -> i != j -> gauss (e k) i j <= (4%:R * n.+1%:R ^+ 2)^-1.

Lemma half_run m k s B : (N <= k)%N -> At k s -> B < tiny_residual c * 2%:R ^+ m ->
  (forall j, j \in active s -> norm2 (nth 0 (target_values s) (index j (active s))) <= B) ->
  exists fuel s', lp_loop fuel c gauss y s = Some (Some s').
Proof.
elim: m k s B => [|m IH] k s B Hk HA HB Hb.
all: case Eact: (active s) => [|a l]; first by exists 0%N, s; apply: stop_no_active => //; case: HA.
all: have Hne : active s <> [::] by rewrite Eact.
all: have [s' [E1 E2 E3 E4 E5]] := At_step HA Hne.
all: have Hh j : j \in active s -> norm2 (col j y - col j (func_approx s')) <= B / 2%:R.
1,3: move=> Hj; rewrite (E4 j Hj); apply: le_trans (halves _ _ _ _) _.
1,5: by move=> i0 j0; have [_ [? _]] := HK (e k) i0 j0.
1,4: by move=> i0; have [_ [_ ?]] := HK (e k) i0 i0.
1,3: by move=> i0 j0; apply: HN.
1,2: by rewrite ler_pmul2r ?invr_gt0 ?ltr0n // Hb.
- have Ea' : active s' = [::].
    case Ea: (active s') => [|b l'] //; have Hb' : b \in active s' by rewrite Ea inE eqxx.
    have := E5 b Hb'; rewrite /okn negb_or -leNgt => /andP[_ H].
    have B0 : 0 <= B by apply: le_trans (Hb b (E3 b Hb')); apply: norm2_ge0.
    have : B / 2%:R <= B by rewrite ler_pdivr_mulr ?ltr0n // ler_pemulr // ler1n.
    move=> H2; have := le_lt_trans (le_trans H (le_trans (Hh b (E3 b Hb')) H2)) HB.
    by rewrite expr0 mulr1 ltxx.
  exists 1%N, s'; rewrite (loop_step 0%N (proj1 HA) Hne E1); exact: stop_no_active (proj1 E2) Ea' 0%N.
- have HB' : B / 2%:R < tiny_residual c * 2%:R ^+ m by rewrite ltr_pdivr_mulr ?ltr0n // -mulrA -exprSr.
  have [|fuel [s2 E]] := IH k.+1 s' (B / 2%:R) (leqW Hk) E2 HB'.
    by move=> j Hj; case: (proj1 E2) => _ _ I3 _ _; rewrite I3 //; apply: Hh; exact: E3.
  by exists fuel.+1, s2; rewrite (loop_step fuel (proj1 HA) Hne E1).
Qed.

Lemma pre_run d k s : Archimedean R -> (N = k + d)%N -> At k s ->
  exists fuel s', lp_loop fuel c gauss y s = Some (Some s').
Proof.
move=> Harch; elim: d k s => [|d IH] k s Hk HA.
- pose B := \sum_j norm2 (nth 0 (target_values s) (index j (active s))).
  have [m Hm] := Harch (B / tiny_residual c).
  apply: (@half_run m k s B) => //; first by rewrite Hk addn0.
    move: Hm; rewrite ler_pdivr_mulr // mulrC => Hm; apply: le_lt_trans Hm _.
    by rewrite ltr_pmul2l // -natrX ltr_nat ltn_expl.
  move=> j _; rewrite /B (bigD1 j) //= ler_addl sumr_ge0 // => i _; exact: norm2_ge0.
- case Eact: (active s) => [|a l]; first by exists 0%N, s; apply: stop_no_active => //; case: HA.
  have Hne : active s <> [::] by rewrite Eact.
  have [s' [E1 E2 _ _ _]] := At_step HA Hne.
  have Hk' : (N = k.+1 + d)%N by rewrite Hk addSnnS.
  have [fuel [s2 E]] := IH k.+1 s' Hk' E2.
  by exists fuel.+1, s2; rewrite (loop_step fuel (proj1 HA) Hne E1).
Qed.

End Termination.

Lemma fit_terminates n q (c : lp_cfg R) (gauss : R -> 'M[R]_n) (y : 'M[R]_(n, q)) :
  auto_adaptive c = false -> lp_alpha_positive c = false -> KernelFunction gauss ->
  0 < tiny_residual c -> Archimedean R -> Distinct gauss (initial_epsilon c) (mu c) ->
  exists fuel tr, lp_fit fuel c gauss y = Some (Some tr).
Proof.
move=> Ha Hal HK Ht Harch HD.
have [|N HN] := HD (4%:R * n.+1%:R ^+ 2)^-1.
  by rewrite invr_gt0 mulr_gt0 ?ltr0n // exprn_gt0 // ltr0n.
have [|fuel [s E]] := @pre_run n q c gauss y Ha Hal HK Ht N HN N 0%N (lp_init c y) Harch (erefl _).
  by split; [exact: Inv_init|rewrite expr0 divr1].
by exists fuel, (tracker s); rewrite /lp_fit E.
Qed.

End Proofs.
