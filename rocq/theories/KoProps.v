(** * Theorems about kernel objects (C111). *)

From mathcomp Require Import all_ssreflect all_algebra.
From Verif Require Import Np LinModel KernModel KernProofs KernSpec EmbModel KoModel KoSpec FieldTac.
Import Order.Theory GRing.Theory Num.Theory.
Set Implicit Arguments.
Unset Strict Implicit.
Unset Printing Implicit Defensive.
Local Open Scope ring_scope.

Section Lemmas.
Variable R : rcfType.
Variable p : nat.
Variable k : 'rV[R]_p -> 'rV[R]_p -> R.

Definition ok (r : result (kmatrix R)) : Prop := exists M, r = Ok M.

Lemma resized_id n (v : 'rV[R]_n) : resized n v = v.
Proof. by apply/rowP => j; rewrite mxE valK. Qed.

Lemma after_cat St (step : St -> call R p -> St * result (kmatrix R)) s h1 h2 :
  after step s (h1 ++ h2) = after step (after step s h1) h2.
Proof. exact: foldl_cat. Qed.

Lemma dm_fails cfg c : ~ ok (dm_call k cfg None c).2 -> (dm_call k cfg None c).1 = None.
Proof.
case: c => [n X|n X m Y] //=; case: normalize_pdist => [[[A b] rs]|] //= H.
by case: H; eexists.
Qed.

Lemma dm_fails_all cfg h : (forall c, List.In c h -> ~ ok (dm_call k cfg None c).2) -> after (dm_call k cfg) None h = None.
Proof.
elim: h => //= c h IH H; rewrite /after /= dm_fails; last by apply: H; left.
by apply: IH => c' Hc; apply: H; right.
Qed.

Lemma dm_keeps cfg a h : after (dm_call k cfg) (Some a) h = Some a.
Proof.
elim: h => //= c h; rewrite /after /=; suff -> : (dm_call k cfg (Some a) c).1 = Some a by [].
case: c => [n X|n X m Y] //=; case: (row_sums_alpha a) => [[l rs]|]; [case: ifP => // _|case: ifP => // _]; by case: normalize_cdist.
Qed.

Lemma dm_success cfg c : ok (dm_call k cfg None c).2 -> exists n (X : 'M[R]_(n, p)) a, c = Pairwise X /\ (dm_call k cfg None c).1 = Some a.
Proof.
case: c => [n X|n X m Y] /=; last by case.
case E : normalize_pdist => [[[A b] rs]|] /=; last by case.
by move=> _; exists n, X; eexists.
Qed.

Lemma rk_fails e al c : ~ ok (rk_call k e al None c).2 -> (rk_call k e al None c).1 = None.
Proof. by case: c => [n X|n X m Y] //=; case: al => //= H; case: H; eexists. Qed.

Lemma rk_fails_all e al h : (forall c, List.In c h -> ~ ok (rk_call k e al None c).2) -> after (rk_call k e al) None h = None.
Proof.
elim: h => //= c h IH H; rewrite /after /= rk_fails; last by apply: H; left.
by apply: IH => c' Hc; apply: H; right.
Qed.

Lemma rk_keeps e al a h : after (rk_call k e al) (Some a) h = Some a.
Proof.
elim: h => //= c h; rewrite /after /=; suff -> : (rk_call k e al (Some a) c).1 = Some a by [].
by case: c => [n X|n X m Y] //=; case: al => //; case: a => [l st]; case: ifP => // _; case: ifP.
Qed.

End Lemmas.

(** C111: whatever was called before, a diffusion kernel object accepts exactly one successful pairwise call
    (AttributeError afterwards); component-wise calls need it (AttributeError before) and depend on nothing
    but themselves and that call. *)
Theorem C111_dmap_history :
  forall (R : rcfType) p (k : 'rV[R]_p -> 'rV[R]_p -> R) (cfg : dmap_cfg R) (h : seq (call R p)),
  let new_ok c := exists M, (dm_call k cfg None c).2 = Ok M in
  let now := after (dm_call k cfg) None h in
  (forall c0, first_success new_ok h c0 ->
     (exists n (X : 'M[R]_(n, p)), c0 = Pairwise X) /\
     (forall n (X : 'M[R]_(n, p)), (dm_call k cfg now (Pairwise X)).2 = Err AttributeError) /\
     (forall n (X : 'M[R]_(n, p)) m (Y : 'M[R]_(m, p)),
        (dm_call k cfg now (Component X Y)).2 = (dm_call k cfg (dm_call k cfg None c0).1 (Component X Y)).2)) /\
  ((forall c, List.In c h -> ~ new_ok c) ->
     (forall c, dm_call k cfg now c = dm_call k cfg None c) /\
     (forall n (X : 'M[R]_(n, p)) m (Y : 'M[R]_(m, p)), (dm_call k cfg now (Component X Y)).2 = Err AttributeError)).
Proof.
move=> R p k cfg h new_ok now; split.
- move=> c0 [h1 [h2 [Eh [Hok Hf]]]].
  have [n [X [a [Ec Ea]]]] := dm_success Hok.
  have En : now = Some a by rewrite /now Eh after_cat dm_fails_all // /after /= Ea; exact: dm_keeps.
  split; first by exists n, X.
  by rewrite En Ea.
- by move=> H; rewrite /now dm_fails_all.
Qed.
Print Assumptions C111_dmap_history.

(** C111: values of component-wise calls of a stochastic kernel that was evaluated at the points [X]: with
    density correction the transition probabilities with the densities at [X] as weights; other numbers of
    reference points are refused. *)
Theorem C111_dmap_values :
  forall (R : rcfType) p (k : 'rV[R]_p -> 'rV[R]_p -> R) (cfg : dmap_cfg R) n (X : 'M[R]_(n, p)),
  (forall x y, 0 < k x y) -> (forall a, 0 < a -> 0 < pow_alpha cfg a) -> is_stochastic cfg -> alpha_positive cfg -> (0 < n)%N ->
  let used := (dm_call k cfg None (Pairwise X)).1 in
  (exists A : 'M[R]_n, (dm_call k cfg None (Pairwise X)).2 = Ok (KM A)) /\
  (forall (X' : 'M[R]_(n, p)) m (Y : 'M[R]_(m, p)), exists P : 'M[R]_(m, n),
     (dm_call k cfg used (Component X' Y)).2 = Ok (KM P) /\
     (forall i j, P i j = step_probability k X' (fun j => pow_alpha cfg (density k X (row j X))) (row i Y) j /\ 0 < P i j) /\
     (forall i, \sum_j P i j = 1)) /\
  (forall n' (X' : 'M[R]_(n', p)) m (Y : 'M[R]_(m, p)), n' <> n -> (dm_call k cfg used (Component X' Y)).2 = Err ValueError).
Proof.
move=> R p k cfg n X kp pp st al Hn.
have rsE a (Z : 'M[R]_(a, p)) b (Y : 'M[R]_(b, p)) i : row_sums (kmat k Z Y) 0 i = density k Z (row i Y).
{ by rewrite mxE; apply: eq_bigr => j _; rewrite mxE. }
have sum_pos a (f : 'I_a -> R) : (0 < a)%N -> (forall j, 0 < f j) -> 0 < \sum_j f j.
{ case: a f => // a f _ Hf; rewrite big_ord_recl; apply: ltr_paddr => //; apply: sumr_ge0 => j _; exact: ltW. }
have dp a (Z : 'M[R]_(a, p)) y : (0 < a)%N -> 0 < density k Z y by move=> Ha; apply: sum_pos.
have kE a (Z : 'M[R]_(a, p)) b (Y : 'M[R]_(b, p)) i j : kmat k Z Y i j = k (row i Y) (row j Z) by rewrite mxE.
have normE a b (K : 'M[R]_(a, b)) (u : 'rV[R]_a) (v : 'rV[R]_b) i j :
  mat_dot_diagmat (diagmat_dot_mat (reciprocal u) K) (reciprocal v) i j = (u 0 i)^-1 * K i j * (v 0 j)^-1.
{ by rewrite mat_dot_diagE diag_dot_matE mul_mx_diag mxE mul_diag_mx !mxE. }
pose q := map_mx (pow_alpha cfg) (row_sums (kmat k X X)).
have qE j : q 0 j = pow_alpha cfg (density k X (row j X)) by rewrite mxE rsE.
have q0 j : 0 < q 0 j by rewrite qE; apply: pp; exact: dp.
have qz : has_zero q = false by apply/has_zeroPn => j; exact: lt0r_neq0.
have [K' [EK KP]] : exists K', density_pdist cfg (kmat k X X) = Some (K', q) /\ forall i j, 0 < K' i j.
{ rewrite /density_pdist -/q /sym_division qz; eexists; split; first by [].
  have H i j : 0 < mat_dot_diagmat (diagmat_dot_mat (reciprocal q) (kmat k X X)) (reciprocal q) i j.
  { rewrite normE kE; apply: mulr_gt0; [apply: mulr_gt0 => //|]; by rewrite invr_gt0. }
  move=> i j; case: ifP => // _; rewrite mxE; apply: divr_gt0; last by rewrite ltr0n.
  exact: addr_gt0. }
have [A [b EN]] : exists A b, normalize_pdist cfg (kmat k X X) = Some (A, b, Some q).
{ rewrite /normalize_pdist st al EK /=; case: ifP => _; last by eexists; eexists.
  rewrite /conjugate_kernel /sym_division.
  have -> : has_zero (\row_j Num.sqrt (row_sums K' 0 j)) = false; last by eexists; eexists.
  apply/has_zeroPn => j; rewrite !mxE; apply: sqrt_neq0; exact: sum_pos. }
rewrite /= EN /=; split; first by exists A.
split.
- move=> X' m Y.
  rewrite /dm_call /= st al eqxx /= resized_id /normalize_cdist st al /= /density_cdist /sym_division2 -/q qz orbF.
  set r := map_mx (pow_alpha cfg) _.
  have rE i : r 0 i = pow_alpha cfg (density k X' (row i Y)) by rewrite mxE rsE.
  have r0 i : 0 < r 0 i by rewrite rE; apply: pp; exact: dp.
  have -> : has_zero r = false by apply/has_zeroPn => j; exact: lt0r_neq0.
  set M := mat_dot_diagmat _ _; eexists; split; first by [].
  have ME i j : M i j = (r 0 i)^-1 * (k (row i Y) (row j X') / q 0 j).
  { by rewrite /M normE kE mulrA. }
  have Mp i j : 0 < M i j by rewrite ME; apply: mulr_gt0; rewrite ?invr_gt0 //; apply: divr_gt0.
  have sE i : row_sums M 0 i = (r 0 i)^-1 * \sum_l k (row i Y) (row l X') / q 0 l.
  { by rewrite mxE mulr_sumr; apply: eq_bigr => j _; exact: ME. }
  have sp i : 0 < row_sums M 0 i by rewrite mxE; apply: sum_pos.
  have PE i j : stochastic_kernel M i j = (row_sums M 0 i)^-1 * M i j.
  { rewrite /stochastic_kernel diag_dot_matE mul_diag_mx mxE [X in X * _]mxE (negbTE (lt0r_neq0 (sp i))) /=.
    by rewrite ltNge ltW ?invr_gt0. }
  have tp i : 0 < \sum_l k (row i Y) (row l X') / q 0 l by apply: sum_pos => // l; apply: divr_gt0.
  split.
  + move=> i j; rewrite PE; split; last by apply: mulr_gt0; rewrite ?invr_gt0.
    have -> : step_probability k X' (fun j => pow_alpha cfg (density k X (row j X))) (row i Y) j =
      (k (row i Y) (row j X') / q 0 j) / (\sum_l k (row i Y) (row l X') / q 0 l).
    { by rewrite /step_probability -qE; congr (_ / _); apply: eq_bigr => l _; rewrite qE. }
    rewrite sE ME invfM invrK mulrACA divff; last exact: lt0r_neq0 (r0 i).
    by rewrite mul1r mulrC.
  + move=> i; rewrite (eq_bigr (fun j => (row_sums M 0 i)^-1 * M i j)); last by move=> j _; exact: PE.
    by rewrite -mulr_sumr [row_sums _ _ _]mxE mulVf //; have := lt0r_neq0 (sp i); rewrite mxE.
- move=> n' X' m Y Hn'; rewrite /dm_call /= st al /=.
  by case: eqP => // E; case: Hn'.
Qed.
Print Assumptions C111_dmap_values.

(** C111: at the training points the component-wise matrix is the pairwise one, or, if the pairwise one is
    made symmetric, similar to it with the stored basis change. *)
Theorem C111_training_points :
  forall (R : rcfType) p (k : 'rV[R]_p -> 'rV[R]_p -> R) (cfg : dmap_cfg R) n (X : 'M[R]_(n, p)),
  (forall x y, 0 < k x y) -> (forall x y, k x y = k y x) -> (forall a, 0 < a -> 0 < pow_alpha cfg a) -> is_stochastic cfg -> (0 < n)%N ->
  exists (A P : 'M[R]_n) a,
  dm_call k cfg None (Pairwise X) = (Some a, Ok (KM A)) /\
  (dm_call k cfg (Some a) (Component X X)).2 = Ok (KM P) /\
  (~~ is_conjugate cfg -> P = A) /\
  (is_conjugate cfg -> (forall i j, A i j = A j i) /\
     exists d : 'rV[R]_n, basis_change a = Some (existT (fun n => 'rV[R]_n) n d) /\
       (forall i, 0 < d 0 i) /\ forall i j, P i j = d 0 i * A i j / d 0 j).
Proof.
move=> R p k cfg n X kp ks pp st Hn.
have sum_pos a (f : 'I_a -> R) : (0 < a)%N -> (forall j, 0 < f j) -> 0 < \sum_j f j.
{ case: a f => // a f _ Hf; rewrite big_ord_recl; apply: ltr_paddr => //; apply: sumr_ge0 => j _; exact: ltW. }
pose K := kmat k X X.
have KS : Symmetric K by move=> i j; rewrite /K ![kmat _ _ _ _ _]mxE.
have Kp i j : 0 < K i j by rewrite mxE.
have KR i : 0 < \sum_j K i j by apply: sum_pos.
have [rs [K' [E1 [E2 [K'S K'p]]]]] : exists rs K',
  (if alpha_positive cfg then match density_pdist cfg K with None => None | Some (K', rs) => Some (K', Some rs) end else Some (K, None)) = Some (K', rs) /\
  (if alpha_positive cfg then match rs with None => None | Some rs => density_cdist cfg rs K end else Some K) = Some K' /\
  Symmetric K' /\ (forall i j, 0 < K' i j).
{ case al : (alpha_positive cfg); last by exists None, K.
  have [K' EK] := @density_some _ n cfg K (fun i => lt0r_neq0 (pp _ (KR i))).
  exists (Some (map_mx (pow_alpha cfg) (row_sums K))), K'; rewrite EK; split=> //; split; first exact: (density_same (fun _ => KS) EK).
  have [S1 S2] := density_symmetric KS EK; split=> // i j; rewrite S2; apply: divr_gt0 => //; apply: mulr_gt0; exact: pp. }
have PR : PositiveRows K' by move=> i; apply: sum_pos.
have EC : normalize_cdist cfg rs K = Some (stochastic_kernel K').
{ by rewrite /normalize_cdist st /= E2. }
have al0 : rs = None -> alpha_positive cfg = false.
{ by move=> Ers; move: E2; rewrite Ers; case: (alpha_positive cfg). }
have fin (A : 'M[R]_n) (basis : option 'rV[R]_n) : normalize_pdist cfg K = Some (A, basis, rs) ->
  let a := DmAttrs (omap (fun v => existT (fun n => 'rV[R]_n) n v) rs) (omap (fun v => existT (fun n => 'rV[R]_n) n v) basis) in
  dm_call k cfg None (Pairwise X) = (Some a, Ok (KM A)) /\ (dm_call k cfg (Some a) (Component X X)).2 = Ok (KM (stochastic_kernel K')).
{ move=> EN; rewrite /dm_call -/K EN; split=> //=.
  case: rs {E1 E2 EN} EC al0 => [rs|] EC al0 /=.
  - by rewrite eqxx andbF resized_id EC.
  - by rewrite al0 // andbF EC. }
case cj : (is_conjugate cfg).
- have [A [d [E3 [HA Hd]]]] := conjugate_entries K'S PR.
  have [F1 F2] : dm_call k cfg None (Pairwise X) = (Some (DmAttrs (omap (fun v => existT (fun n => 'rV[R]_n) n v) rs) (omap (fun v => existT (fun n => 'rV[R]_n) n v) (Some d))), Ok (KM A)) /\
    (dm_call k cfg (Some (DmAttrs (omap (fun v => existT (fun n => 'rV[R]_n) n v) rs) (omap (fun v => existT (fun n => 'rV[R]_n) n v) (Some d)))) (Component X X)).2 = Ok (KM (stochastic_kernel K')).
  { by apply: fin; rewrite /normalize_pdist st /= E1 cj E3. }
  exists A, (stochastic_kernel K'); eexists; split; first exact: F1.
  split; first exact: F2.
  split=> // _; split; first by move=> i j; rewrite !HA K'S [X in _ / X]mulrC.
  exists d; split=> //; split; first by move=> i; rewrite Hd invr_gt0 sqrtr_gt0.
  move=> i j; rewrite (markov_unique (stochastic_markov PR) (unsymmetric_markov K'S PR E3)) /unsymmetric_kernel.
  by rewrite mat_dot_diagE diag_dot_matE mul_mx_diag mxE mul_diag_mx mxE [reciprocal _ _ _]mxE.
- have [F1 F2] : dm_call k cfg None (Pairwise X) = (Some (DmAttrs (omap (fun v => existT (fun n => 'rV[R]_n) n v) rs) None), Ok (KM (stochastic_kernel K'))) /\
    (dm_call k cfg (Some (DmAttrs (omap (fun v => existT (fun n => 'rV[R]_n) n v) rs) None)) (Component X X)).2 = Ok (KM (stochastic_kernel K')).
  { by apply: (fin _ None); rewrite /normalize_pdist st /= E1 cj. }
  by exists (stochastic_kernel K'), (stochastic_kernel K'); eexists; split; first exact: F1.
Qed.
Print Assumptions C111_training_points.

(** C111 (refuted): the reference points of a component-wise call are not compared with those of the
    pairwise call: with other points, the densities of the old points are used. *)
Theorem C111_reference_refuted :
  forall (R : rcfType),
  exists (k : 'rV[R]_1 -> 'rV[R]_1 -> R) (cfg : dmap_cfg R) (X X' Y : 'M[R]_(2, 1)) (P P' : 'M[R]_2),
  (forall x y, 0 < k x y /\ k x y = k y x) /\
  (dm_call k cfg (dm_call k cfg None (Pairwise X)).1 (Component X' Y)).2 = Ok (KM P) /\
  (dm_call k cfg (dm_call k cfg None (Pairwise X')).1 (Component X' Y)).2 = Ok (KM P') /\
  P 0 0 = 6%:R^-1 /\ P' 0 0 = 2%:R^-1.
Proof.
move=> R; pose f (x : 'rV[R]_1) := 1 + x 0 0 ^+ 2.
have fp x : 0 < f x by apply: ltr_paddr; rewrite ?ltr01 // sqr_ge0.
pose k x y := f x * f y.
have kp x y : 0 < k x y by exact: mulr_gt0.
pose cfg := @DmapCfg R true true id true true.
pose X := (0 : 'M[R]_(2, 1)).
pose X' := (\col_(i < 2) (if i == 0 then 0 else 2%:R)) : 'M[R]_(2, 1).
have [_ [H1 _]] := @C111_dmap_values R 1 k cfg 2 X kp (fun a Ha => Ha) isT isT isT.
have [_ [H2 _]] := @C111_dmap_values R 1 k cfg 2 X' kp (fun a Ha => Ha) isT isT isT.
have [P [EP [VP _]]] := H1 X' 2%N X; have [P' [EP' [VP' _]]] := H2 X' 2%N X.
exists k, cfg, X, X', X, P, P'; split; first by move=> x y; split=> //; rewrite /k mulrC.
split=> //; split=> //.
have fX i : f (row i X) = 1 by rewrite /f !mxE expr0n addr0.
have fX0 : f (row 0 X') = 1 by rewrite /f !mxE /= expr0n addr0.
have fX1 : f (row 1 X') = 5%:R by rewrite /f !mxE /= -natrX -[X in X + _]/(1%:R) -natrD.
have e1 : (lift 0 0 : 'I_2) = 1 by exact: val_inj.
have n5 : (5%:R : R) != 0 by rewrite pnatr_eq0.
have n6 : (6%:R : R) != 0 by rewrite pnatr_eq0.
have n2 : (2%:R : R) != 0 by rewrite pnatr_eq0.
have h11 : 1 + 1 = 2%:R :> R by [].
have h15 : 1 + 5%:R = 6%:R :> R by rewrite -[1]/(1%:R) -natrD.
have d2 (g : 'I_2 -> R) : \sum_j g j = g 0 + g 1 by rewrite big_ord_recl big_ord1 e1.
split.
- rewrite (proj1 (VP 0 0)) /step_probability /density /= !d2 /k !fX fX0 fX1.
  rewrite !mul1r h11 -{2}[2%:R^-1]mul1r -mulrDl h15 invfM invrK mulrCA mulVf // mulr1 //.
- rewrite (proj1 (VP' 0 0)) /step_probability /density /= !d2 /k !fX fX0 fX1.
  rewrite !mul1r !mulr1.
  have -> : 5%:R + 5%:R * 5%:R = 5%:R * 6%:R :> R by rewrite -h15 mulrDr mulr1.
  by rewrite h15 invfM mulrA divff // mul1r -mulr2n -[_ *+ 2]mulr_natl invfM invrK mulrCA mulVf // mulr1.
Qed.
Print Assumptions C111_reference_refuted.

(** C111: with alpha = 0, whatever was called before, a Roseland kernel object is trained by the first call
    with query points; later calls depend on nothing but themselves and that call. *)
Theorem C111_roseland_history :
  forall (R : rcfType) p (k : 'rV[R]_p -> 'rV[R]_p -> R) e (h : seq (call R p)),
  let new_ok c := exists M, (rk_call k e false None c).2 = Ok M in
  let now := after (rk_call k e false) None h in
  (forall c, new_ok c <-> exists n (X : 'M[R]_(n, p)) m (Y : 'M[R]_(m, p)), c = Component X Y) /\
  (forall c0, first_success new_ok h c0 ->
     forall c, (rk_call k e false now c).2 = (rk_call k e false (rk_call k e false None c0).1 c).2) /\
  ((forall c, List.In c h -> ~ new_ok c) -> forall c, rk_call k e false now c = rk_call k e false None c).
Proof.
move=> R p k e h new_ok now; split; [|split].
- move=> [n X|n X m Y]; split=> //; [by case|by case=> [? [? [? [? ?]]]]| |].
  + by move=> _; exists n, X, m, Y.
  + by move=> _; eexists.
- move=> c0 [h1 [h2 [Eh [Hok Hf]]]] c.
  have [a Ea] : exists a, (rk_call k e false None c0).1 = Some a.
  { by case: c0 Hok {Eh} => [n X|n X m Y] /= [M EM] //; eexists. }
  by rewrite /now Eh after_cat rk_fails_all // /after /= Ea -/(after _ _ _) rk_keeps.
- by move=> H c; rewrite /now rk_fails_all.
Qed.
Print Assumptions C111_roseland_history.

(** C111: the values of a Roseland kernel with positive internal kernel: the first call with landmarks [X]
    and points [Y] gives the landmarks weights, all later calls use these, also with other landmarks;
    another number of landmarks is refused. *)
Theorem C111_roseland_values :
  forall (R : rcfType) p (k : 'rV[R]_p -> 'rV[R]_p -> R) e n (X : 'M[R]_(n, p)) m (Y : 'M[R]_(m, p)),
  (forall x y, 0 < k x y) -> (0 < n)%N -> (0 < m)%N ->
  let w j := \sum_i k (row i Y) (row j X) in
  let used := (rk_call k e false None (Component X Y)).1 in
  (exists P : 'M[R]_(m, n), (rk_call k e false None (Component X Y)).2 = Ok (KM P) /\
     forall i j, P i j = landmark_row k X w (row i Y) j) /\
  (forall (X' : 'M[R]_(n, p)) m' (Y' : 'M[R]_(m', p)), exists P : 'M[R]_(m', n),
     (rk_call k e false used (Component X' Y')).2 = Ok (KM P) /\
     forall i j, P i j = landmark_row k X' w (row i Y') j) /\
  (forall n' (X' : 'M[R]_(n', p)) m' (Y' : 'M[R]_(m', p)), n' <> n -> n' <> 1%N -> n <> 1%N ->
     (rk_call k e false used (Component X' Y')).2 = Err ValueError).
Proof.
move=> R p k e n X m Y kp Hn Hm w.
have sum_pos a (f : 'I_a -> R) : (0 < a)%N -> (forall j, 0 < f j) -> 0 < \sum_j f j.
{ case: a f => // a f _ Hf; rewrite big_ord_recl; apply: ltr_paddr => //; apply: sumr_ge0 => j _; exact: ltW. }
have wp j : 0 < w j by apply: sum_pos.
have kE a (Z : 'M[R]_(a, p)) b (V : 'M[R]_(b, p)) i j : kmat k Z V i j = k (row i V) (row j Z) by rewrite mxE.
have ev m' (X' : 'M[R]_(n, p)) (Y' : 'M[R]_(m', p)) (st : 'rV[R]_n) i j : (forall j, st 0 j = w j) ->
  diagmat_dot_mat (\row_i (if row_sums (mat_dot_diagmat (kmat k X' Y') st) 0 i == 0 then 0
     else (Num.sqrt (row_sums (mat_dot_diagmat (kmat k X' Y') st) 0 i))^-1)) (kmat k X' Y') i j = landmark_row k X' w (row i Y') j.
{ move=> Hst; rewrite diag_dot_matE mul_diag_mx mxE [X in X * _]mxE kE.
  have -> : row_sums (mat_dot_diagmat (kmat k X' Y') st) 0 i = \sum_l k (row i Y') (row l X') * w l.
  { by rewrite mxE; apply: eq_bigr => l _; rewrite mat_dot_diagE mul_mx_diag mxE kE Hst. }
  have H : 0 < \sum_l k (row i Y') (row l X') * w l by apply: sum_pos => // l; apply: mulr_gt0.
  by rewrite (negbTE (lt0r_neq0 H)) mulrC. }
have stE j : (\row_j \sum_i kmat k X Y i j) 0 j = w j by rewrite mxE; apply: eq_bigr => i _; exact: kE.
split; [|split].
- by eexists; split; first by []; move=> i j; apply: ev.
- move=> X' m' Y'; rewrite /= eqxx; eexists; split; first by [].
  by move=> i j; rewrite resized_id; apply: ev.
- move=> n' X' m' Y' H1 H2 H3 /=; case: eqP => [E|_]; first by case: H1.
  by case: eqP => //; case: eqP.
Qed.
Print Assumptions C111_roseland_values.

(** C111 (refuted): with a density correction (alpha > 0, documented for [0, 1]) no call of a Roseland
    kernel ever succeeds. *)
Theorem C111_roseland_alpha_refuted :
  forall (R : rcfType) p (k : 'rV[R]_p -> 'rV[R]_p -> R) e (h : seq (call R p)) c,
  ~ exists M, (rk_call k e true (after (rk_call k e true) None h) c).2 = Ok M.
Proof.
move=> R p k e h c.
have F c' : ~ ok (rk_call k e true None c').2 by case: c' => [n X|n X m Y] [].
by rewrite rk_fails_all; [exact: F|move=> c' _; exact: F].
Qed.
Print Assumptions C111_roseland_alpha_refuted.

(** A history for a diffusion kernel: a query before the training fails, so does a second training. *)
Example C111_example (R : rcfType) :
  exists (k : 'rV[R]_1 -> 'rV[R]_1 -> R) (cfg : dmap_cfg R) (X : 'M[R]_(2, 1)) (Y : 'M[R]_(3, 1)) s,
  (dm_call k cfg None (Component X Y)).2 = Err AttributeError /\
  after (dm_call k cfg) None [:: Component X Y; Pairwise X; Pairwise X] = s /\
  (exists P : 'M[R]_(3, 2), (dm_call k cfg s (Component X Y)).2 = Ok (KM P) /\ forall i j, P i j = 2%:R^-1) /\
  (dm_call k cfg s (Pairwise X)).2 = Err AttributeError.
Proof.
pose k (x y : 'rV[R]_1) := (1 : R); pose cfg := @DmapCfg R true true id true true.
have [[A EA] [H1 _]] := @C111_dmap_values R 1 k cfg 2 0 (fun _ _ => ltr01) (fun a Ha => Ha) isT isT isT.
have [F _] := @C111_dmap_history R 1 k cfg [:: Component (0 : 'M[R]_(2, 1)) (0 : 'M[R]_(3, 1)); Pairwise (0 : 'M[R]_(2, 1)); Pairwise (0 : 'M[R]_(2, 1))].
have [|_ [F1 F2]] := F (Pairwise (0 : 'M[R]_(2, 1))).
{ exists [:: Component (0 : 'M[R]_(2, 1)) (0 : 'M[R]_(3, 1))], [:: Pairwise (0 : 'M[R]_(2, 1))]; split=> //.
  by split; [exists (KM A)|move=> c' [<-|//] []]. }
have [P [EP [VP _]]] := H1 0 3%N 0.
exists k, cfg, 0, 0; eexists; split=> //; split; first by []; split; last exact: F1.
exists P; split; first by rewrite F2.
move=> i j; rewrite (proj1 (VP i j)) /step_probability /density /k /= !big_ord_recl !big_ord0 !addr0 mul1r.
have n2 : (1 + 1 : R) != 0 by rewrite (_ : 1 + 1 = 2%:R) // pnatr_eq0.
by rewrite -[X in _ / (X + _)]mul1r -[X in _ / (_ + X)]mul1r -mulrDl divff // invr1 mulr1.
Qed.
