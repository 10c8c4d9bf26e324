(** * C50: the residual filter. *)

From mathcomp Require Import all_ssreflect all_algebra.
From Verif Require Import LinModel LinSpec ResModel ResSpec ResProofs ResExample.
Import Order.Theory GRing.Theory Num.Theory.
Set Implicit Arguments.
Unset Strict Implicit.
Unset Printing Implicit Defensive.
Local Open Scope ring_scope.

(** The residual of a column [v] is the relative one-step error of the linear function x -> v.x
    as an eigenfunction, for arbitrary (real) data; infinite if the function is tiny on the data. *)
Theorem C50_residual : forall (C : numClosedFieldType) (s n N : nat) (w : option 'rV[C]_s)
  (X Y : 'M[C]_(s, n)) (lam : C) (v : 'cV[C]_n),
  RealData X -> RealData Y -> (forall i, 0 <= Weights N w 0 i) ->
  residual (full_gram N w X X) (full_gram N w X Y) (full_gram N w Y Y) lam v
  = if tiny C < size_of (Weights N w) X v
    then Some (sqrtC (defect (Weights N w) X Y lam v / size_of (Weights N w) X v)) else None.
Proof. exact: residual_full. Qed.
Print Assumptions C50_residual.

(** With the rank-reduced variant the eigenvalue is conjugated. *)
Theorem C50_residual_reduced : forall (C : numClosedFieldType) (s n : nat) (X Y : 'M[C]_(n, s))
  (lam : C) (v : 'cV[C]_n), RealData X -> RealData Y ->
  residual (reduced_grams X Y).1.1 (reduced_grams X Y).1.2 (reduced_grams X Y).2 lam v
  = if tiny C < size_of (const_mx 1) X^T v
    then Some (sqrtC (defect (const_mx 1) X^T Y^T lam^* v / size_of (const_mx 1) X^T v)) else None.
Proof. exact: residual_reduced. Qed.
Print Assumptions C50_residual_reduced.

(** For data of a linear system the residual vanishes exactly for left eigenpairs. *)
Theorem C50_zero : forall (C : numClosedFieldType) (s n N : nat) (w : option 'rV[C]_s)
  (X Y : 'M[C]_(s, n)) (A : 'M[C]_n) (lam : C) (v : 'cV[C]_n),
  RealData X -> RealData Y -> (forall i, 0 < Weights N w 0 i) -> Spanning X -> ExactData X Y A ->
  tiny C < size_of (Weights N w) X v ->
  residual (full_gram N w X X) (full_gram N w X Y) (full_gram N w Y Y) lam v = Some 0 <-> LeftPair A lam v.
Proof. exact: residual_zero. Qed.
Print Assumptions C50_zero.

(** Data of a symmetric linear system: every threshold keeps all computed eigenpairs. *)
Theorem C50_symmetric_keeps_all : forall (C : numClosedFieldType) q eig (lstsq : lstsq_t C) (s n N : nat)
  (w : option 'rV[C]_s) (X Y : 'M[C]_(s, n)) (A : 'M[C]_n) (t : C),
  EigSolver eig -> solves_consistent lstsq -> RealData X -> RealData Y ->
  (forall i, 0 < Weights N w 0 i) -> Spanning X -> ExactData X Y A -> A^T = A ->
  0 < t -> eig n A <> [::] ->
  (forall lam v, List.In (lam, v) (eig n A) -> tiny C < size_of (Weights N w) X v) ->
  fit_full q eig lstsq N w (Filter (Some t) None None false) X Y = Some (eig n A).
Proof.
move=> C q eig lstsq s n N w X Y A t He Hl HX HY Hw HS HE HA Ht H0 Hv.
rewrite /fit_full (system_recovered Hl HX Hw HS HE); apply: no_pair_removed => // -[lam v] /in_In Hi /=.
have Hi' : List.In (lam, v) (eig n A) by exact: Hi.
apply/(residual_zero _ HX HY Hw HS HE); first exact: Hv Hi'.
by apply/leftP; rewrite HA; apply/rightP; apply: He Hi'.
Qed.
Print Assumptions C50_symmetric_keeps_all.

(** Every computed eigenpair that is not at the same time a left eigenpair is removed by all
    thresholds below some positive number, although the data is exact and the pair correct. *)
Theorem C50_exact_pair_refuted : forall (C : numClosedFieldType) q eig (lstsq : lstsq_t C) (s n N : nat)
  (w : option 'rV[C]_s) (X Y : 'M[C]_(s, n)) (A : 'M[C]_n) (lam : C) (v : 'cV[C]_n),
  EigSolver eig -> solves_consistent lstsq -> RealData X -> RealData Y ->
  (forall i, 0 < Weights N w 0 i) -> Spanning X -> ExactData X Y A ->
  List.In (lam, v) (eig n A) -> ~ LeftPair A lam v ->
  RightPair A lam v /\
  exists t0, 0 < t0 /\ forall t, 0 < t < t0 -> forall l,
    fit_full q eig lstsq N w (Filter (Some t) None None false) X Y = Some l -> ~ List.In (lam, v) l.
Proof.
move=> C q eig lstsq s n N w X Y A lam v He Hl HX HY Hw HS HE Hi HL; split; first exact: He Hi.
have Hw0 i : 0 <= Weights N w 0 i by apply: ltW.
pose r := residual (full_gram N w X X) (full_gram N w X Y) (full_gram N w Y Y) lam v.
have [t0 [H0 Hr]] : exists t0, 0 < t0 /\ forall t, t < t0 -> ~~ leq_res r (Some t).
  have := residual_full lam v HX HY Hw0; rewrite -/r; case: ifP => [Ht|_] Er; last first.
    by exists 1; rewrite ltr01 Er.
  have Hs : 0 < size_of (Weights N w) X v := lt_trans (tiny_gt0 C) Ht.
  have Hd : 0 < defect (Weights N w) X Y lam v.
    rewrite lt_neqAle defect_ge0 // andbT eq_sym; apply/eqP => E; apply: HL.
    exact/(defect_eq0 _ _ Hw HS HE).
  exists (sqrtC (defect (Weights N w) X Y lam v / size_of (Weights N w) X v)).
  rewrite sqrtC_gt0 divr_gt0 //; split=> // t Ht'; rewrite Er /=.
  by apply/negP => /le_lt_trans /(_ Ht'); rewrite ltxx.
exists t0; split=> // t /andP [Ht Ht0] l; rewrite /fit_full (system_recovered Hl HX Hw HS HE).
rewrite threshold_kept ?gt_eqF //; case E : [seq _ <- _ | _] => [|p l'] // [<-]; rewrite -E => /in_In.
by rewrite mem_filter /= -/r (negbTE (Hr t Ht0)).
Qed.
Print Assumptions C50_exact_pair_refuted.

(** Reduced variant: left eigenpairs of an exact system have residual |lam - conj lam|, so every
    oscillating component counts as polluted; right eigenpairs of normal matrices have residual 0. *)
Theorem C50_reduced_conjugate_refuted : forall (C : numClosedFieldType) (s n : nat) (X Y : 'M[C]_(n, s))
  (A : 'M[C]_n) (lam : C) (v : 'cV[C]_n),
  RealData X -> RealData Y -> Y = A *m X -> LeftPair A lam v -> tiny C < size_of (const_mx 1) X^T v ->
  residual (reduced_grams X Y).1.1 (reduced_grams X Y).1.2 (reduced_grams X Y).2 lam v = Some `|lam - lam^*|.
Proof. exact: reduced_left. Qed.
Print Assumptions C50_reduced_conjugate_refuted.

Theorem C50_reduced_normal : forall (C : numClosedFieldType) (s n : nat) (X Y : 'M[C]_(n, s))
  (A : 'M[C]_n) (lam : C) (v : 'cV[C]_n),
  RealData X -> RealData Y -> RealData A -> A *m A^T = A^T *m A -> Y = A *m X -> RightPair A lam v ->
  tiny C < size_of (const_mx 1) X^T v ->
  residual (reduced_grams X Y).1.1 (reduced_grams X Y).1.2 (reduced_grams X Y).2 lam v = Some 0.
Proof. exact: reduced_normal. Qed.
Print Assumptions C50_reduced_normal.

(** A threshold (not 0) keeps exactly the pairs with a residual not above it, in their order, and
    raises if there is none.  Holds for arbitrary matrices. *)
Theorem C50_threshold : forall (C : numClosedFieldType) q (n : nat) (G G_dash R : 'M[C]_n) (t : C)
  (pairs : seq (C * 'cV[C]_n)), t != 0 ->
  let small p := if residual G G_dash R p.1 p.2 is Some x then x <= t else false in
  remove_spectral_pollution q G G_dash R (Filter (Some t) None None false) pairs
  = if has small pairs then Some [seq p <- pairs | small p] else None.
Proof.
move=> C q n G G' R t pairs Ht small; rewrite threshold_kept //.
have E : (fun p => leq_res (residual G G' R p.1 p.2) (Some t)) =1 small.
  by move=> p; rewrite /small; case: residual.
rewrite (eq_filter E) has_filter; by case: [seq p <- pairs | small p].
Qed.
Print Assumptions C50_threshold.

(** keep_n = k: at least k pairs are kept (more only with ties), and for every kept pair fewer
    than k pairs have a smaller residual.  k = 0 or more than the number of pairs is rejected. *)
Theorem C50_keep_n : forall (C : numClosedFieldType) q (s n N : nat) (w : option 'rV[C]_s)
  (X Y : 'M[C]_(s, n)) (k : nat) (b : bool) (pairs : seq (C * 'cV[C]_n)),
  RealData X -> RealData Y -> (forall i, 0 <= Weights N w 0 i) ->
  let G := full_gram N w X X in let G_dash := full_gram N w X Y in let R := full_gram N w Y Y in
  let res (p : C * 'cV[C]_n) := residual G G_dash R p.1 p.2 in
  (~~ (0 < k <= size pairs)%N -> remove_spectral_pollution q G G_dash R (Filter None None (Some k) b) pairs = None) /\
  forall l, remove_spectral_pollution q G G_dash R (Filter None None (Some k) b) pairs = Some l ->
  (k <= size l)%N /\
  (forall p, p \in l -> p \in pairs /\ (count (fun p' => ~~ leq_res (res p) (res p')) pairs < k)%N) /\
  (forall p p', p \in l -> p' \in pairs -> p' \notin l -> ~~ leq_res (res p') (res p)) /\
  (b -> sorted (fun p p' => leq_res (res p) (res p')) l).
Proof.
move=> C q s n N w X Y k b pairs HX HY Hw G G' R res; split.
  rewrite /remove_spectral_pollution /bound /= size_map.
  by case: k => [|k] //= Hk; rewrite (negbTE Hk).
move=> l Hl.
have [c [Hb [Hp [_ [_ Hs]]]]] := kept_spec Hl.
have Hr : all (@is_res C) (map res pairs).
  by apply/allP => x /mapP [p _ ->]; apply: residual_is_res.
rewrite /= in Hs; move: Hb; rewrite /bound /=; case: k Hl Hs => [|k] // Hl Hs; case: ifP => // Hk [Ec].
have [K1 K2] := @kth_smallest C (map res pairs) k.+1 Hr Hk.
rewrite -/res in Ec Hp Hs; rewrite /= Ec in K1 K2.
split; first by rewrite (perm_size Hp) size_filter; rewrite count_map in K1.
split.
  move=> p; rewrite (perm_mem Hp) mem_filter => /andP [L Hin]; split=> //.
  by have := K2 _ L; rewrite count_map.
split.
  move=> p p'; rewrite !(perm_mem Hp) !mem_filter => /andP [L _] Hin; rewrite Hin andbT => Hn.
  by apply/negP => L'; move/negP: Hn; apply; apply: leq_res_trans L' L.
move=> Hb; rewrite (Hs Hb); apply: sort_sorted => p p'.
by apply: leq_res_total; apply: residual_is_res.
Qed.
Print Assumptions C50_keep_n.

(** Exact data of [[1, 1], [0, 2]] (snapshots: the unit vectors) with threshold 1/2: all exact
    eigenpairs are removed and fit raises; for [[2, 1], [1, 2]] all are kept. *)
Example C50_example : forall (C : numClosedFieldType) q,
  let A := ex_mx (1 : C) 1 0 2%:R in let B := ex_mx (2%:R : C) 1 1 2%:R in
  let f := Filter (Some (2%:R^-1 : C)) None None false in
  EigSolver (@ex_eig C) /\ solves_consistent (@ex_lstsq C) /\
  ex_eig A = [:: (1, ex_v 2 1 0); (2%:R, ex_v 2 1 1)] /\
  fit_full q (@ex_eig C) (@ex_lstsq C) 1 None f 1%:M A^T = None /\
  fit_full q (@ex_eig C) (@ex_lstsq C) 1 None f 1%:M B^T = Some [:: (1, ex_v 2 1 (-1)); (3%:R, ex_v 2 1 1)].
Proof.
move=> C q A B f; split; first exact: ex_eig_ok.
split; first exact: ex_lstsq_ok.
split; first exact: ex_eig_shear.
have T (M : 'M[C]_2) : RealData M -> RealData M^T by move=> HM i j; rewrite mxE; apply: HM.
split; last first.
  rewrite (@C50_symmetric_keeps_all C q _ _ _ _ 1 None 1%:M B^T B) ?ex_eig_sym //.
  - exact: ex_eig_ok.
  - exact: ex_lstsq_ok.
  - exact: ex_real1.
  - by apply: T; apply: ex_real_mx; rewrite ?realn ?real1.
  - exact: ex_weights.
  - exact: ex_span.
  - exact: ex_exact.
  - by apply/matrixP => i j; move: i j; apply: ord2; apply: ord2; rewrite !mxE.
  - by rewrite invr_gt0 ltr0n.
  - move=> lam v /in_In; rewrite !inE => /orP [] /eqP [_ ->]; rewrite ex_size;
      rewrite ?normrN normr1 expr1n -[1 + 1]/(2%:R); apply: lt_trans (tiny_lt1 C) _; by rewrite ltr1n.
rewrite /fit_full (system_recovered (@ex_lstsq_ok C) (@ex_real1 C) (@ex_weights C) (@ex_span C) (ex_exact A)).
rewrite ex_eig_shear threshold_kept; last by rewrite invr_eq0 pnatr_eq0.
have HA : RealData A^T by apply: T; apply: ex_real_mx; rewrite ?realn ?real1 ?real0.
have H12 : ~~ (1 <= 2%:R^-1 :> C) 
  by apply/negP => /le_lt_trans H; have := H 1; rewrite invf_lt1 ?ltr0n // ltr1n ltxx => /(_ isT).
have Hw i : 0 <= Weights 1 (None : option 'rV[C]_2) 0 i by apply: ltW; apply: ex_weights.
cbn [seq.filter fst snd]; rewrite !residual_full //; try exact: ex_real1.
have H2 : tiny C < 1 + 1 by apply: lt_trans (tiny_lt1 C) _; rewrite -[1 + 1]/(2%:R) ltr1n.
rewrite !ex_size !ex_defect !(mul1r, mul0r, mulr1, mulr0, addr0, add0r, subrr).
rewrite normr1 normr0 expr1n expr0n addr0 add0r tiny_lt1 H2 /= subr0 normr1 expr1n divr1 sqrtC1 (negbTE H12).
have -> : 1 - 2%:R = - 1 :> C by rewrite (natrD C 1 1) opprD addrA subrr add0r.
have -> : 1 + 2%:R - 2%:R = 1 :> C by rewrite addrK.
by rewrite normrN normr1 expr1n divff ?sqrtC1 ?(negbTE H12) // -[1 + 1]/(2%:R) pnatr_eq0.
Qed.
