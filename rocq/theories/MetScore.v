(** * Lemmas about scaling and scores of time series collections. *)

From Coq Require Import ZArith List.
From mathcomp Require Import all_ssreflect all_algebra.
From Verif Require Import Np NpFacts TscModel TscSpec MetModel MetSpec MetProofs.
Import Order.Theory GRing.Theory Num.Theory.
Set Implicit Arguments.
Unset Strict Implicit.
Unset Printing Implicit Defensive.
Local Open Scope ring_scope.

Section Proofs.
Variables (R : rcfType) (f : nat).
Notation vec := ('rV[R]_f).
Notation frame := (list (row vec)).

(** ** Without weights there is a result *)

Lemma column_error_ok m (y p : seq R) : exists e, column_error m None y p = Ok e.
Proof. by case: m => /=; eexists; reflexivity. Qed.

Lemma all_ok_ok A B (g : A -> result B) (l : seq A) : (forall x, exists b, g x = Ok b) ->
  exists s, all_ok [seq g x | x <- l] = Ok s.
Proof.
move=> H; elim: l => [|a l [s E]] /=; first by exists [::].
by have [b ->] := H a; rewrite E; exists (b :: s).
Qed.

Lemma evaluate_ok m (mo : multi R f) (y p : seq vec) : plain m ->
  mo = uniform_average R f \/ mo = raw_values R f ->
  exists2 s, evaluate m None mo y p = Ok s & size s = width mo.
Proof.
move=> pm; have [e E] : exists e, column_errors m None y p = Ok e.
  by apply: all_ok_ok => j; apply: column_error_ok.
have Se : size e = f by rewrite (column_errorsE E) size_map size_enum_ord.
by case: m pm E => //= _ E [->|->]; rewrite E /=; eexists; try reflexivity.
Qed.

Lemma table_ok m (mo : multi R f) (Y P : frame) (mk : Z -> row vec -> bool) (l : seq Z) : plain m ->
  mo = uniform_average R f \/ mo = raw_values R f ->
  exists T, all_ok [seq bind (evaluate m None mo (rows_where (mk i) Y) (rows_where (mk i) P))
                     (fun v => bind (assign (width mo) v) (fun row => Ok (i, row))) | i <- l] = Ok T.
Proof.
move=> pm H; apply: all_ok_ok => i; have [s -> Es] := @evaluate_ok m mo (rows_where (mk i) Y) (rows_where (mk i) P) pm H.
by rewrite /= assign_same //=; eexists.
Qed.

Lemma tsc_metric_ok m md s (mo : multi R f) (Y P : frame) : plain m -> SameIndex Y P ->
  mo = uniform_average R f \/ mo = raw_values R f ->
  exists o, tsc_metric m md s None mo Y P = Ok o.
Proof.
move=> pm /same_indexP S H; rewrite /tsc_metric S /=; case: md.
- by rewrite /per_timeseries; have [T ->] := @table_ok m mo (scale s Y P).1 (scale s Y P).2 (fun i r => Z.eqb (rid r) i) (ids (scale s Y P).1) pm H; eexists.
- by rewrite /per_timestep; have [T ->] := @table_ok m mo (scale s Y P).1 (scale s Y P).2 (fun i r => Z.eqb (rtime r) i) (time_values (scale s Y P).1) pm H; eexists.
- rewrite /per_feature.
  have [T -> _] := @evaluate_ok m (raw_values R f) (rows_where xpredT (scale s Y P).1) (rows_where xpredT (scale s Y P).2) pm (or_intror erefl).
  by eexists.
Qed.

(** ** Scores *)

Lemma average_mean (l : seq R) x : average None l = Ok x -> x = mean l.
Proof. by case. Qed.

Lemma flatten_single A B (g : A -> B) (l : seq A) : flatten [seq [:: g x] | x <- l] = [seq g x | x <- l].
Proof. by elim: l => //= a l ->. Qed.

Lemma in_map_list (A : Type) (g : A -> R) (L : seq A) x :
  x \in [seq g i | i <- L] <-> exists2 i, List.In i L & x = g i.
Proof.
elim: L => [|a L IH]; first by split=> // -[].
rewrite map_cons in_cons; split=> [/orP[/eqP ->|/(proj1 IH) [i h ->]]|[i [->|h] E]].
- by exists a => //; left.
- by exists i => //; right.
- by rewrite E eqxx.
- by apply/orP; right; apply: (proj2 IH); exists i.
Qed.

Lemma mean_cover m (Y P : frame) (L : seq Z) (mk : Z -> Z -> Z -> bool) :
  (0 < f)%N -> (0 < size L)%N -> Keyed Y -> SameIndex Y P ->
  (forall i, List.In i L -> exists2 r, List.In r Y & mk i (rid r) (rtime r)) ->
  (forall r, List.In r Y -> exists2 i, List.In i L & mk i (rid r) (rtime r)) ->
  0 <= mean [seq mean (spec_row m None Y P (mk i)) | i <- L] /\
  (mean [seq mean (spec_row m None Y P (mk i)) | i <- L] = 0 <-> Y = P).
Proof.
move=> f0 L0 V S N C.
have P1 i : 0 <= mean (spec_row m None Y P (mk i)) by apply: mean_ge0; apply: spec_row_ge0.
have P2 : {in [seq mean (spec_row m None Y P (mk i)) | i <- L], forall x, 0 <= x} by move=> x /in_map_list[i _ ->].
split; first exact: mean_ge0.
rewrite mean_eq0 ?size_map // -(cover_exact m V S N C).
have M i : mean (spec_row m None Y P (mk i)) = 0 <-> forall j, total m None (errors Y P (mk i) j) = 0.
  by rewrite mean_eq0 ?size_spec_row //; [exact: spec_row_eq0 | exact: spec_row_ge0].
split=> [H i hi j|H x /in_map_list[i hi ->]]; last by apply/M; apply: H.
by apply: (proj1 (M i)); apply: H; apply/in_map_list; exists i.
Qed.

Lemma score_sign m md (Y P : frame) x : plain m -> (0 < f)%N -> ValidRows Y ->
  score m md id_scaling None (uniform_average R f) false None Y P = Ok x ->
  SameIndex Y P /\ x <= 0 /\ (x = 0 <-> Y = P).
Proof.
move=> pm f0 VY; rewrite /score /tsc_metric; case: ifP => // /negbFE /same_indexP S.
have V := valid_nodup VY; move=> Hx; split=> //.
have N0 : (0 < size Y)%N by have := vr_nonempty _ VY; case: (Y).
have opp0 (y : R) : 0 <= y /\ (y = 0 <-> Y = P) -> - y <= 0 /\ (- y = 0 <-> Y = P).
  case=> h1 h2; rewrite oppr_le0; split=> //; rewrite -h2; split=> [/eqP|->]; last by rewrite oppr0.
  by rewrite oppr_eq0 => /eqP.
move: Hx; rewrite scale_id; case: md; cbn [fst snd].
- case E: (per_timeseries m None (uniform_average R f) Y P) => [T|] //=; rewrite (per_timeseries_uniform pm V S E).
  rewrite /= all_map (eq_all (a2 := predT)) // all_predT /= -map_comp flatten_single /= => -[<-].
  apply: opp0; apply: mean_cover => //; try exact: (ids_cover Y).1; try exact: (ids_cover Y).2.
  by case: (Y) N0 => // a l _; have := (ids_cover (a :: l)).2 a (or_introl erefl) => -[i]; case: (ids _).
- case E: (per_timestep m None (uniform_average R f) Y P) => [T|] //=; rewrite (per_timestep_uniform pm V S E).
  rewrite /= all_map (eq_all (a2 := predT)) // all_predT /= -map_comp flatten_single /= => -[<-].
  apply: opp0; apply: mean_cover => //; try exact: (times_cover Y).1; try exact: (times_cover Y).2.
  by case: (Y) N0 => // a l _; have := (times_cover (a :: l)).2 a (or_introl erefl) => -[i]; case: (time_values _).
- case E: (per_feature m None Y P) => [e|] //= [<-].
  have n : m <> rrmse by case: (m) pm.
  rewrite (per_feature_raw n V S E); apply: opp0.
  have N : Y <> [::] by exact: vr_nonempty.
  have [C1 C2] := everywhere_cover N.
  have [h1 h2] := @mean_cover m Y P [:: Z0] (fun _ => everywhere) f0 isT V S C1 C2.
  by move: h1 h2; rewrite /= {1 3}/mean big_seq1 divr1.
Qed.

(** ** Scaling *)

Lemma rows_all (F : frame) : rows_where xpredT F = [seq rval r | r <- F].
Proof. by rewrite /rows_where filter_predT. Qed.

Lemma column_values (F : frame) j : column j (rows_where xpredT F) = feature_values F j.
Proof. by rewrite rows_all /column -map_comp. Qed.

Lemma maximum_in (l : seq R) : l <> [::] -> maximum l \in l /\ {in l, forall x, x <= maximum l}.
Proof.
case: l => // a l _; rewrite /maximum /= big_cons.
have G (s : seq R) b : \big[Num.max/b]_(x <- s) x \in b :: s /\ {in b :: s, forall x, x <= \big[Num.max/b]_(x <- s) x}.
  elim: s => [|c s [h1 h2]]; first by rewrite big_nil inE eqxx; split=> // x; rewrite inE => /eqP ->.
  rewrite big_cons; split.
  - rewrite maxEle; case: ifP => _; last by rewrite !inE eqxx orbT.
    by move: h1; rewrite !inE => /orP[->//|->]; rewrite !orbT.
  - move=> x; rewrite !inE => /or3P[/eqP ->|/eqP ->|h]; rewrite le_maxr ?lexx //.
    + by rewrite h2 ?orbT // inE eqxx.
    + by rewrite h2 ?orbT // inE h orbT.
have [h1 h2] := G l a; have -> : Num.max a (\big[Num.max/a]_(j <- l) j) = \big[Num.max/a]_(j <- l) j.
  by apply/max_idPr; apply: h2; rewrite inE eqxx.
by split=> //.
Qed.

Lemma minimum_in (l : seq R) : l <> [::] -> minimum l \in l /\ {in l, forall x, minimum l <= x}.
Proof.
case: l => // a l _; rewrite /minimum /= big_cons.
have G (s : seq R) b : \big[Num.min/b]_(x <- s) x \in b :: s /\ {in b :: s, forall x, \big[Num.min/b]_(x <- s) x <= x}.
  elim: s => [|c s [h1 h2]]; first by rewrite big_nil inE eqxx; split=> // x; rewrite inE => /eqP ->.
  rewrite big_cons; split.
  - rewrite minEle; case: ifP => _; first by rewrite !inE eqxx orbT.
    by move: h1; rewrite !inE => /orP[->//|->]; rewrite !orbT.
  - move=> x; rewrite !inE => /or3P[/eqP ->|/eqP ->|h]; rewrite le_minl ?lexx //.
    + by rewrite h2 ?orbT // inE eqxx.
    + by rewrite h2 ?orbT // inE h orbT.
have [h1 h2] := G l a; have -> : Num.min a (\big[Num.min/a]_(j <- l) j) = \big[Num.min/a]_(j <- l) j.
  by apply/min_idPr; apply: h2; rewrite inE eqxx.
by split=> //.
Qed.

Lemma range_of (l : seq R) : l <> [::] -> IsRange l (maximum l - minimum l).
Proof.
move=> N; have [a1 a2] := maximum_in N; have [b1 b2] := minimum_in N.
by exists (minimum l), (maximum l); split=> // x h; rewrite a2 // b2.
Qed.

Lemma std_of (l : seq R) : l <> [::] -> IsStd l (std l).
Proof.
move=> N; have Nz : (size l)%:R != 0 :> R by rewrite pnatr_eq0; case: (l) N.
split; first exact: sqrtr_ge0.
rewrite /std sqr_sqrtr; first by rewrite mulfVK.
by rewrite divr_ge0 ?ler0n // sumr_ge0 // => x _; exact: sqr_ge0.
Qed.

Lemma range_unique (l : seq R) d d' : IsRange l d -> IsRange l d' -> d = d'.
Proof.
case=> a [b [ha hb H ->]] [a' [b' [ha' hb' H' ->]]].
have /andP[h1 _] := H _ ha'; have /andP[h2 _] := H' _ ha; have /andP[_ h3] := H _ hb'; have /andP[_ h4] := H' _ hb.
by congr (_ - _); apply/eqP; rewrite eq_le ?h1 ?h2 ?h3 ?h4.
Qed.

Lemma std_unique (l : seq R) d d' : l <> [::] -> IsStd l d -> IsStd l d' -> d = d'.
Proof.
move=> N [p1 e1] [p2 e2]; have Nz : (size l)%:R != 0 :> R by rewrite pnatr_eq0; case: (l) N.
apply: (@pexpIrn _ 2) => //; rewrite ?nnegrE //.
by apply: (mulIf Nz); rewrite e1 e2.
Qed.

Lemma affine_table m w s (a b : 'I_f -> R) (Y P : frame) T : m <> rrmse -> ValidRows Y ->
  (forall j v, scaler s (rows_where xpredT Y) v ord0 j = (v ord0 j - a j) / b j) ->
  tsc_metric m timeseries s w (raw_values R f) Y P = Ok (Labelled T) ->
  forall i row, List.In (i, row) T ->
    row = [seq total m w [seq e / b j | e <- errors Y P (of_series i) j] | j <- enum 'I_f].
Proof.
move=> n VY A; rewrite /tsc_metric; case: ifP => // /negbFE /same_indexP S.
have V := valid_nodup VY; rewrite /scale; cbn [fst snd]; set g := scaler _ _ in A *.
case E: (per_timeseries m w (raw_values R f) (map_frame g Y) (map_frame g P)) => [T'|] //= -[<-] i row.
rewrite (per_timeseries_raw n (keyed_map g V) (same_map g g S) E) => h.
have [i' [[<- <-] _]] := proj1 (List.in_map_iff _ _ _) h.
apply: eq_map => j; congr total.
by rewrite (@errors_affine R f a b g Y P (of_series i') j).
Qed.

Lemma norm_scale (c : R) (v : vec) : 0 < c ->
  Num.sqrt (\sum_k ((c *: v) ord0 k) ^+ 2) = c * Num.sqrt (\sum_k (v ord0 k) ^+ 2).
Proof.
move=> c0; have -> : \sum_k ((c *: v) ord0 k) ^+ 2 = c ^+ 2 * \sum_k (v ord0 k) ^+ 2.
  by rewrite mulr_sumr; apply: eq_bigr => k _; rewrite mxE exprMn.
by rewrite sqrtrM ?sqr_ge0 // sqrtr_sqr ger0_norm // ltW.
Qed.

Lemma normalize_scale (c : R) y (v : vec) : 0 < c ->
  scaler l2_normalize y (c *: v) = scaler l2_normalize y v.
Proof.
move=> c0; apply/rowP => j; rewrite /scaler !mxE norm_scale //.
set s := Num.sqrt _; rewrite /handle_zero mulf_eq0 gt_eqF //=.
case: ifP => [/eqP s0|s0]; last by rewrite invfM mulrACA divff ?mul1r // gt_eqF.
have S2 : 0 <= \sum_k v ord0 k ^+ 2 by rewrite sumr_ge0 // => k _; exact: sqr_ge0.
have E : \sum_k v ord0 k ^+ 2 = 0 := proj1 (sqrt_zero S2) s0.
have Z := psumr_eq0P (fun k _ => sqr_ge0 (v ord0 k)) E.
by have /sqr_zero -> := Z j isT; rewrite mulr0.
Qed.

Lemma scale_times (c : R) (Y : frame) : 0 < c ->
  scale l2_normalize Y (times c Y) = scale l2_normalize Y Y.
Proof.
move=> c0; rewrite /scale; congr (_, _); rewrite /map_frame /times -map_comp.
by apply: eq_map => r; rewrite -[in RHS](@normalize_scale c (rows_where xpredT Y) (rval r) c0).
Qed.

Lemma times_index (c : R) (Y : frame) : SameIndex Y (times c Y).
Proof. by rewrite /SameIndex /times -map_comp. Qed.

(** ** Relative errors *)

Lemma rrmse_feature (Y P : frame) e : ValidRows Y -> SameIndex Y P ->
  per_feature rrmse None Y P = Ok e ->
  e = [seq relative_error (errors Y P everywhere j) (feature_values Y j) / Num.sqrt (size Y)%:R | j <- enum 'I_f].
Proof.
move=> VY S; have V := valid_nodup VY; rewrite /per_feature /= /rrmse_metric /=; case: ifP => // _.
case E: (column_errors _ _ _ _) => [x|] //= -[<-]; have := column_errorsE E.
rewrite (rows_errors mse None everywhere V S) => ->.
have D (a : 'I_f -> R) (b : 'I_f -> R) : divide [seq a j | j <- enum 'I_f] [seq b j | j <- enum 'I_f] = [seq a j / b j | j <- enum 'I_f].
  rewrite /divide; case: (enum 'I_f) => [|j [|k l]] //=; congr [:: _, _ & _].
  by elim: l => //= i l ->.
rewrite D -map_comp; apply: eq_map => j /=; rewrite column_values /relative_error.
have -> : size (errors Y P everywhere j) = size Y by rewrite size_map filter_predT.
have P1 : 0 <= \sum_(x0 <- errors Y P everywhere j) x0 ^+ 2 by rewrite sumr_ge0 // => k _; exact: sqr_ge0.
have P2 : 0 <= \sum_(x0 <- feature_values Y j) x0 ^+ 2 by rewrite sumr_ge0 // => k _; exact: sqr_ge0.
rewrite [X in Num.sqrt X = _]mulrAC [LHS]sqrtrM; last exact: divr_ge0 P1 P2.
by rewrite sqrtrV ?ler0n.
Qed.

(** ** Unsupported combinations *)

Lemma bad_table (m : metric) (u : vec) (Y P : frame) (mk : Z -> row vec -> bool) (l : seq Z) :
  m = l2 \/ m = linf -> (1 < f)%N -> l <> [::] ->
  all_ok [seq bind (evaluate m None (user_weights u) (rows_where (mk i) Y) (rows_where (mk i) P))
                     (fun v => bind (assign 1%N v) (fun row => Ok (i, row))) | i <- l] = Err ValueError.
Proof.
move=> H f1; case: l => // i l _ /=.
have [e E] : exists e, column_errors m None (rows_where (mk i) Y) (rows_where (mk i) P) = Ok e.
  by apply: all_ok_ok => j; apply: column_error_ok.
have Se : size e = f by rewrite (column_errorsE E) size_map size_enum_ord.
have A : assign 1%N e = Err ValueError.
  rewrite /assign Se; case: eqP => [h|_]; first by rewrite h in f1.
  by case: e Se {E} => [|a [|b e]] //= h; rewrite -h in f1.
by case: H => ?; subst m; rewrite /= E /= A.
Qed.

End Proofs.
