(** * Theorems about metrics and scores of time series collections (C57, C58). *)

From Coq Require Import ZArith List.
From mathcomp Require Import all_ssreflect all_algebra.
From Verif Require Import Np NpFacts TscModel TscSpec MetModel MetSpec MetProofs MetScore TscProofs.
Import Order.Theory GRing.Theory Num.Theory.
Set Implicit Arguments.
Unset Strict Implicit.
Unset Printing Implicit Defensive.
Local Open Scope ring_scope.

Section Props.
Variables (R : rcfType) (f : nat).
Notation vec := ('rV[R]_f).
Notation frame := (list (row vec)).
Notation raw := (raw_values R f).
Notation uniform := (uniform_average R f).

(** C57: per series: the table has one line per series, with the metric of the errors of
    exactly the samples of that series, each sample compared with the prediction for the same
    ID and time (whatever the storage order). *)
Theorem C57_timeseries m w (Y P : frame) T :
  m <> rrmse -> ValidRows Y ->
  tsc_metric m timeseries id_scaling w raw Y P = Ok (Labelled T) ->
  SameIndex Y P /\ List.NoDup (map fst T) /\
  (forall i, List.In i (map fst T) <-> Occurs Y i) /\
  (forall i row, List.In (i, row) T ->
     row = [seq total m w (errors Y P (of_series i) j) | j <- enum 'I_f]).
Proof.
move=> n V; rewrite /tsc_metric; case: ifP => // /negbFE /same_indexP S.
rewrite scale_id; cbn [fst snd]; case E: (per_timeseries m w raw Y P) => [T'|] //= -[<-].
rewrite (per_timeseries_raw n (valid_nodup V) S E); split=> //.
have F : map fst [seq (i, spec_row m w Y P (of_series i)) | i <- ids Y] = ids Y by rewrite -map_comp map_id.
split; first by rewrite F; exact: np_unique_NoDup.
split=> [i|i row].
- rewrite F; split=> [/in_np_unique h|[r [h <-]]].
  + by have [r [e h']] := proj1 (List.in_map_iff _ _ _) h; exists r.
  + by apply/in_np_unique; apply: (List.in_map rid).
- by move=> h; have [i' [[<- <-] _]] := proj1 (List.in_map_iff _ _ _) h.
Qed.

(** C57: per time step. *)
Theorem C57_timestep m w (Y P : frame) T :
  m <> rrmse -> ValidRows Y ->
  tsc_metric m timestep id_scaling w raw Y P = Ok (Labelled T) ->
  SameIndex Y P /\ List.NoDup (map fst T) /\
  (forall t, List.In t (map fst T) <-> exists r, List.In r Y /\ rtime r = t) /\
  (forall t row, List.In (t, row) T ->
     row = [seq total m w (errors Y P (of_time t) j) | j <- enum 'I_f]).
Proof.
move=> n V; rewrite /tsc_metric; case: ifP => // /negbFE /same_indexP S.
rewrite scale_id; cbn [fst snd]; case E: (per_timestep m w raw Y P) => [T'|] //= -[<-].
rewrite (per_timestep_raw n (valid_nodup V) S E); split=> //.
have F : map fst [seq (t, spec_row m w Y P (of_time t)) | t <- time_values Y] = time_values Y by rewrite -map_comp map_id.
split; first by rewrite F; exact: np_unique_NoDup.
split=> [t|t row].
- rewrite F; split=> [/in_np_unique h|[r [h <-]]].
  + by have [r [e h']] := proj1 (List.in_map_iff _ _ _) h; exists r.
  + by apply/in_np_unique; apply: (List.in_map rtime).
- by move=> h; have [t' [[<- <-] _]] := proj1 (List.in_map_iff _ _ _) h.
Qed.

(** C57: per feature, over all samples. *)
Theorem C57_feature m w mo (Y P : frame) e :
  m <> rrmse -> ValidRows Y ->
  tsc_metric m feature id_scaling w mo Y P = Ok (PerFeature e) ->
  SameIndex Y P /\ e = [seq total m w (errors Y P everywhere j) | j <- enum 'I_f].
Proof.
move=> n V; rewrite /tsc_metric; case: ifP => // /negbFE /same_indexP S.
rewrite scale_id; cbn [fst snd]; case E: (per_feature m w Y P) => [e'|] //= -[<-].
by rewrite (per_feature_raw n (valid_nodup V) S E).
Qed.

(** C57: "uniform_average" gives the mean over the features. *)
Theorem C57_uniform m w (Y P : frame) T :
  plain m -> ValidRows Y ->
  tsc_metric m timeseries id_scaling w uniform Y P = Ok (Labelled T) ->
  forall i row, List.In (i, row) T ->
    row = [:: (\sum_(j < f) total m w (errors Y P (of_series i) j)) / f%:R].
Proof.
move=> n V; rewrite /tsc_metric; case: ifP => // /negbFE /same_indexP S.
rewrite scale_id; cbn [fst snd]; case E: (per_timeseries m w uniform Y P) => [T'|] //= -[<-] i row.
rewrite (per_timeseries_uniform n (valid_nodup V) S E) => h.
have [i' [[<- <-] _]] := proj1 (List.in_map_iff _ _ _) h.
by rewrite /mean size_spec_row big_map big_enum.
Qed.

(** C57: the metric is defined exactly if the index of the prediction is that of the data;
    otherwise a ValueError is raised. *)
Theorem C57_defined m md s mo (Y P : frame) :
  plain m -> mo = uniform \/ mo = raw ->
  (SameIndex Y P -> exists o, tsc_metric m md s None mo Y P = Ok o) /\
  (~ SameIndex Y P -> tsc_metric m md s None mo Y P = Err ValueError).
Proof.
move=> pm H; split=> [S|S]; first exact: tsc_metric_ok.
by rewrite /tsc_metric; case: same_indexP.
Qed.

(** C57: all entries are zero exactly for the perfect prediction. *)
Theorem C57_exact m (Y P : frame) T :
  m <> rrmse -> ValidRows Y ->
  tsc_metric m timeseries id_scaling None raw Y P = Ok (Labelled T) ->
  (forall i row, List.In (i, row) T -> {in row, forall x, x = 0}) <-> Y = P.
Proof.
move=> n V H; have [S [_ [D E]]] := C57_timeseries n V H.
have [C1 C2] := ids_cover Y.
rewrite -(cover_exact m (valid_nodup V) S C1 C2); split=> [Z i hi j|Z i row h].
- have : List.In i (map fst T).
    by apply/D; have [r hr /Z.eqb_eq e] := C1 i hi; exists r.
  move=> h; have [[i' row] [/= e hr]] := proj1 (List.in_map_iff _ _ _) h; subst i'.
  by apply: (Z i row hr); rewrite (E _ _ hr); apply/mapP; exists j; rewrite ?mem_enum.
- rewrite (E _ _ h) => x /mapP[j _ ->]; apply: Z.
  have : List.In i (map fst T) by apply: (List.in_map fst _ (i, row)).
  by move=> /D [r [hr <-]]; apply/in_np_unique; apply: (List.in_map rid).
Qed.

(** C57: the score of an error metric is never positive, and zero exactly for the perfect
    prediction, in all modes. *)
Theorem C57_score m md (Y P : frame) x :
  plain m -> (0 < f)%N -> ValidRows Y ->
  score m md id_scaling None uniform false None Y P = Ok x ->
  x <= 0 /\ (x = 0 <-> Y = P).
Proof. by move=> pm f0 V H; have [_ ?] := score_sign pm f0 V H. Qed.

(** C58: "min-max" divides the errors of each feature by the range of the true values, and
    "standard" by their standard deviation (by one if that is zero). *)
Theorem C58_min_max m w (Y P : frame) T (d : 'I_f -> R) :
  m <> rrmse -> ValidRows Y -> (forall j, IsRange (feature_values Y j) (d j)) ->
  tsc_metric m timeseries min_max w raw Y P = Ok (Labelled T) ->
  forall i row, List.In (i, row) T ->
    row = [seq total m w [seq e / (if d j == 0 then 1 else d j) | e <- errors Y P (of_series i) j] | j <- enum 'I_f].
Proof.
move=> n V D; apply: (affine_table n V) => j v.
rewrite /scaler mxE column_values.
have N : feature_values Y j <> [::] by have := vr_nonempty _ V; case: (Y).
by rewrite -(range_unique (D j) (range_of N)).
Qed.

Theorem C58_standard m w (Y P : frame) T (d : 'I_f -> R) :
  m <> rrmse -> ValidRows Y -> (forall j, IsStd (feature_values Y j) (d j)) ->
  tsc_metric m timeseries standard w raw Y P = Ok (Labelled T) ->
  forall i row, List.In (i, row) T ->
    row = [seq total m w [seq e / (if d j == 0 then 1 else d j) | e <- errors Y P (of_series i) j] | j <- enum 'I_f].
Proof.
move=> n V D; apply: (affine_table n V) => j v.
rewrite /scaler mxE column_values.
have N : feature_values Y j <> [::] by have := vr_nonempty _ V; case: (Y).
by rewrite -(std_unique N (D j) (std_of N)).
Qed.

(** C58: "l2_normalize" divides every sample (not every feature, as documented) of the data and
    of the prediction by its own norm: with this scaling no metric can tell a prediction that is
    wrong by a constant positive factor from the perfect prediction. *)
Theorem C58_l2_normalize_refuted m md w mo (Y : frame) (c : R) :
  0 < c ->
  tsc_metric m md l2_normalize w mo Y (times c Y) = tsc_metric m md l2_normalize w mo Y Y.
Proof.
move=> c0; rewrite /tsc_metric scale_times //.
by case: same_indexP => [_|/(_ (times_index c Y))] //; case: same_indexP => // /(_ erefl).
Qed.

(** C58: the relative root mean squared error is the documented one divided by the square root
    of the number of samples. *)
Theorem C58_rrmse_refuted mo (Y P : frame) e :
  ValidRows Y ->
  tsc_metric rrmse feature id_scaling None mo Y P = Ok (PerFeature e) ->
  e = [seq relative_error (errors Y P everywhere j) (feature_values Y j) / Num.sqrt (size Y)%:R | j <- enum 'I_f].
Proof.
move=> V; rewrite /tsc_metric; case: ifP => // /negbFE /same_indexP S.
rewrite scale_id; cbn [fst snd]; case E: (per_feature rrmse None Y P) => [e'|] //= -[<-].
exact: rrmse_feature.
Qed.

(** C58: weights for the features (an array as [multioutput]) are documented for all metrics,
    but "l2" and "linf" raise a ValueError for two or more features. *)
Theorem C58_user_weights_refuted m s u (Y P : frame) :
  m = l2 \/ m = linf -> (1 < f)%N -> ValidRows Y ->
  tsc_metric m timeseries s None (user_weights u) Y P = Err ValueError.
Proof.
move=> H f1 V; rewrite /tsc_metric; case: ifP => // _; rewrite /per_timeseries.
rewrite (@bad_table R f m u (scale s Y P).1 (scale s Y P).2 (fun i r => Z.eqb (rid r) i)) //.
rewrite ids_map_frame; have := vr_nonempty _ V; case: (Y) => // a l _.
by have := (ids_cover (a :: l)).2 a (or_introl erefl) => -[i]; case: (ids _).
Qed.

(** C58: "max" works for one feature only. *)
Theorem C58_max_refuted md s mo (Y P : frame) w o :
  (1 < f)%N -> ValidRows Y -> tsc_metric max_error md s w mo Y P <> Ok o.
Proof.
move=> f1 V; rewrite /tsc_metric; case: ifP => // _.
have nf : (f == 1%N) = false by apply/negbTE/eqP => h; rewrite h in f1.
have NI : exists i l, ids (scale s Y P).1 = i :: l.
  rewrite ids_map_frame; have := vr_nonempty _ V; case: (Y) => // a l _.
  have := (ids_cover (a :: l)).2 a (or_introl erefl) => -[i]; case: (ids _) => // i' l' _ _; by exists i', l'.
have NT : exists i l, time_values (scale s Y P).1 = i :: l.
  rewrite times_map_frame; have := vr_nonempty _ V; case: (Y) => // a l _.
  have := (times_cover (a :: l)).2 a (or_introl erefl) => -[i]; case: (time_values _) => // i' l' _ _; by exists i', l'.
case: md.
- rewrite /per_timeseries; have [i [l ->]] := NI; rewrite /= nf /=.
  by case: w => // ws; case: ifP => // _; case: n_timesteps => // k; case: ifP.
- rewrite /per_timestep; have [i [l ->]] := NT; rewrite /= nf /=.
  by case: w => // ws; case: ifP => // _; case: ifP.
- rewrite /per_feature /= nf /=; by case: w => // ws; case: ifP.
Qed.

End Props.

(** The hypotheses are met: two series stored with descending IDs, a prediction that is wrong at
    one sample of series 3. *)
Section Example.
Variable R : rcfType.
Definition ex_row (i t : Z) (a b : R) : row 'rV[R]_2 := mkRow i t (\row_j (if j == ord0 then a else b)).
Definition ex_Y : list (row 'rV[R]_2) :=
  [:: ex_row 3 0 1 2%:R; ex_row 3 1 0 1; ex_row 1 0 5%:R 1].
Definition ex_P : list (row 'rV[R]_2) :=
  [:: ex_row 3 0 1 2%:R; ex_row 3 1 0 5%:R; ex_row 1 0 5%:R 1].


Lemma ex_valid : ValidRows ex_Y.
Proof. by have /tsc_ok [] : tsc ex_Y = Ok ex_Y by []. Qed.

Lemma enum2 : enum 'I_2 = [:: ord0; lift ord0 ord0].
Proof. by rewrite enum_ordS enum_ordS /= (size0nil (size_enum_ord 0)). Qed.

Example C57_example :
  ValidRows ex_Y /\ ex_Y <> ex_P /\
  tsc_metric mae timeseries id_scaling None (raw_values R 2) ex_Y ex_P
  = Ok (Labelled [:: (Zpos 1, [:: 0; 0]); (Zpos 3, [:: 0; 2%:R])]).
Proof.
split; first exact: ex_valid.
have E : tsc_metric mae timeseries id_scaling None (raw_values R 2) ex_Y ex_P
  = Ok (Labelled [:: (Zpos 1, [:: 0; 0]); (Zpos 3, [:: 0; 2%:R])]).
  rewrite /tsc_metric scale_id /= /per_timeseries /= /column_errors enum2 /= !mxE /=.
  rewrite !big_cons !big_nil !subrr normr0 !addr0 !add0r !mul0r.
  have -> : `|1 - 5%:R| / 2%:R = 2%:R :> R.
    rewrite distrC -(natrB _ (isT : (1 <= 5)%N)) normr_nat (_ : (5 - 1)%N = (2 * 2)%N) // natrM mulfK //.
    by rewrite pnatr_eq0.
  by [].
split=> // H; have nm : mae <> rrmse by []. have [_] := C57_exact nm ex_valid E.
move=> /(_ H (Zpos 3) [:: 0; 2%:R]) => /(_ (or_intror (or_introl erefl)) 2%:R).
by rewrite !inE eqxx orbT => /(_ isT) /eqP; rewrite pnatr_eq0.
Qed.


Example C58_example :
  IsRange (feature_values ex_Y ord0) 5%:R /\ times 2%:R ex_Y <> ex_Y /\
  exists T, tsc_metric mae timeseries min_max None (raw_values R 2) ex_Y ex_P = Ok (Labelled T).
Proof.
split; last split.
- exists 0, 5%:R; rewrite /feature_values /= /feat !mxE /= subr0; split=> //; rewrite ?inE ?eqxx ?orbT //.
  by move=> x; rewrite !inE => /or3P[] /eqP ->; rewrite ?lexx ?ler0n ?ler01 ?ler1n.
- move=> [/rowP /(_ ord0)]; rewrite !mxE /= mulr1 => /eqP.
  by rewrite -subr_eq0 -[X in _ - X]/(1%:R) -natrB // pnatr_eq0.
- have pm : plain mae by [].
  have [H _] := C57_defined timeseries min_max ex_Y ex_P pm (or_intror erefl).
  have S : SameIndex ex_Y ex_P by [].
  have [o E] := H S; move: E; rewrite /tsc_metric; have /same_indexP -> := S.
  cbn [negb]; case E: (per_timeseries mae None (raw_values R 2) _ _) => [T|] // _; by exists T.
Qed.
End Example.

Print Assumptions C57_timeseries.
Print Assumptions C57_timestep.
Print Assumptions C57_feature.
Print Assumptions C57_uniform.
Print Assumptions C57_defined.
Print Assumptions C57_exact.
Print Assumptions C57_score.
Print Assumptions C58_min_max.
Print Assumptions C58_standard.
Print Assumptions C58_l2_normalize_refuted.
Print Assumptions C58_rrmse_refuted.
Print Assumptions C58_user_weights_refuted.
Print Assumptions C58_max_refuted.
Print Assumptions C57_example.
Print Assumptions C58_example.
