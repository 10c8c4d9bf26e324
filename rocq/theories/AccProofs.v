(** * Proofs about further accessor functions. *)

From Coq Require Import List ZArith Bool Arith Lia Sorted.
Import ListNotations.
From Coq Require Import ZifyBool ZifyNat.
From Verif Require Import Np NpFacts TscModel TscSpec TscBlocks TscProofs TscOps TscDt TscRegular DerList AsgLoop AccModel AccSpec.
Open Scope Z_scope.

Lemma list_min_is (l : list Z) m : In m l -> (forall x, In x l -> m <= x) -> list_min l = m.
Proof.
  intros Hm Hl. destruct l as [|x l]; [destruct Hm|]. unfold list_min.
  assert (H1 := list_min_in x l). assert (H2 := list_min_le l x m Hm). specialize (Hl _ H1). lia.
Qed.

Lemma sorted_by_nth (l : list Z) : (forall a b, (a < b < length l)%nat -> nth a l 0 < nth b l 0) -> StronglySorted Z.lt l.
Proof.
  induction l as [|x l IH]; intros H; [constructor|]. constructor.
  - apply IH. intros a b Hab. apply (H (S a) (S b)). cbn. lia.
  - apply Forall_forall. intros y Hy. apply (In_nth _ _ 0) in Hy. destruct Hy as (n & Hn & <-).
    apply (H 0%nat (S n)). cbn. lia.
Qed.

Section Time.
Context {V : Type}.
Notation frame := (list (row V)).
Notation series := (list (Z * V)).
Notation block := (Z * list (Z * V))%type.

(** a small sampling interval determines all of them *)
Lemma delta_time_small (F : frame) d : ValidRows F -> 0 <= d < 100000000000 ->
  delta_time KInt F = Ok (DtScalar (Some d)) -> forall i, Occurs F i -> Regular F i d.
Proof.
  intros HV Hd. destruct (valid_blocks F HV) as (bs & -> & W). clear HV.
  destruct (dt_table_total bs W) as (t & Ht).
  destruct (dt_table_values bs t W Ht) as (Hfst & Hlen & Hvals).
  unfold delta_time. rewrite Ht. rewrite n_timeseries_blocks by exact W.
  assert (Hhd : exists b, In b bs /\ hd None (map snd t) = bdt b).
  { apply Hvals. destruct t as [|x t]; [|left; reflexivity].
    simpl in Hlen. destruct bs; [destruct (wf_ne _ W eq_refl)|discriminate]. }
  destruct Hhd as (b0 & Hb0 & Ehd). rewrite Ehd.
  intros H i Hi. apply (occurs_block bs i W) in Hi. destruct Hi as (b & Hb & <-).
  destruct ((length bs =? 1)%nat || is_global_unique KInt (map snd t)) eqn:Eg; [|discriminate].
  injection H as H. apply (exact_regular bs b d W Hb). change (bdt b = Some d).
  apply orb_true_iff in Eg. destruct Eg as [E1|Eg].
  - apply Nat.eqb_eq in E1. destruct bs as [|c [|? ?]]; simpl in E1; try lia.
    destruct Hb0 as [<-|[]], Hb as [<-|[]]. exact H.
  - unfold is_global_unique in Eg. destruct (forallb is_none (map snd t)) eqn:En.
    + rewrite forallb_forall in En. assert (Hin : In (bdt b0) (map snd t)) by (apply Hvals; eauto).
      specialize (En _ Hin). rewrite H in En. discriminate.
    + rewrite forallb_forall in Eg.
      assert (Hm : list_min (get_some (map snd t)) = d).
      { assert (Hin : In (bdt b0) (map snd t)) by (apply Hvals; eauto). specialize (Eg _ Hin). rewrite H in Eg.
        apply close_small; [lia|exact Eg]. }
      assert (Hin : In (bdt b) (map snd t)) by (apply Hvals; eauto). specialize (Eg _ Hin). rewrite Hm in Eg.
      destruct (bdt b) as [x|]; [|discriminate]. f_equal. unfold close in Eg. apply Z.leb_le in Eg. lia.
Qed.

Lemma first_time_earliest (F : frame) t : Earliest F t <-> F <> [] /\ first_time F = t.
Proof.
  assert (Hin : forall x, In x (time_values F) <-> exists r, In r F /\ rtime r = x).
  { intros x. unfold time_values. rewrite in_np_unique. unfold time_index. rewrite in_map_iff.
    split; intros (r & H1 & H2); eauto. }
  split.
  - intros ((r & Hr & <-) & Hle). split; [intros ->; destruct Hr|]. unfold first_time.
    apply list_min_is; [apply Hin; eauto|]. intros x Hx. apply Hin in Hx. destruct Hx as (q & Hq & <-). auto.
  - intros [Hne <-]. unfold first_time.
    assert (Hv : time_values F <> []).
    { destruct F as [|r F]; [congruence|]. intros E. assert (H : In (rtime r) (time_values (r :: F))) by (apply Hin; exists r; split; [left; reflexivity|reflexivity]).
      rewrite E in H. destruct H. }
    destruct (time_values F) as [|x l] eqn:E; [congruence|]. split.
    + apply Hin. unfold list_min. apply list_min_in.
    + intros r Hr. unfold list_min. apply list_min_le. apply Hin. eauto.
Qed.

(** times with constant differences, scaled *)
Lemma scale_step m d x : 0 < d -> m <= x -> Z.quot (x + d - m) d = Z.quot (x - m) d + 1.
Proof.
  intros Hd Hx. rewrite !Z.quot_div_nonneg by lia. replace (x + d - m) with (x - m + 1 * d) by lia.
  rewrite Z.div_add by lia. reflexivity.
Qed.

Definition scaled (m d : Z) (s : series) : series := map (fun p => (Z.quot (fst p - m) d, snd p)) s.

Lemma scaled_diff m d (s : series) : 0 < d -> (forall p, In p s -> m <= fst p) ->
  (forall y, In y (np_diff (map fst s)) -> y = d) -> forall y, In y (np_diff (map fst (scaled m d s))) -> y = 1.
Proof.
  intros Hd. induction s as [|p [|q s] IH]; intros Hm H y Hy; [destruct Hy|destruct Hy|].
  cbn [scaled map np_diff fst snd] in *. destruct Hy as [<-|Hy].
  - assert (E : fst q - fst p = d) by (apply H; left; reflexivity).
    replace (fst q) with (fst p + d) by lia. rewrite scale_step; [cbn [fst snd]; lia|exact Hd|apply Hm; left; reflexivity].
  - apply IH; [intros; apply Hm; right; assumption|intros; apply H; right; assumption|exact Hy].
Qed.

Lemma diff_sorted (l : list Z) : (forall y, In y (np_diff l) -> 0 < y) -> StronglySorted Z.lt l.
Proof.
  induction l as [|x [|y l] IH]; intros H; [constructor|repeat constructor|].
  assert (Hs : StronglySorted Z.lt (y :: l)) by (apply IH; intros z Hz; apply H; right; exact Hz).
  assert (Hxy : 0 < y - x) by (apply H; left; reflexivity).
  constructor; [exact Hs|]. inversion Hs as [|? ? _ Hf]; subst.
  constructor; [lia|]. rewrite Forall_forall in *. intros z Hz. specialize (Hf z Hz). lia.
Qed.

Lemma regular_step_pos (F : frame) i d : ValidRows F -> Occurs F i -> Regular F i d -> 0 < d.
Proof.
  intros HV Hi [H1 H2]. destruct (valid_blocks F HV) as (bs & -> & W). apply (occurs_block bs i W) in Hi.
  destruct Hi as (b & Hb & <-). rewrite (rows_of_flatten bs b (wf_nodup _ W) Hb), brows_length in H1.
  assert (H : In (nth 0 (np_diff (map fst (snd b))) 0) (np_diff (map fst (snd b)))).
  { apply nth_In. rewrite np_diff_length, map_length. lia. }
  apply (next_block bs b) in H; [|apply (wf_nodup _ W)|exact Hb]. destruct H as (a & c & Hn & Ha & Hc & _).
  specialize (H2 a c Hn Ha Hc). destruct Hn as (l & r & E).
  assert (rtime a < rtime c); [|lia]. apply (vr_inc _ HV); [exists l, [], r; exact E|congruence].
Qed.

Lemma normalize_blocks m d (bs : list block) :
  map (fun r => mkRow (rid r) (Z.quot (rtime r - m) d) (rval r)) (flatten bs)
  = flatten (map (fun b => (fst b, scaled m d (snd b))) bs).
Proof.
  induction bs as [|b bs IH]; [reflexivity|]. rewrite flatten_cons, map_app, IH. cbn [map].
  rewrite flatten_cons. f_equal. unfold brows, series_rows, scaled. cbn [fst snd]. rewrite !map_map. reflexivity.
Qed.

Lemma map_same (g : Z -> Z) (F : frame) : SameUpToTime F (map (fun r => mkRow (rid r) (g (rtime r)) (rval r)) F).
Proof. induction F as [|r F IH]; constructor; auto. Qed.

Lemma normalize_ok k (F : frame) d : ValidRows F -> (forall i, Occurs F i -> Regular F i d) ->
  let G := map (fun r => mkRow (rid r) (Z.quot (rtime r - first_time F) d) (rval r)) F in
  0 < d /\ normalize_time k F = Ok G /\ ValidRows G /\ Normalized G.
Proof.
  intros HV HR G.
  destruct (proj2 (first_time_earliest F (first_time F)) (conj (vr_nonempty _ HV) eq_refl)) as [(r0 & Hr0 & Et0) Hmin].
  assert (Hd : 0 < d) by (apply (regular_step_pos F (rid r0)); [exact HV|exists r0; auto|apply HR; exists r0; auto]).
  set (m := first_time F) in *.
  destruct (valid_blocks F HV) as (bs & EF & W).
  assert (HbR : forall b, In b bs -> const_list (np_diff (map fst (snd b))) d).
  { intros b Hb. apply row_dt_exact_some. apply (exact_regular bs b d W Hb). rewrite <- EF. apply HR.
    rewrite EF. apply (occurs_block bs _ W). eauto. }
  assert (Hbm : forall b p, In b bs -> In p (snd b) -> m <= fst p).
  { intros b p Hb Hp. apply (Hmin (mkRow (fst b) (fst p) (snd p))). rewrite EF. apply in_flatten. exists b, p. auto. }
  assert (HS : forall b, In b bs -> forall y, In y (np_diff (map fst (scaled m d (snd b)))) -> y = 1).
  { intros b Hb. apply scaled_diff; [exact Hd|intros; apply (Hbm b); auto|apply (HbR b Hb)]. }
  pose (bs' := map (fun b => (fst b, scaled m d (snd b))) bs).
  assert (EG : G = flatten bs') by (unfold G, bs'; rewrite EF; apply normalize_blocks).
  assert (W' : wfb bs').
  { split.
    - intros E. apply map_eq_nil in E. apply (wf_ne _ W E).
    - unfold bs'. rewrite map_map. cbn. apply (wf_nodup _ W).
    - intros c Hc. apply in_map_iff in Hc. destruct Hc as (b & <- & Hb). cbn [fst snd].
      destruct (wf_blocks _ W b Hb) as (H1 & H2 & H3 & H4). split; [intros E; apply map_eq_nil in E; congruence|].
      split; [exact H2|]. split.
      + intros p Hp. apply in_map_iff in Hp. destruct Hp as (q & <- & Hq). cbn [fst].
        apply Z.quot_pos; [specialize (Hbm b q Hb Hq); lia|lia].
      + apply diff_sorted. intros y Hy. rewrite (HS b Hb y Hy). lia. }
  assert (HVG : ValidRows G) by (rewrite EG; apply wfb_valid, W').
  assert (HRG : forall i, Occurs G i -> Regular G i 1).
  { intros i Hi. rewrite EG in *. apply (occurs_block bs' i W') in Hi. destruct Hi as (c & Hc & <-).
    apply (exact_regular bs' c 1 W' Hc). apply in_map_iff in Hc. destruct Hc as (b & <- & Hb). cbn [snd].
    apply row_dt_exact_some. split; [|apply (HS b Hb)].
    destruct (HbR b Hb) as [Hne _]. intros E. apply Hne. apply length_zero_iff_nil. apply (f_equal (@length _)) in E.
    rewrite np_diff_length, map_length in *. unfold scaled in E. rewrite map_length in E. exact E. }
  assert (HE : Earliest G 0).
  { split.
    - exists (mkRow (rid r0) (Z.quot (rtime r0 - m) d) (rval r0)). split; [apply in_map_iff; exists r0; auto|].
      cbn. rewrite Et0, Z.sub_diag. apply Z.quot_0_l. lia.
    - intros r Hr. apply (vr_times _ HVG r Hr). }
  split; [exact Hd|]. split; [|split; [exact HVG|split; assumption]].
  unfold normalize_time. rewrite (delta_time_regular k F d HV HR). fold m.
  change (map _ F) with G. rewrite (proj2 (tsc_ok G G)); [|split; [exact HVG|reflexivity]].
  unfold is_normalized_time. rewrite (delta_time_regular KInt G 1 HVG HRG).
  apply first_time_earliest in HE. destruct HE as [_ ->]. reflexivity.
Qed.

Lemma normalize_sound k (F G : frame) : normalize_time k F = Ok G ->
  ValidRows G /\ SameUpToTime F G /\ Normalized G.
Proof.
  unfold normalize_time. destruct (delta_time k F) as [[[d|]|l]|e]; try discriminate.
  destruct (tsc _) as [G'|] eqn:E; [|discriminate]. apply tsc_ok in E. destruct E as [HV ->].
  unfold is_normalized_time. destruct (delta_time KInt _) as [[[d'|]|l]|e] eqn:Ed; try discriminate.
  destruct ((first_time _ =? 0) && (d' =? 1)) eqn:Eb; [|discriminate]. intros E. injection E as <-.
  apply andb_true_iff in Eb. destruct Eb as [E0 E1]. apply Z.eqb_eq in E0, E1. subst d'.
  split; [exact HV|]. split; [apply (map_same (fun t => Z.quot (t - first_time F) d))|]. split.
  - apply first_time_earliest. split; [apply (vr_nonempty _ HV)|exact E0].
  - apply delta_time_small; [exact HV|lia|exact Ed].
Qed.

(** ** filling up *)

Lemma only_block (F : frame) i : ValidRows F -> OnlySeries F i -> F = series_rows i (TscModel.series F i).
Proof.
  intros HV HO. rewrite <- rows_of_series. symmetry. apply filter_all_true. intros r Hr. rewrite (HO r Hr). apply Z.eqb_refl.
Qed.

Lemma combine_repeat_times n d first (v : V) : combine (map (fun j => first + Z.of_nat j * d) (seq 0 n)) (repeat v n)
  = map (fun j => (first + Z.of_nat j * d, v)) (seq 0 n).
Proof.
  generalize 0%nat. induction n as [|n IH]; intros a; [reflexivity|]. cbn [seq map repeat combine]. rewrite IH. reflexivity.
Qed.

Lemma arith_nth n d first j : (j < n)%nat -> nth j (map (fun j => first + Z.of_nat j * d) (seq 0 n)) 0 = first + Z.of_nat j * d.
Proof.
  intros H. rewrite (nth_indep _ 0 (first + Z.of_nat 0 * d)) by (rewrite map_length, seq_length; exact H).
  rewrite (map_nth (fun j => first + Z.of_nat j * d) (seq 0 n) 0%nat j), seq_nth by exact H. reflexivity.
Qed.

Lemma fill_good n d first (v : V) : (0 < n)%nat -> 0 < d -> 0 <= first ->
  GoodSeries (map (fun j => (first + Z.of_nat j * d, v)) (seq 0 n)).
Proof.
  intros Hn Hd Hf. split; [destruct n; [lia|discriminate]|]. split.
  - intros p Hp. apply in_map_iff in Hp. destruct Hp as (j & <- & _). cbn. nia.
  - rewrite map_map. cbn [fst]. apply sorted_by_nth. intros a b Hab. rewrite map_length, seq_length in Hab.
    rewrite !arith_nth by lia. nia.
Qed.

(** the last row of a series *)
Lemma snoc_cases (F : frame) : F <> [] -> exists F' r, F = F' ++ [r].
Proof. intros H. destruct (exists_last H) as (F' & r & E). eauto. Qed.

Lemma last_time_values (F' : frame) r : ValidRows (F' ++ [r]) -> OnlySeries (F' ++ [r]) (rid r) ->
  last (time_values (F' ++ [r])) 0 = rtime r.
Proof.
  intros HV HO. unfold time_values. rewrite np_unique_of_sorted.
  - unfold time_index. rewrite map_app. cbn. apply last_last.
  - assert (E := only_block _ _ HV HO). assert (Hs := series_good _ (rid r) HV ltac:(exists r; split; [apply in_or_app; right; left; reflexivity|reflexivity])).
    rewrite E. unfold time_index, series_rows. rewrite map_map. apply Hs.
Qed.

Lemma only_counts (F : frame) i : ValidRows F -> OnlySeries F i ->
  n_timeseries F = 1%nat /\ n_timesteps F = NInt (length F).
Proof.
  intros HV HO. assert (E := only_block F i HV HO).
  assert (Hi : Occurs F i).
  { destruct F as [|r F]; [destruct (vr_nonempty _ HV eq_refl)|]. exists r. split; [left; reflexivity|apply HO; left; reflexivity]. }
  assert (H0 : 0 <= i) by (destruct Hi as (r & Hr & <-); apply (vr_ids _ HV r Hr)).
  assert (W := single_wfb i _ H0 (series_good F i HV Hi)).
  set (s := TscModel.series F i) in *. rewrite <- series_rows_flatten in E. rewrite E. split.
  - apply (n_timeseries_blocks _ W).
  - apply (n_timesteps_blocks _ _ W). intros b [<-|[]]. cbn [snd]. rewrite series_rows_flatten. unfold series_rows. rewrite map_length. reflexivity.
Qed.

Definition attached (F' : frame) (r : row V) (d : Z) (n : nat) : frame :=
  series_rows 0 (map (fun j => (rtime r + d + Z.of_nat j * d, rval r)) (seq 0 (n - length (F' ++ [r])))).

Lemma fill_reduce k n (F' : frame) r d : ValidRows (F' ++ [r]) -> OnlySeries (F' ++ [r]) (rid r) -> Regular (F' ++ [r]) (rid r) d ->
  (length (F' ++ [r]) < n)%nat -> k <> KDatetime -> 0 < d /\
  fill_timeseries_with_last_state k n (F' ++ [r]) = tsc ((F' ++ [r]) ++ attached F' r d n).
Proof.
  intros HV HO HR Hn Hk. destruct (only_counts _ _ HV HO) as [E1 E2].
  assert (Hi : Occurs (F' ++ [r]) (rid r)) by (exists r; split; [apply in_or_app; right; left; reflexivity|reflexivity]).
  assert (Hd := regular_step_pos _ _ _ HV Hi HR). split; [exact Hd|].
  unfold fill_timeseries_with_last_state. rewrite E1, E2. cbn [negb Nat.eqb nsteps_values existsb].
  destruct (Nat.leb_spec n (length (F' ++ [r]))) as [H|_]; [lia|]. cbn [orb].
  unfold check_const_time_delta. rewrite (delta_time_regular k _ d HV).
  2:{ intros i (q & Hq & <-). rewrite (HO q Hq). exact HR. }
  rewrite last_time_values by assumption. rewrite rev_app_distr. cbn [rev app]. rewrite combine_repeat_times.
  fold (attached F' r d n).
  assert (Ht : 0 <= rtime r) by (apply (vr_times _ HV); apply in_or_app; right; left; reflexivity).
  assert (HA : ValidRows (attached F' r d n)).
  { apply series_rows_valid; [lia|]. apply fill_good; lia. }
  rewrite (proj2 (tsc_ok (attached F' r d n) (attached F' r d n))); [|split; [exact HA|reflexivity]].
  destruct k; [reflexivity|reflexivity|congruence].
Qed.

Definition filled (t d : Z) (v : V) (n : nat) : series := map (fun j => (t + d + Z.of_nat j * d, v)) (seq 0 n).

Lemma diff_arith x c d n : forall a, c + Z.of_nat a * d = x + d ->
  forall y, In y (np_diff (x :: map (fun j => c + Z.of_nat j * d) (seq a n))) -> y = d.
Proof.
  revert x. induction n as [|n IH]; intros x a E y Hy; [destruct Hy|]. cbn [seq map] in Hy.
  remember (c + Z.of_nat a * d) as z eqn:Ez. cbn [np_diff combine] in Hy.
  assert (Hd : np_diff (x :: z :: map (fun j => c + Z.of_nat j * d) (seq (S a) n)) =
               (z - x) :: np_diff (z :: map (fun j => c + Z.of_nat j * d) (seq (S a) n))) by reflexivity.
  change (In y (np_diff (x :: z :: map (fun j => c + Z.of_nat j * d) (seq (S a) n)))) in Hy. rewrite Hd in Hy.
  destruct Hy as [<-|Hy]; [lia|]. apply (IH z (S a)); [|exact Hy]. rewrite Nat2Z.inj_succ. lia.
Qed.

Lemma diff_glue d t (l l' : list Z) : (forall y, In y (np_diff (l ++ [t])) -> y = d) ->
  (forall y, In y (np_diff (t :: l')) -> y = d) -> forall y, In y (np_diff (l ++ t :: l')) -> y = d.
Proof.
  intros H1 H2. induction l as [|a l IH]; [exact H2|].
  assert (H1' : forall y, In y (np_diff (l ++ [t])) -> y = d).
  { intros y Hy. apply H1. destruct l as [|b l]; [destruct Hy|]. right. exact Hy. }
  specialize (IH H1'). intros y Hy. destruct l as [|b l].
  - destruct Hy as [<-|Hy]; [apply H1; left; reflexivity|apply H2; exact Hy].
  - destruct Hy as [<-|Hy]; [apply H1; left; reflexivity|apply IH; exact Hy].
Qed.

Lemma filled_good (s : series) i t d (v : V) n (F' : frame) r : ValidRows (F' ++ [r]) -> OnlySeries (F' ++ [r]) i -> Regular (F' ++ [r]) i d ->
  s = TscModel.series (F' ++ [r]) i -> t = rtime r -> 0 < d ->
  GoodSeries (s ++ filled t d v n) /\ row_dt_exact (np_diff (map fst (s ++ filled t d v n))) = Some d.
Proof.
  intros HV HO HR Es Et Hd.
  assert (Ei : rid r = i) by (apply HO; apply in_or_app; right; left; reflexivity).
  assert (Hi : Occurs (F' ++ [r]) i) by (exists r; split; [apply in_or_app; right; left; reflexivity|exact Ei]).
  assert (H0 : 0 <= i) by (destruct Hi as (q & Hq & <-); apply (vr_ids _ HV q Hq)).
  assert (Hs := series_good _ i HV Hi).
  assert (EF := only_block _ _ HV HO). rewrite <- Es in *.
  assert (Hc : const_list (np_diff (map fst s)) d).
  { apply row_dt_exact_some. apply (exact_regular [(i, s)] (i, s) d (single_wfb i s H0 Hs)); [left; reflexivity|].
    rewrite series_rows_flatten, <- EF. exact HR. }
  assert (Em : map fst s = map rtime F' ++ [t]).
  { assert (E : time_index (F' ++ [r]) = map fst s) by (rewrite EF at 1; unfold time_index, series_rows; rewrite map_map; reflexivity).
    rewrite <- E. unfold time_index. rewrite map_app, Et. reflexivity. }
  assert (Ef : map fst (filled t d v n) = map (fun j => t + d + Z.of_nat j * d) (seq 0 n)) by (unfold filled; rewrite map_map; reflexivity).
  assert (HA : forall y, In y (np_diff (map fst (s ++ filled t d v n))) -> y = d).
  { rewrite map_app, Em, Ef, <- app_assoc. cbn [app]. apply diff_glue; [rewrite <- Em; apply Hc|]. apply diff_arith. lia. }
  split.
  - split; [destruct Hs as [Hs _]; intros E; apply app_eq_nil in E; tauto|]. split.
    + intros p Hp. apply in_app_or in Hp. destruct Hp as [Hp|Hp]; [apply Hs; exact Hp|].
      unfold filled in Hp. apply in_map_iff in Hp. destruct Hp as (j & <- & _). cbn [fst].
      assert (0 <= t) by (rewrite Et; apply (vr_times _ HV); apply in_or_app; right; left; reflexivity). nia.
    + apply diff_sorted. intros y Hy. rewrite (HA y Hy). exact Hd.
  - apply row_dt_exact_some. split; [|exact HA]. destruct Hc as [Hne _]. intros E. apply Hne.
    apply length_zero_iff_nil. apply (f_equal (@length _)) in E. rewrite np_diff_length, map_length in *. rewrite app_length in E. cbn in E. lia.
Qed.

Lemma fill_zero k n (F' : frame) r d : ValidRows (F' ++ [r]) -> OnlySeries (F' ++ [r]) 0 -> Regular (F' ++ [r]) 0 d ->
  (length (F' ++ [r]) < n)%nat -> k <> KDatetime ->
  let G := (F' ++ [r]) ++ attached F' r d n in
  fill_timeseries_with_last_state k n (F' ++ [r]) = Ok G /\ ValidRows G /\ OnlySeries G 0 /\ Regular G 0 d.
Proof.
  intros HV HO HR Hn Hk G. assert (Ei : rid r = 0) by (apply HO; apply in_or_app; right; left; reflexivity).
  destruct (fill_reduce k n F' r d HV) as [Hd ->]; try (rewrite Ei; assumption); try assumption.
  destruct (filled_good _ 0 (rtime r) d (rval r) (n - length (F' ++ [r])) F' r HV HO HR eq_refl eq_refl Hd) as [Hg He].
  assert (EG : G = series_rows 0 (TscModel.series (F' ++ [r]) 0 ++ filled (rtime r) d (rval r) (n - length (F' ++ [r])))).
  { unfold G, attached, series_rows. rewrite map_app. f_equal. apply (only_block _ _ HV HO). }
  assert (HVG : ValidRows G) by (rewrite EG; apply series_rows_valid; [lia|exact Hg]).
  split; [apply tsc_ok; split; [exact HVG|reflexivity]|]. split; [exact HVG|]. split.
  - rewrite EG. intros q Hq. apply in_map_iff in Hq. destruct Hq as (p & <- & _). reflexivity.
  - rewrite EG, <- series_rows_flatten.
    remember (TscModel.series (F' ++ [r]) 0 ++ filled (rtime r) d (rval r) (n - length (F' ++ [r]))) as s eqn:Es.
    apply (exact_regular [(0, s)] (0, s) d (single_wfb 0 s (Z.le_refl 0) Hg)); [left; reflexivity|exact He].
Qed.

Lemma fill_other k n (F' : frame) r d : ValidRows (F' ++ [r]) -> OnlySeries (F' ++ [r]) (rid r) -> Regular (F' ++ [r]) (rid r) d ->
  (length (F' ++ [r]) < n)%nat -> k <> KDatetime -> rid r <> 0 ->
  let G := (F' ++ [r]) ++ attached F' r d n in
  fill_timeseries_with_last_state k n (F' ++ [r]) = Ok G /\ rows_of G (rid r) = F' ++ [r] /\ Occurs G 0.
Proof.
  intros HV HO HR Hn Hk H0 G. destruct (fill_reduce k n F' r d HV HO HR Hn Hk) as [Hd ->].
  assert (Hi : Occurs (F' ++ [r]) (rid r)) by (exists r; split; [apply in_or_app; right; left; reflexivity|reflexivity]).
  assert (Hi0 : 0 <= rid r) by (apply (vr_ids _ HV); apply in_or_app; right; left; reflexivity).
  assert (Ht : 0 <= rtime r) by (apply (vr_times _ HV); apply in_or_app; right; left; reflexivity).
  assert (Hs := series_good _ _ HV Hi). assert (EF := only_block _ _ HV HO).
  set (s := TscModel.series (F' ++ [r]) (rid r)) in *.
  assert (Hf := fill_good (n - length (F' ++ [r])) d (rtime r + d) (rval r) ltac:(lia) Hd ltac:(lia)).
  set (s' := map _ _) in Hf.
  assert (W : wfb [(rid r, s); (0, s')]).
  { split; [discriminate| |].
    - cbn. constructor; [intros [E|[]]; congruence|constructor; [intros []|constructor]].
    - intros b [<-|[<-|[]]]; cbn [fst snd]; [destruct Hs as (H1 & H2 & H3)|destruct Hf as (H1 & H2 & H3)]; repeat split; auto; lia. }
  assert (EG : G = flatten [(rid r, s); (0, s')]).
  { unfold G. rewrite !flatten_cons. unfold flatten. cbn [flat_map]. rewrite app_nil_r. f_equal. exact EF. }
  split; [apply tsc_ok; split; [fold G; rewrite EG; apply wfb_valid, W|reflexivity]|]. split.
  - rewrite EG. change (rid r) with (fst (rid r, s)) at 2. rewrite (rows_of_flatten _ _ (wf_nodup _ W)) by (left; reflexivity).
    symmetry. exact EF.
  - rewrite EG. apply (occurs_block _ 0 W). exists (0, s'). split; [right; left; reflexivity|reflexivity].
Qed.

End Time.

Section Augment.
Context {V W : Type}.
Notation frame := (list (row V)).

Lemma index_eqb_eq (a : list (Z * Z)) : forall b, index_eqb a b = true <-> a = b.
Proof.
  induction a as [|[x1 x2] a IH]; intros [|[y1 y2] b]; cbn; try (split; [discriminate|discriminate]); [tauto|].
  unfold pair_eqb. cbn. rewrite !andb_true_iff, IH. split.
  - intros [[H1 H2] ->]. f_equal. f_equal; lia.
  - intros E. injection E as -> -> ->. rewrite !Z.eqb_refl. auto.
Qed.

(** rows after a row with the same ID, with the ID before *)
Fixpoint following (p : Z) (X : frame) : frame :=
  match X with
  | [] => []
  | b :: X' => if rid b =? p then b :: following (rid b) X' else following (rid b) X'
  end.

Lemma select_first p (X : frame) : mask_select (map (fun d => d =? 0) (np_diff (p :: ids_index X))) X = following p X.
Proof.
  revert p. induction X as [|b X IH]; intros p; [reflexivity|].
  change (np_diff (p :: ids_index (b :: X))) with ((rid b - p) :: np_diff (rid b :: ids_index X)).
  cbn [map following]. unfold mask_select in *. cbn [combine filter fst snd map].
  replace (rid b - p =? 0) with (rid b =? p) by lia. destruct (rid b =? p); cbn [map snd]; rewrite IH; reflexivity.
Qed.

Fixpoint leading (X : frame) : frame :=
  match X with
  | a :: ((b :: _) as X') => if rid a =? rid b then a :: leading X' else leading X'
  | _ => []
  end.

Lemma select_last (X : frame) : mask_select (mask_all_except_last (ids_index X)) X = leading X.
Proof.
  induction X as [|a X IH]; [reflexivity|]. destruct X as [|b X]; [reflexivity|].
  unfold mask_all_except_last in *.
  change (np_diff (ids_index (a :: b :: X))) with ((rid b - rid a) :: np_diff (ids_index (b :: X))).
  cbn [map app]. unfold mask_select in *. cbn [combine filter fst snd map leading] in *.
  replace (rid b - rid a =? 0) with (rid a =? rid b) by lia. destruct (rid a =? rid b); cbn [map snd]; rewrite IH; reflexivity.
Qed.

Lemma leading_index (X : frame) : index (leading X) = index_but_last X.
Proof.
  induction X as [|a [|b X] IH]; [reflexivity|reflexivity|].
  change (leading (a :: b :: X)) with (if rid a =? rid b then a :: leading (b :: X) else leading (b :: X)).
  change (index_but_last (a :: b :: X)) with (if rid a =? rid b then (rid a, rtime a) :: index_but_last (b :: X) else index_but_last (b :: X)).
  destruct (rid a =? rid b); [|exact IH]. unfold index in *. cbn [map]. rewrite IH. reflexivity.
Qed.

(** both selections run in parallel *)
Inductive Parallel : frame -> frame -> frame -> Prop :=
| par_one : forall a, Parallel [a] [] []
| par_same : forall a b X l f, rid a = rid b -> Parallel (b :: X) l f -> Parallel (a :: b :: X) (a :: l) (b :: f)
| par_new : forall a b X l f, rid a <> rid b -> Parallel (b :: X) l f -> Parallel (a :: b :: X) l f.

Lemma parallel (a : row V) (X : frame) : Parallel (a :: X) (leading (a :: X)) (following (rid a) X).
Proof.
  revert a. induction X as [|b X IH]; intros a; [constructor|].
  change (leading (a :: b :: X)) with (if rid a =? rid b then a :: leading (b :: X) else leading (b :: X)).
  change (following (rid a) (b :: X)) with (if rid b =? rid a then b :: following (rid b) X else following (rid b) X).
  rewrite (Z.eqb_sym (rid b) (rid a)). destruct (Z.eqb_spec (rid a) (rid b)); [apply par_same|apply par_new]; auto.
Qed.

Lemma parallel_length (X l f : frame) : Parallel X l f -> length l = length f.
Proof. induction 1; cbn; congruence. Qed.

Lemma next_cons (a x y : row V) X : Next X x y -> Next (a :: X) x y.
Proof. intros (l & r & ->). exists (a :: l), r. reflexivity. Qed.

Lemma parallel_incl (X l f : frame) : Parallel X l f -> incl f X /\ incl l X.
Proof.
  induction 1 as [a|a b X l f E H [IH1 IH2]|a b X l f E H [IH1 IH2]].
  - split; intros x [].
  - split; intros x [<-|Hx]; [right; left; reflexivity|right; auto|left; reflexivity|right; auto].
  - split; intros x Hx; right; auto.
Qed.

Lemma parallel_pairs (X l f : frame) : Parallel X l f -> forall x y, In (x, y) (combine l f) <-> Next X x y /\ rid x = rid y.
Proof.
  intros HP x y. induction HP as [a|a b X l f E H IH|a b X l f E H IH].
  - split; [intros []|]. intros [(l & r & E) _]. destruct l as [|? [|? ?]]; discriminate.
  - cbn [combine]. split.
    + intros [Ep|Hp]; [injection Ep as <- <-; split; [exists [], X; reflexivity|exact E]|].
      apply IH in Hp. destruct Hp as [H1 H2]. split; [apply next_cons; exact H1|exact H2].
    + intros [([|c l0] & r & Ex) Er]; injection Ex as <- Ex.
      * left. congruence.
      * right. apply IH. split; [exists l0, r; exact Ex|exact Er].
  - split.
    + intros Hp. apply IH in Hp. destruct Hp as [H1 H2]. split; [apply next_cons; exact H1|exact H2].
    + intros [([|c l0] & r & Ex) Er]; injection Ex as <- Ex.
      * exfalso. congruence.
      * apply IH. split; [exists l0, r; exact Ex|exact Er].
Qed.

Lemma lookup_in (l : list ((Z * Z) * W)) x u : NoDup (map fst l) -> (lookup x l = Some u <-> In (x, u) l).
Proof.
  induction l as [|[y v] l IH]; cbn [map fst lookup]; intros H; [split; [discriminate|intros []]|].
  inversion H as [|? ? H1 H2]; subst. specialize (IH H2).
  assert (Hp : pair_eqb x y = true <-> x = y).
  { destruct x, y. unfold pair_eqb. cbn. rewrite andb_true_iff. split; [intros []; f_equal; lia|intros E; injection E as -> ->; rewrite !Z.eqb_refl; auto]. }
  destruct (pair_eqb x y) eqn:E.
  - assert (x = y) by (apply Hp; reflexivity). subst y. cbn [snd]. split.
    + intros Eu. injection Eu as ->. left. reflexivity.
    + intros [Eu|Hu]; [injection Eu as ->; reflexivity|]. exfalso. apply H1. apply (in_map fst) in Hu. exact Hu.
  - rewrite IH. split; [intros Hu; right; exact Hu|]. intros [Eu|Hu]; [|exact Hu]. assert (Ey : y = x) by congruence.
    assert (false = true); [|discriminate]. apply Hp. symmetry. exact Ey.
Qed.

Lemma lookup_none (l : list ((Z * Z) * W)) x : ~ In x (map fst l) -> lookup x l = None.
Proof.
  induction l as [|[y v] l IH]; cbn [map fst lookup]; intros H; [reflexivity|].
  destruct (pair_eqb x y) eqn:E.
  - exfalso. apply H. left. destruct x, y. unfold pair_eqb in E. cbn in E. apply andb_true_iff in E. f_equal; lia.
  - apply IH. intros Hx. apply H. right. exact Hx.
Qed.

Lemma valid_index_inj (X : frame) a b : ValidRows X -> In a X -> In b X -> rid a = rid b -> rtime a = rtime b -> a = b.
Proof.
  intros HV Ha Hb Ei Et. apply in_split in Ha. destruct Ha as (l & r & E). subst X.
  apply in_app_or in Hb. destruct Hb as [Hb|[<-|Hb]]; [|reflexivity|].
  - apply in_split in Hb. destruct Hb as (l1 & l2 & ->). exfalso.
    assert (H := vr_inc _ HV b a). rewrite <- Et in H. specialize (H ltac:(exists l1, l2, r; rewrite <- app_assoc; reflexivity) (eq_sym Ei)). lia.
  - apply in_split in Hb. destruct Hb as (l1 & l2 & ->). exfalso.
    assert (H := vr_inc _ HV a b). rewrite <- Et in H. specialize (H ltac:(exists l, l1, l2; reflexivity) Ei). lia.
Qed.

Lemma valid_index_nodup (X : frame) : ValidRows X -> NoDup (index X).
Proof.
  intros HV. assert (H : forall l r, X = l ++ r -> NoDup (index r)); [|apply (H [] X eq_refl)].
  intros l r. revert l. induction r as [|a r IH]; intros l E; [constructor|].
  cbn [index map]. constructor; [|apply (IH (l ++ [a])); rewrite E, <- app_assoc; reflexivity].
  intros Hin. apply in_map_iff in Hin. destruct Hin as (b & Eb & Hb). injection Eb as E1 E2.
  apply in_split in Hb. destruct Hb as (l1 & l2 & ->).
  assert (Hx := vr_inc _ HV a b ltac:(exists l, l1, l2; exact E) (eq_sym E1)). lia.
Qed.

Lemma augment_ok (a : row V) (X : frame) (U : list (row W)) : ValidRows (a :: X) -> rid a <> 1 ->
  index U = index_but_last (a :: X) ->
  let C := combine (index (following (rid a) X)) (to_numpy U) in
  augment_control_input (a :: X) U =
    Ok (map (fun r => mkRow (rid r) (rtime r) (rval r, lookup (rid r, rtime r) C)) (a :: X)).
Proof.
  intros HV H1 EU C. unfold augment_control_input. rewrite select_last, leading_index, <- EU.
  rewrite (proj2 (index_eqb_eq (index U) (index U)) eq_refl). cbn [negb].
  unfold mask_all_except_first. rewrite select_first.
  change (following 1 (a :: X)) with (if rid a =? 1 then a :: following (rid a) X else following (rid a) X).
  destruct (Z.eqb_spec (rid a) 1); [congruence|].
  assert (HP := parallel a X). assert (Hl := parallel_length _ _ _ HP).
  assert (HlU : length U = length (leading (a :: X))).
  { apply (f_equal (@length _)) in EU. rewrite <- leading_index in EU. unfold index in EU. rewrite !map_length in EU. exact EU. }
  unfold index at 1. rewrite map_length, HlU, Hl, Nat.eqb_refl. cbn [negb]. fold C.
  apply tsc_ok. split; [|reflexivity].
  assert (HT : tsc (a :: X) = Ok (a :: X)) by (apply tsc_ok; split; [exact HV|reflexivity]).
  set (G := map _ (a :: X)).
  assert (Ei : ids_index G = ids_index (a :: X)) by (unfold G, ids_index; rewrite map_map; reflexivity).
  assert (Et : time_index G = time_index (a :: X)) by (unfold G, time_index; rewrite map_map; reflexivity).
  apply (proj1 (tsc_ok G G)). unfold tsc in *. rewrite Ei, Et.
  destruct (validate_index (ids_index (a :: X)) (time_index (a :: X))); [reflexivity|discriminate].
Qed.

Lemma combine_three_conv (l f : frame) (U : list (row W)) : index U = index l -> length l = length f -> NoDup (index l) ->
  forall (x y : row V) (u : W), In (x, y) (combine l f) -> In (mkRow (rid x) (rtime x) u) U ->
  In ((rid y, rtime y), u) (combine (index f) (to_numpy U)).
Proof.
  revert f U. induction l as [|x0 l IH]; intros [|z f] [|w U] EU Hl Hnd x y u H HU; cbn in EU, Hl; try discriminate; try (destruct H).
  - injection EU as E1 E2 EU. injection H as -> ->. cbn in Hnd. inversion Hnd as [|? ? Hn _]; subst.
    destruct HU as [Hw|HU].
    + left. rewrite Hw. reflexivity.
    + exfalso. apply Hn. rewrite <- EU. apply in_map_iff. eexists. split; [|exact HU]. reflexivity.
  - injection EU as E1 E2 EU. cbn in Hnd. inversion Hnd as [|? ? Hn Hnd']; subst. right. apply (IH f U EU ltac:(lia) Hnd' x y u H).
    destruct HU as [Hw|HU]; [|exact HU]. exfalso. apply Hn.
    assert (Hx : In x l) by (apply in_combine_l in H; exact H).
    rewrite <- E1, <- E2, Hw. cbn. apply in_map_iff. exists x. auto.
Qed.

Lemma index_leading_nodup (X l f : frame) : Parallel X l f -> NoDup (index X) -> NoDup (index l).
Proof.
  induction 1 as [a|a b X l f E H IH|a b X l f E H IH]; intros Hnd.
  - constructor.
  - cbn [index map] in Hnd. inversion Hnd as [|? ? Hn Hnd']; subst. cbn. constructor; [|apply IH; exact Hnd'].
    intros Hin. apply Hn. apply in_map_iff in Hin. destruct Hin as (q & Eq & Hq). change (In (rid a, rtime a) (index (b :: X))).
    apply in_map_iff. exists q. split; [exact Eq|]. apply (proj2 (parallel_incl _ _ _ H)). exact Hq.
  - cbn [index map] in Hnd. inversion Hnd; subst. apply IH. assumption.
Qed.

Lemma index_following_nodup (X l f : frame) : Parallel X l f -> NoDup (index X) -> NoDup (index f) /\ (forall x X', X = x :: X' -> incl f X').
Proof.
  induction 1 as [a|a b X l f E H IH|a b X l f E H IH]; intros Hnd.
  - split; [constructor|intros x X' _ y []].
  - cbn [index map] in Hnd. inversion Hnd as [|? ? Hn Hnd']; subst. destruct (IH Hnd') as [H1 H2]. specialize (H2 b X eq_refl). split.
    + cbn. constructor; [|exact H1]. intros Hin. inversion Hnd' as [|? ? Hn' _]; subst. apply Hn'.
      apply in_map_iff in Hin. destruct Hin as (q & Eq & Hq). apply in_map_iff. exists q. auto.
    + intros x X' Ex. injection Ex as <- <-. intros q [<-|Hq]; [left; reflexivity|right; apply H2; exact Hq].
  - cbn [index map] in Hnd. inversion Hnd as [|? ? Hn Hnd']; subst. destruct (IH Hnd') as [H1 H2]. split; [exact H1|].
    intros x X' Ex. injection Ex as <- <-. intros q Hq. apply (proj1 (parallel_incl _ _ _ H)). exact Hq.
Qed.

Lemma map_fst_combine_le {A B} (a : list A) (b : list B) : length a = length b -> map fst (combine a b) = a.
Proof. revert b; induction a as [|x a IH]; intros [|y b] H; cbn in *; try lia; [reflexivity|]. rewrite IH by lia. reflexivity. Qed.

Lemma augment_values (a : row V) (X : frame) (U : list (row W)) : ValidRows (a :: X) -> index U = index_but_last (a :: X) ->
  let C := combine (index (following (rid a) X)) (to_numpy U) in
  (forall x y u, Next (a :: X) x y -> rid x = rid y -> In (mkRow (rid x) (rtime x) u) U -> lookup (rid y, rtime y) C = Some u) /\
  (forall y, FirstOfSeries (a :: X) y -> lookup (rid y, rtime y) C = None).
Proof.
  intros HV EU C. assert (HP := parallel a X). assert (Hl := parallel_length _ _ _ HP). rewrite <- leading_index in EU.
  assert (HlU : length U = length (leading (a :: X))).
  { apply (f_equal (@length _)) in EU. unfold index in EU. rewrite !map_length in EU. exact EU. }
  assert (Hnd := valid_index_nodup _ HV).
  assert (EC : map fst C = index (following (rid a) X)).
  { apply map_fst_combine_le. unfold index, to_numpy. rewrite !map_length. lia. }
  split.
  - intros x y u Hn Er HU. apply lookup_in; [rewrite EC; apply (index_following_nodup _ _ _ HP Hnd)|].
    apply (combine_three_conv (leading (a :: X)) _ U EU Hl) with (x := x).
    + apply (index_leading_nodup _ _ _ HP Hnd).
    + apply (parallel_pairs _ _ _ HP). auto.
    + exact HU.
  - intros y [Hy Hf]. apply lookup_none. rewrite EC. intros Hin. apply in_map_iff in Hin. destruct Hin as (z & Ez & Hz).
    injection Ez as E1 E2.
    assert (z = y). { apply (valid_index_inj (a :: X)); auto. apply (proj1 (parallel_incl _ _ _ HP)). exact Hz. } subst z.
    assert (Hp : exists x, In (x, y) (combine (leading (a :: X)) (following (rid a) X))).
    { clear - Hl Hz. revert Hl Hz. generalize (leading (a :: X)), (following (rid a) X). intros l f. revert l.
      induction f as [|q f IH]; intros [|p l] Hl Hz; cbn in Hl; try lia; try (destruct Hz; fail).
      destruct Hz as [<-|Hz]; [exists p; left; reflexivity|]. destruct (IH l ltac:(lia) Hz) as (x & Hx). exists x. right. exact Hx. }
    destruct Hp as (x & Hx). apply (parallel_pairs _ _ _ HP) in Hx. destruct Hx as [H1 H2]. apply (Hf x H1 H2).
Qed.

Lemma augment_one (a : row V) (X : frame) (U : list (row W)) : rid a = 1 ->
  index U = index_but_last (a :: X) -> augment_control_input (a :: X) U = Err ValueError.
Proof.
  intros H1 EU. unfold augment_control_input. rewrite select_last, leading_index, <- EU.
  rewrite (proj2 (index_eqb_eq (index U) (index U)) eq_refl). cbn [negb].
  unfold mask_all_except_first. rewrite select_first.
  change (following 1 (a :: X)) with (if rid a =? 1 then a :: following (rid a) X else following (rid a) X).
  rewrite H1, Z.eqb_refl. rewrite <- leading_index in EU.
  assert (HP := parallel a X). assert (Hl := parallel_length _ _ _ HP).
  apply (f_equal (@length _)) in EU. unfold index in *. rewrite map_length in *. rewrite map_length in EU. rewrite H1 in Hl. cbn [length].
  destruct (Nat.eqb_spec (S (length (following 1 X))) (length U)); [lia|reflexivity].
Qed.

Lemma augment_mismatch (X : frame) (U : list (row W)) : index U <> index_but_last X ->
  augment_control_input X U = Err AssertionError.
Proof.
  intros H. unfold augment_control_input. rewrite select_last, leading_index.
  destruct (index_eqb (index_but_last X) (index U)) eqn:E; [|reflexivity]. apply index_eqb_eq in E. congruence.
Qed.

End Augment.

Section DropLast.
Context {V : Type}.
Notation frame := (list (row V)).
Notation block := (Z * list (Z * V))%type.

Lemma filter_flatten (p : row V -> bool) (g : list (Z * V) -> list (Z * V)) (bs : list block) :
  (forall b, In b bs -> filter p (series_rows (fst b) (snd b)) = series_rows (fst b) (g (snd b))) ->
  filter p (flatten bs) = flatten (map (fun b => (fst b, g (snd b))) bs).
Proof.
  induction bs as [|b bs IH]; intros H; [reflexivity|]. cbn [map]. rewrite !flatten_cons, filter_app. unfold brows at 1 2. cbn [fst snd].
  rewrite (H b (or_introl eq_refl)), IH; [reflexivity|]. intros c Hc. apply H. right. exact Hc.
Qed.

Lemma nodup_middle {A} (a b c : list A) : NoDup (a ++ b ++ c) -> NoDup b.
Proof.
  intros H. assert (H1 : NoDup (b ++ c)) by (induction a as [|x a IH]; [exact H|]; inversion H; auto). clear H.
  induction b as [|x b IH]; [constructor|]. inversion H1 as [|? ? Hn H2]; subst. constructor; [|auto].
  intros Hx. apply Hn. apply in_or_app. left. exact Hx.
Qed.

Lemma fst_inj (bs : list block) b c : NoDup (map fst bs) -> In b bs -> In c bs -> fst b = fst c -> b = c.
Proof.
  induction bs as [|x bs IH]; intros H Hb Hc E; [destruct Hb|]. inversion H as [|? ? H1 H2]; subst.
  destruct Hb as [<-|Hb], Hc as [<-|Hc]; auto; exfalso; apply H1; [rewrite E|rewrite <- E]; apply in_map; assumption.
Qed.

Lemma drop_block (bs : list block) b n : NoDup (index (flatten bs)) -> NoDup (map fst bs) -> In b bs ->
  filter (fun r => negb (existsb (pair_eqb (rid r, rtime r))
            (index (flatten (map (fun b => (fst b, skipn (length (snd b) - n) (snd b))) bs))))) (series_rows (fst b) (snd b)) =
  series_rows (fst b) (firstn (length (snd b) - n) (snd b)).
Proof.
  intros Hnd Hf Hb. set (f := firstn (length (snd b) - n) (snd b)). set (g := skipn (length (snd b) - n) (snd b)).
  assert (E : series_rows (fst b) (snd b) = series_rows (fst b) f ++ series_rows (fst b) g)
    by (unfold f, g, series_rows; rewrite <- map_app, firstn_skipn; reflexivity).
  assert (Hin : forall r, In r (flatten (map (fun b => (fst b, skipn (length (snd b) - n) (snd b))) bs)) <->
                          exists c, In c bs /\ In r (series_rows (fst c) (skipn (length (snd c) - n) (snd c)))).
  { intros r. unfold flatten. rewrite in_flat_map. split.
    - intros (c & Hc & Hr). apply in_map_iff in Hc. destruct Hc as (c0 & <- & Hc0). eauto.
    - intros (c & Hc & Hr). eexists. split; [apply in_map_iff; exists c; split; [reflexivity|exact Hc]|exact Hr]. }
  assert (Hrid : forall i (s : list (Z * V)) r, In r (series_rows i s) -> rid r = i).
  { intros i s r Hr. apply in_map_iff in Hr. destruct Hr as (p & <- & _). reflexivity. }
  rewrite E, filter_app, filter_all_true, filter_all_false; [apply app_nil_r| |]; intros r Hr.
  - apply negb_false_iff, existsb_exists. exists (rid r, rtime r). split; [|unfold pair_eqb; cbn; rewrite !Z.eqb_refl; reflexivity].
    apply in_map_iff. exists r. split; [reflexivity|]. apply Hin. exists b. auto.
  - apply negb_true_iff. destruct (existsb _ _) eqn:Ex; [|reflexivity]. exfalso.
    apply existsb_exists in Ex. destruct Ex as (q & Hq & Eq). apply in_map_iff in Hq. destruct Hq as (r' & <- & Hr').
    unfold pair_eqb in Eq. cbn in Eq. apply Hin in Hr'. destruct Hr' as (c & Hc & Hr').
    assert (c = b) by (apply (fst_inj bs); auto; rewrite <- (Hrid _ _ _ Hr), <- (Hrid _ _ _ Hr'); lia). subst c.
    fold g in Hr'. apply in_split in Hb. destruct Hb as (l1 & l2 & ->). unfold index in Hnd.
    rewrite flatten_app, flatten_cons in Hnd. unfold brows at 1 in Hnd. rewrite E in Hnd. rewrite map_app, (map_app _ (_ ++ _) (flatten l2)) in Hnd.
    apply nodup_middle in Hnd. rewrite map_app in Hnd. apply in_split in Hr'. destruct Hr' as (m1 & m2 & Em). rewrite Em, map_app in Hnd.
    cbn [map] in Hnd. rewrite app_assoc in Hnd. apply NoDup_remove_2 in Hnd. apply Hnd.
    apply in_or_app. left. apply in_or_app. left. apply in_map_iff. exists r. split; [f_equal; lia|exact Hr].
Qed.

Lemma drop_last_spec (F : frame) n :
  ValidRows F -> (forall i, Occurs F i -> (n < length (rows_of F i))%nat) ->
  exists G, drop_last_n_samples F n = Ok G /\ ValidRows G /\ Subseq G F /\
            forall i, rows_of G i = firstn (length (rows_of F i) - n) (rows_of F i).
Proof.
  intros HV Hl. assert (Hnd := valid_index_nodup F HV). destruct (valid_blocks F HV) as (bs & -> & W).
  set (f := fun s : list (Z * V) => firstn (length s - n) s).
  assert (Hm : check_required_min_timesteps (flatten bs) n = Ok tt).
  { apply (min_timesteps_ok _ _ (vr_nonempty _ HV)). intros i Hi. specialize (Hl i Hi). lia. }
  assert (Hlb : forall b, In b bs -> (n < length (snd b))%nat).
  { intros b Hb. assert (Ho : Occurs (flatten bs) (fst b)) by (apply (occurs_block bs _ W); exists b; auto).
    specialize (Hl _ Ho). rewrite (rows_of_flatten bs b (wf_nodup _ W) Hb) in Hl. unfold brows, series_rows in Hl. rewrite map_length in Hl. exact Hl. }
  assert (W' : wfb (map (fun b => (fst b, f (snd b))) bs)).
  { apply (sub_wf f); auto; unfold f.
    - intros b Hb E. specialize (Hlb b Hb). apply (f_equal (@length _)) in E. rewrite firstn_length in E. cbn in E. lia.
    - intros s p. apply in_firstn.
    - intros s Hs. rewrite <- firstn_map. apply StronglySorted_firstn. exact Hs. }
  exists (flatten (map (fun b => (fst b, f (snd b))) bs)). split; [|split; [|split]].
  - unfold drop_last_n_samples. rewrite Hm. rewrite (tail_flatten n bs (wf_nodup _ W)).
    rewrite (filter_flatten _ f); [apply tsc_ok; split; [apply wfb_valid; exact W'|reflexivity]|].
    intros b Hb. apply drop_block; [exact Hnd|apply (wf_nodup _ W)|exact Hb].
  - apply wfb_valid. exact W'.
  - apply (sub_flatten f). intros i s. unfold f. rewrite series_rows_firstn. apply subseq_firstn.
  - intros i. rewrite (rows_of_sub f); [|apply (wf_nodup _ W)|auto|reflexivity].
    unfold f. rewrite map_length, series_rows_firstn. f_equal. apply series_rows_of_rows. apply rid_rows_of.
Qed.

End DropLast.
