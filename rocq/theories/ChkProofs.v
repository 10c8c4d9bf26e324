(** * Proofs about the checks of time series collections. *)

From Coq Require Import List ZArith Bool Arith Lia Sorted.
Import ListNotations.
From Coq Require Import ZifyBool ZifyNat.
From Verif Require Import Np NpFacts TscModel TscSpec TscBlocks TscProofs TscOps TscDt TscRegular AccModel AccSpec AccProofs ChkModel ChkSpec.
Open Scope Z_scope.

(** a check that succeeds exactly if [P] holds *)
Definition decides (c : result unit) (P : Prop) : Prop := (P /\ c = Ok tt) \/ (~ P /\ c = Err TSCException).

Lemma decides_also a b P Q : decides a P -> decides b Q -> decides (also a b) (P /\ Q).
Proof.
  intros [[H1 ->]|[H1 ->]] [[H2 ->]|[H2 ->]]; cbn; [left|right|right|right]; split; auto; tauto.
Qed.

Lemma decides_ext c P Q : (P <-> Q) -> decides c P -> decides c Q.
Proof. intros H [[H1 ->]|[H1 ->]]; [left|right]; tauto. Qed.

Lemma decides_require (b : bool) : decides (require b) (b = true).
Proof. destruct b; [left|right]; split; auto; discriminate. Qed.

Lemma decides_if (b : bool) c P : decides c P -> decides (if b then c else Ok tt) (b = true -> P).
Proof.
  intros H. destruct b; [|left; split; [discriminate|reflexivity]].
  apply (decides_ext _ P); [tauto|exact H].
Qed.

Lemma decides_when {A : Type} (o : option A) f (P : A -> Prop) :
  (forall x, o = Some x -> decides (f x) (P x)) -> decides (when o f) (forall x, o = Some x -> P x).
Proof.
  intros H. destruct o as [x|]; cbn; [|left; split; [discriminate|reflexivity]].
  apply (decides_ext _ (P x)); [|apply H; reflexivity]. split; [intros Hx y E; injection E as <-; exact Hx|auto].
Qed.

Section Checks.
Context {V : Type}.
Notation frame := (list (row V)).

Lemma delta_time_series_not_const (F : frame) l d : delta_time KInt F = Ok (DtSeries l) -> ~ (forall p, In p l -> snd p = Some d).
Proof.
  unfold delta_time. destruct (dt_table KInt F) as [t|]; [|discriminate].
  destruct (n_timeseries F =? 1)%nat; [discriminate|]. cbn [orb].
  destruct (is_global_unique KInt (map snd t)) eqn:E; [discriminate|]. intros H Hd. injection H as <-.
  unfold is_global_unique in E. destruct (forallb is_none (map snd t)) eqn:En; [discriminate|].
  apply Bool.not_true_iff_false in E. apply E. apply forallb_forall. intros o Ho.
  apply in_map_iff in Ho. destruct Ho as (p & <- & Hp). rewrite (Hd p Hp).
  assert (Hs : forall x, In x (get_some (map snd t)) -> x = d).
  { intros x Hx. apply get_some_in in Hx. apply in_map_iff in Hx. destruct Hx as (q & Eq & Hq). rewrite (Hd q Hq) in Eq. congruence. }
  assert (Hin : In d (get_some (map snd t))).
  { apply get_some_in. apply in_map_iff. exists p. split; [apply Hd; exact Hp|exact Hp]. }
  rewrite (list_min_is (get_some (map snd t)) d Hin); [apply close_refl|]. intros x Hx. rewrite (Hs x Hx). lia.
Qed.

Lemma close_entry_small a d : Z.abs d < 100000000000 -> close_entry a (Some d) = true <-> a = Some d.
Proof.
  intros Hd. destruct a as [a|]; unfold close_entry; [|split; discriminate]. rewrite Z.leb_le. split.
  - intros H. f_equal. lia.
  - intros E. injection E as ->. rewrite Z.sub_diag. change (Z.abs 0) with 0. lia.
Qed.

Lemma occurs_some (F : frame) : F <> [] -> exists i, Occurs F i.
Proof. intros H. destruct F as [|r F]; [congruence|]. exists (rid r), r. split; [left|]; reflexivity. Qed.

Lemma delta_decides (F : frame) d : ValidRows F -> SmallSteps F -> Z.abs d < 100000000000 ->
  decides (check_required_time_delta KInt F (DtScalar (Some d))) (AllRegular F d).
Proof.
  intros HV HS Hd. unfold check_required_time_delta, AllRegular.
  destruct (delta_time_int_total F HV) as (r & Er). rewrite Er.
  destruct r as [[a|]|l].
  - apply (decides_ext _ (close_entry (Some a) (Some d) = true)); [|apply decides_require].
    rewrite close_entry_small by exact Hd. rewrite <- (delta_time_scalar_some F d HV HS), Er. split; congruence.
  - right. split; [|reflexivity]. intros HR. destruct (occurs_some F (vr_nonempty _ HV)) as (i & Hi).
    apply (proj1 (delta_time_scalar_none F HV) Er i d Hi). apply HR. exact Hi.
  - right. split.
    + intros HR. apply (delta_time_scalar_some F d HV HS) in HR. congruence.
    + unfold require. destruct (allclose (DtSeries l) (DtScalar (Some d))) eqn:E; [|reflexivity]. exfalso.
      apply (delta_time_series_not_const F l d Er). intros p Hp. cbn in E. rewrite forallb_forall in E.
      specialize (E p Hp). apply close_entry_small in E; assumption.
Qed.

Lemma const_decides (F : frame) : ValidRows F -> SmallSteps F ->
  decides (drop_value (check_const_time_delta KInt F)) (exists d, AllRegular F d).
Proof.
  intros HV HS. unfold AllRegular. destruct (check_const_time_delta KInt F) as [d|e] eqn:E; cbn.
  - left. split; [|reflexivity]. exists d. apply (const_dt_ok F d HV HS). exact E.
  - right. split.
    + intros (d & Hd). apply (const_dt_ok F d HV HS) in Hd. congruence.
    + unfold check_const_time_delta in E. destruct (delta_time_int_total F HV) as (r & Er). rewrite Er in E.
      destruct r as [[a|]|l]; congruence.
Qed.

Lemma normalized_decides (F : frame) : ValidRows F -> SmallSteps F -> decides (check_normalized_time KInt F) (Normalized F).
Proof.
  intros HV HS. unfold check_normalized_time.
  destruct (delta_time_int_total F HV) as (r & Er). rewrite Er.
  assert (HA : (forall i, Occurs F i -> Regular F i 1) <-> r = DtScalar (Some 1)).
  { rewrite <- (delta_time_scalar_some F 1 HV HS), Er. split; congruence. }
  apply (decides_ext _ ((F <> [] /\ first_time F = 0) /\ r = DtScalar (Some 1))).
  { unfold Normalized. rewrite first_time_earliest, HA. reflexivity. }
  clear HA. destruct r as [[a|]|l].
  - apply (decides_ext _ (((first_time F =? 0) && (a =? 1)) = true)); [|apply decides_require].
    assert (Hne := vr_nonempty _ HV). split.
    + intros H. apply andb_true_iff in H. destruct H as [H1 H2]. repeat split; auto; [lia|repeat f_equal; lia].
    + intros [[_ H1] H2]. injection H2 as ->. lia.
  - right. split; [intros [_ H]; discriminate|reflexivity].
  - right. split; [intros [_ H]; discriminate|reflexivity].
Qed.

Lemma steps_decides (F : frame) n : F <> [] ->
  decides (check_required_n_timesteps F n) (forall i, Occurs F i -> length (rows_of F i) = n).
Proof.
  intros Hne. unfold check_required_n_timesteps.
  assert (HA : (forall i, Occurs F i -> length (rows_of F i) = n) <-> n_timesteps F = NInt n).
  { rewrite (n_timesteps_int F n Hne). split; intros H i Hi; apply H; apply in_ids; exact Hi. }
  apply (decides_ext _ (n_timesteps F = NInt n)); [symmetry; exact HA|]. destruct (n_timesteps F) as [m|l].
  - apply (decides_ext _ ((m =? n)%nat = true)); [|apply decides_require]. rewrite Nat.eqb_eq. split; congruence.
  - right. split; [discriminate|reflexivity].
Qed.

Lemma min_steps_decides (F : frame) n : F <> [] ->
  decides (check_required_min_timesteps F n) (forall i, Occurs F i -> (n <= length (rows_of F i))%nat).
Proof.
  intros Hne. assert (H := min_timesteps_ok F n Hne). unfold check_required_min_timesteps in *.
  destruct (existsb _ _); [right|left]; (split; [|reflexivity]); [|tauto]. intros Hx. apply H in Hx. discriminate.
Qed.

Lemma series_decides (F : frame) n : decides (require (n_timeseries F =? n)%nat) (HasSeries F n).
Proof.
  apply (decides_ext _ ((n_timeseries F =? n)%nat = true)); [|apply decides_require].
  rewrite Nat.eqb_eq. unfold n_timeseries, HasSeries.
  assert (Hnd : NoDup (ids F)) by apply np_unique_NoDup.
  split.
  - intros E. exists (ids F). split; [exact Hnd|split; [|exact E]]. intros i. apply in_ids.
  - intros (l & Hl & Hi & <-). apply Nat.le_antisymm; apply NoDup_incl_length; auto; intros x Hx.
    + apply Hi. apply in_ids. exact Hx.
    + apply in_ids. apply Hi. exact Hx.
Qed.

Lemma degenerate_decides (F : frame) : F <> [] ->
  decides (require (negb (has_degenerate F))) (forall i, Occurs F i -> length (rows_of F i) <> 1%nat).
Proof.
  intros Hne. apply (decides_ext _ (negb (has_degenerate F) = true)); [|apply decides_require].
  unfold has_degenerate, degenerate_ids. destruct (n_timesteps F) as [n|l] eqn:En.
  - rewrite (n_timesteps_int F n Hne) in En. destruct (Nat.eqb_spec n 1) as [->|H]; cbn.
    + split; [discriminate|]. intros H. destruct (occurs_some F Hne) as (i & Hi). destruct (H i Hi). apply En. apply in_ids. exact Hi.
    + split; [|reflexivity]. intros _ i Hi. rewrite En by (apply in_ids; exact Hi). exact H.
  - apply n_timesteps_series in En. subst l.
    set (d := filter _ _).
    assert (Hd : forall i, In i (map fst d) <-> Occurs F i /\ length (rows_of F i) = 1%nat).
    { intros i. unfold d. rewrite in_map_iff. split.
      - intros ((j & c) & E & Hj). cbn in E. subst j. apply filter_In in Hj. destruct Hj as [Hj Hc]. cbn in Hc.
        apply in_map_iff in Hj. destruct Hj as (j & E & Hj). injection E as -> <-. split; [apply in_ids; exact Hj|lia].
      - intros [Hi Hl]. exists (i, length (rows_of F i)). split; [reflexivity|]. apply filter_In. split; [|cbn; lia].
        apply in_map_iff. exists i. split; [reflexivity|apply in_ids; exact Hi]. }
    destruct (map fst d) as [|x r] eqn:Ed; cbn.
    + split; [|reflexivity]. intros _ i Hi Hl. assert (In i []) by (apply Hd; auto). assumption.
    + split; [discriminate|]. intros H. destruct (proj1 (Hd x) (or_introl eq_refl)) as [H1 H2]. destruct (H x H1 H2).
Qed.

Variable finite : V -> bool.
Variable n_features : nat.

Lemma check_tsc_decides o (F : frame) : ValidRows F -> SmallSteps F ->
  (forall r, ensure_delta_time o = Some r -> exists d, r = DtScalar (Some d) /\ Z.abs d < 100000000000) ->
  (Requested finite n_features o F /\ check_tsc finite n_features KInt o F = Ok F) \/
  (~ Requested finite n_features o F /\ check_tsc finite n_features KInt o F = Err TSCException).
Proof.
  intros HV HS Hd. assert (Hne := vr_nonempty _ HV). unfold check_tsc.
  match goal with |- context [match ?c with Ok _ => Ok F | Err e => Err e end] => set (chk := c) end.
  assert (H : decides chk (Requested finite n_features o F)).
  2:{ destruct H as [[H ->]|[H ->]]; [left|right]; auto. }
  eapply decides_ext; [|unfold chk].
  2:{ apply decides_also; [apply decides_if, decides_require|].
      apply decides_also; [apply decides_require|].
      apply decides_also; [apply decides_require|].
      apply decides_also; [apply decides_if, decides_require|].
      apply decides_also; [apply decides_if, (const_decides F HV HS)|].
      apply decides_also.
      { apply (decides_when _ _ (fun r => forall d, r = DtScalar (Some d) -> AllRegular F d)).
        intros r Er. destruct (Hd r Er) as (d & -> & Hs). apply (decides_ext _ (AllRegular F d)).
        - split; [intros H e E; injection E as <-; exact H|auto].
        - apply delta_decides; assumption. }
      apply decides_also; [apply decides_if, decides_require|].
      apply decides_also; [apply decides_if, (normalized_decides F HV HS)|].
      apply decides_also; [apply decides_when; intros n _; apply series_decides|].
      apply decides_also; [apply decides_when; intros n _; apply (steps_decides F n Hne)|].
      apply decides_also; [apply decides_when; intros n _; apply (min_steps_decides F n Hne)|].
      apply decides_also; [apply decides_if, (degenerate_decides F Hne)|].
      apply decides_when. intros k _. apply decides_require. }
  assert (H1 : is_finite finite F = true <-> AllFinite finite F).
  { unfold is_finite. rewrite forallb_forall. reflexivity. }
  assert (H2 := is_equal_length_spec F Hne).
  assert (H3 := is_same_time_values_spec F HV).
  assert (H4 : forall k, tkind_eqb KInt k = true <-> k = KInt) by (intros []; cbn; split; congruence).
  split.
  - intros (A1 & A2 & A3 & A4 & A5 & A6 & A7 & A8 & A9 & A10 & A11 & A12 & A13). constructor; auto; try tauto; try lia.
    + intros d E. apply (A6 _ E). reflexivity.
    + intros k E. apply H4. apply A13. exact E.
  - intros [A1 A2 A3 A4 A5 A6 A7 A8 A9 A10 A11 A12 A13].
    refine (conj _ (conj _ (conj _ (conj _ (conj _ (conj _ (conj _ (conj _ (conj _ (conj _ (conj _ (conj _ _)))))))))))); auto; try tauto; try lia.
    + intros r Er d ->. apply A6. exact Er.
    + intros k E. apply H4. apply A13. exact E.
Qed.

(** ** Initial conditions *)

Lemma longer_spec (F : frame) : F <> [] -> any_longer_than_one F = true <-> exists i, Occurs F i /\ (1 < length (rows_of F i))%nat.
Proof.
  intros Hne. unfold any_longer_than_one. rewrite existsb_exists. destruct (n_timesteps F) as [n|l] eqn:En; cbn [nsteps_values].
  - rewrite (n_timesteps_int F n Hne) in En. split.
    + intros (x & [<-|[]] & Hx). destruct (occurs_some F Hne) as (i & Hi). exists i. split; [exact Hi|].
      rewrite En by (apply in_ids; exact Hi). lia.
    + intros (i & Hi & Hl). exists n. split; [left; reflexivity|]. rewrite En in Hl by (apply in_ids; exact Hi). lia.
  - apply n_timesteps_series in En. subst l. rewrite map_map. cbn [snd]. split.
    + intros (x & Hx & Hl). apply in_map_iff in Hx. destruct Hx as (i & <- & Hi). exists i. split; [apply in_ids; exact Hi|lia].
    + intros (i & Hi & Hl). exists (length (rows_of F i)). split; [|lia]. apply in_map_iff. exists i. split; [reflexivity|apply in_ids; exact Hi].
Qed.

Lemma ic_validate_decides (F : frame) n : ValidRows F -> SmallSteps F -> (1 <= n_features)%nat ->
  (ValidIC finite F /\ (forall m, n = Some m -> forall i, Occurs F i -> length (rows_of F i) = m) /\
   ic_validate finite n_features KInt F n None = Ok tt) \/
  (~ (ValidIC finite F /\ (forall m, n = Some m -> forall i, Occurs F i -> length (rows_of F i) = m)) /\
   ic_validate finite n_features KInt F n None = Err TSCException).
Proof.
  intros HV HS Hn.
  assert (E : ic_validate finite n_features KInt F n None = drop_value (check_tsc finite n_features KInt
        {| ensure_all_finite := true; ensure_min_samples := 1; ensure_min_features := 1;
           ensure_same_length := true; ensure_const_delta_time := any_longer_than_one F;
           ensure_delta_time := None; ensure_same_time_values := true; ensure_normalized_time := false;
           ensure_n_timeseries := None; ensure_min_timesteps := None; ensure_n_timesteps := n;
           ensure_no_degenerate_ts := false; ensure_dtype_time := None |} F)).
  { destruct n as [[|[|n]]|]; reflexivity. }
  rewrite E. match goal with |- context [check_tsc _ _ _ ?c _] => set (o := c) end.
  assert (HR : Requested finite n_features o F <-> ValidIC finite F /\ (forall m, n = Some m -> forall i, Occurs F i -> length (rows_of F i) = m)).
  { assert (HL := longer_spec F (vr_nonempty _ HV)). split.
    - intros [A1 A2 A3 A4 A5 A6 A7 A8 A9 A10 A11 A12 A13]. cbn in *. split; [|exact A10].
      split; [auto|]. split; [auto|]. intros H. apply A5. apply HL. exact H.
    - intros ((B1 & B2 & B3) & B4). constructor; cbn; try discriminate; auto.
      + assert (H := vr_nonempty _ HV). destruct F; [congruence|cbn; lia].
      + intros _ i j Hi Hj. specialize (B2 i j Hi Hj). unfold times_of in B2. apply (f_equal (@length _)) in B2.
        rewrite !map_length in B2. exact B2.
      + intros H. apply B3. apply HL. exact H. }
  destruct (check_tsc_decides o F HV HS) as [[H ->]|[H ->]]; [intros r Er; discriminate| |]; rewrite HR in H; [left|right]; cbn; tauto.
Qed.

Lemma ic_validate_dt (F : frame) n d : ValidRows F -> SmallSteps F -> (1 <= n_features)%nat -> n <> 1%nat -> Z.abs d < 100000000000 ->
  (ValidIC finite F /\ (forall i, Occurs F i -> length (rows_of F i) = n) /\ AllRegular F d /\
   ic_validate finite n_features KInt F (Some n) (Some (DtScalar (Some d))) = Ok tt) \/
  (~ (ValidIC finite F /\ (forall i, Occurs F i -> length (rows_of F i) = n) /\ AllRegular F d) /\
   ic_validate finite n_features KInt F (Some n) (Some (DtScalar (Some d))) = Err TSCException).
Proof.
  intros HV HS Hn Hn1 Hd.
  assert (E : ic_validate finite n_features KInt F (Some n) (Some (DtScalar (Some d))) = drop_value (check_tsc finite n_features KInt
        {| ensure_all_finite := true; ensure_min_samples := 1; ensure_min_features := 1;
           ensure_same_length := true; ensure_const_delta_time := any_longer_than_one F;
           ensure_delta_time := Some (DtScalar (Some d)); ensure_same_time_values := true; ensure_normalized_time := false;
           ensure_n_timeseries := None; ensure_min_timesteps := None; ensure_n_timesteps := Some n;
           ensure_no_degenerate_ts := false; ensure_dtype_time := None |} F)).
  { destruct n as [|[|n]]; [reflexivity|congruence|reflexivity]. }
  rewrite E. match goal with |- context [check_tsc _ _ _ ?c _] => set (o := c) end.
  assert (HR : Requested finite n_features o F <-> ValidIC finite F /\ (forall i, Occurs F i -> length (rows_of F i) = n) /\ AllRegular F d).
  { assert (HL := longer_spec F (vr_nonempty _ HV)). split.
    - intros [A1 A2 A3 A4 A5 A6 A7 A8 A9 A10 A11 A12 A13]. cbn in *. split; [|split; [apply A10; reflexivity|apply A6; reflexivity]].
      split; [auto|]. split; [auto|]. intros H. apply A5. apply HL. exact H.
    - intros ((B1 & B2 & B3) & B4 & B5). constructor; cbn; try discriminate; auto.
      + assert (H := vr_nonempty _ HV). destruct F; [congruence|cbn; lia].
      + intros _ i j Hi Hj. specialize (B2 i j Hi Hj). unfold times_of in B2. apply (f_equal (@length _)) in B2.
        rewrite !map_length in B2. exact B2.
      + intros H. apply B3. apply HL. exact H.
      + intros e Ee. injection Ee as <-. exact B5.
      + intros m Em. injection Em as <-. exact B4. }
  destruct (check_tsc_decides o F HV HS) as [[H ->]|[H ->]]; [intros r Er; injection Er as <-; eauto| |]; rewrite HR in H; [left|right]; cbn; tauto.
Qed.

(** steps of a series in terms of its times *)
Lemma occurs_steps (F : frame) i x : ValidRows F -> Occurs F i ->
  In x (np_diff (times_of F i)) <-> exists a b, Next F a b /\ rid a = i /\ rid b = i /\ x = rtime b - rtime a.
Proof.
  intros HV Hi. destruct (valid_blocks F HV) as (bs & -> & W). apply (occurs_block bs i W) in Hi.
  destruct Hi as (b & Hb & <-). unfold times_of. rewrite (rows_of_flatten bs b (wf_nodup _ W) Hb).
  unfold brows, series_rows. rewrite map_map. cbn [rtime]. apply next_block; [apply (wf_nodup _ W)|exact Hb].
Qed.

Lemma small_times (F : frame) : ValidRows F ->
  SmallSteps F <-> (forall i x, Occurs F i -> In x (np_diff (times_of F i)) -> x < 100000000000).
Proof.
  intros HV. split.
  - intros HS i x Hi Hx. apply (occurs_steps F i x HV Hi) in Hx. destruct Hx as (a & b & Hn & Ha & Hb & ->).
    apply HS; [exact Hn|congruence].
  - intros H a b Hn E. apply (H (rid a)).
    + destruct Hn as (l & r & ->). exists a. split; [|reflexivity]. apply in_or_app. right. left. reflexivity.
    + apply (occurs_steps F (rid a)); [exact HV| |exists a, b; auto].
      destruct Hn as (l & r & ->). exists a. split; [|reflexivity]. apply in_or_app. right. left. reflexivity.
Qed.

Lemma regular_times (F : frame) i d : ValidRows F -> Occurs F i ->
  Regular F i d <-> (2 <= length (times_of F i))%nat /\ (forall x, In x (np_diff (times_of F i)) -> x = d).
Proof.
  intros HV Hi. unfold Regular, times_of. rewrite map_length. fold (times_of F i). split; intros [H1 H2]; split; auto.
  - intros x Hx. apply (occurs_steps F i x HV Hi) in Hx. destruct Hx as (a & b & Hn & Ha & Hb & ->). apply H2; auto.
  - intros a b Hn Ha Hb. apply H2. apply (occurs_steps F i _ HV Hi). exists a, b. auto.
Qed.

Lemma np_diff_firstn n : forall l x, In x (np_diff (firstn n l)) -> In x (np_diff l).
Proof.
  induction n as [|n IH]; intros l x H; [destruct H|]. destruct l as [|a l]; [destruct H|]. cbn [firstn] in H.
  destruct n as [|n]; [destruct H|]. destruct l as [|b l]; [destruct H|]. cbn [firstn] in *.
  destruct H as [<-|H]; [left; reflexivity|]. right. apply (IH (b :: l)). exact H.
Qed.

Lemma head_properties (X G : frame) n : ValidRows X -> ValidRows G -> (1 <= n)%nat ->
  (forall i, rows_of G i = firstn n (rows_of X i)) ->
  (forall i, Occurs G i <-> Occurs X i) /\ (SmallSteps X -> SmallSteps G) /\
  (forall i d, (2 <= n)%nat -> Occurs X i -> Regular X i d -> Regular G i d) /\
  (forall i, times_of G i = firstn n (times_of X i)).
Proof.
  intros HX HG Hn Hr.
  assert (Ho : forall (F : frame) i, Occurs F i <-> rows_of F i <> []).
  { intros F i. split.
    - intros (r & Hin & <-) E. assert (Hx : In r (rows_of F (rid r))) by (apply filter_In; split; [exact Hin|apply Z.eqb_refl]).
      rewrite E in Hx. destruct Hx.
    - intros H. destruct (rows_of F i) as [|r l] eqn:E; [congruence|]. exists r.
      assert (Hx : In r (rows_of F i)) by (rewrite E; left; reflexivity). apply filter_In in Hx. destruct Hx as [H1 H2]. split; [exact H1|lia]. }
  assert (Hocc : forall i, Occurs G i <-> Occurs X i).
  { intros i. rewrite !Ho, Hr. destruct (rows_of X i) as [|r l]; [rewrite firstn_nil; tauto|]. destruct n as [|n]; [lia|].
    cbn. split; discriminate. }
  assert (Ht : forall i, times_of G i = firstn n (times_of X i)).
  { intros i. unfold times_of. rewrite Hr, firstn_map. reflexivity. }
  split; [exact Hocc|]. split; [|split; [|exact Ht]].
  - intros HS. apply (small_times G HG). intros i x Hi Hx. rewrite Ht in Hx. apply np_diff_firstn in Hx.
    apply (proj1 (small_times X HX) HS i); [apply Hocc; exact Hi|exact Hx].
  - intros i d H2 Hi H. apply (regular_times X i d HX Hi) in H. apply (regular_times G i d HG); [apply Hocc; exact Hi|].
    rewrite Ht, firstn_length. destruct H as [H H']. split; [lia|]. intros x Hx. apply H'. apply np_diff_firstn in Hx. exact Hx.
Qed.

Lemma validate_error (G : frame) n r : ValidRows G -> SmallSteps G -> (1 < n)%nat ->
  ic_validate finite n_features KInt G (Some n) (Some r) = Err TSCException \/
  ic_validate finite n_features KInt G (Some n) (Some r) = Ok tt.
Proof.
  intros HV HS Hn. destruct n as [|[|n]]; [lia|lia|]. unfold ic_validate. set (o := {| ensure_all_finite := _ |}).
  destruct (check_tsc finite n_features KInt o G) as [G'|e] eqn:E; cbn [drop_value]; [right; reflexivity|left].
  assert (He : e = TSCException); [|rewrite He; reflexivity].
  assert (Hd : forall r, ensure_delta_time o = Some r -> check_required_time_delta KInt G r = Ok tt \/ check_required_time_delta KInt G r = Err TSCException).
  { intros q _. unfold check_required_time_delta. destruct (delta_time_int_total G HV) as (p & ->).
    unfold require. destruct (allclose p q); auto. }
  unfold check_tsc in E. clearbody o.
  assert (Hne := vr_nonempty _ HV).
  assert (D : forall c P, decides c P -> c = Ok tt \/ c = Err TSCException) by (intros c P [[_ ->]|[_ ->]]; auto).
  repeat lazymatch type of E with match also ?a _ with Ok _ => _ | Err e => _ end = _ =>
    let H := fresh in assert (H : a = Ok tt \/ a = Err TSCException);
    [|destruct H as [H|H]; rewrite H in E; cbn [also] in E; [|congruence]] end.
  - destruct (ensure_all_finite o); [eapply D, decides_require|auto].
  - eapply D, decides_require.
  - eapply D, decides_require.
  - destruct (ensure_same_length o); [eapply D, decides_require|auto].
  - destruct (ensure_const_delta_time o); [eapply D, (const_decides G HV HS)|auto].
  - destruct (ensure_delta_time o) as [q|]; [apply Hd; reflexivity|auto].
  - destruct (ensure_same_time_values o); [eapply D, decides_require|auto].
  - destruct (ensure_normalized_time o); [eapply D, (normalized_decides G HV HS)|auto].
  - destruct (ensure_n_timeseries o) as [m|]; [eapply D, (series_decides G)|auto].
  - destruct (ensure_n_timesteps o) as [m|]; [eapply D, (steps_decides G m Hne)|auto].
  - destruct (ensure_min_timesteps o) as [m|]; [eapply D, (min_steps_decides G m Hne)|auto].
  - destruct (ensure_no_degenerate_ts o); [eapply D, (degenerate_decides G Hne)|auto].
  - destruct (ensure_dtype_time o) as [m|]; cbn [when] in E; [|discriminate]. destruct (tkind_eqb KInt m); cbn [require] in E; congruence.
Qed.

Lemma validate_compares (G : frame) n r : ValidRows G -> SmallSteps G -> (1 < n)%nat ->
  ic_validate finite n_features KInt G (Some n) (Some r) = Ok tt ->
  exists d, AllRegular G d /\ allclose (DtScalar (Some d)) r = true.
Proof.
  intros HV HS Hn. destruct n as [|[|n]]; [lia|lia|]. unfold ic_validate. set (o := {| ensure_all_finite := _ |}).
  destruct (check_tsc finite n_features KInt o G) as [G'|e] eqn:E; cbn [drop_value]; [intros _|discriminate].
  revert E. unfold check_tsc. subst o. cbn [ensure_all_finite ensure_min_samples ensure_min_features ensure_same_length
    ensure_const_delta_time ensure_delta_time ensure_same_time_values ensure_normalized_time ensure_n_timeseries
    ensure_n_timesteps ensure_min_timesteps ensure_no_degenerate_ts ensure_dtype_time when also].
  destruct (is_finite finite G); [|discriminate]. cbn [require also].
  destruct (negb (length G <? 1)%nat); [|discriminate]. cbn [require also].
  destruct (negb (n_features <? 1)%nat); [|discriminate]. cbn [require also].
  destruct (is_equal_length G); [|discriminate]. cbn [require also].
  destruct (check_required_n_timesteps G (S (S n))) as [u|e] eqn:Es.
  2:{ intros E. match type of E with context [also ?a (also ?b (also ?c _))] => destruct a as [|], b as [|], c as [|] end; cbn in E; discriminate. }
  assert (Hl : any_longer_than_one G = true).
  { apply longer_spec; [apply vr_nonempty; exact HV|]. destruct (occurs_some G (vr_nonempty _ HV)) as (i & Hi). exists i. split; [exact Hi|].
    destruct (steps_decides G (S (S n)) (vr_nonempty _ HV)) as [[H _]|[_ H]]; [rewrite H by exact Hi; lia|congruence]. }
  rewrite Hl. destruct (const_decides G HV HS) as [[(d & Hd) ->]|[_ ->]]; [|discriminate]. cbn [also].
  unfold check_required_time_delta. rewrite (proj2 (delta_time_scalar_some G d HV HS) Hd).
  destruct (allclose (DtScalar (Some d)) r) eqn:Ec; [|discriminate]. intros _. exists d. auto.
Qed.

Lemma validate_none (G : frame) n : ValidRows G -> SmallSteps G -> (1 < n)%nat ->
  ic_validate finite n_features KInt G (Some n) (Some (DtScalar None)) = Ok tt -> False.
Proof. intros HV HS Hn H. destruct (validate_compares G n _ HV HS Hn H) as (d & _ & E). discriminate. Qed.

Lemma regular_small (G : frame) d : ValidRows G -> SmallSteps G -> AllRegular G d -> 0 < d < 100000000000.
Proof.
  intros HV HS Hd. destruct (occurs_some G (vr_nonempty _ HV)) as (i & Hi). assert (HR := Hd i Hi).
  split; [exact (regular_step_pos G i d HV Hi HR)|].
  apply (regular_times G i d HV Hi) in HR. destruct HR as [HR1 HR2].
  destruct (times_of G i) as [|a [|b t]] eqn:Et; cbn in HR1; try lia.
  assert (Hx : In (b - a) (np_diff (times_of G i))) by (rewrite Et; left; reflexivity).
  rewrite <- (HR2 (b - a)) by (left; reflexivity).
  apply (proj1 (small_times G HV) HS i); assumption.
Qed.

Lemma validate_table (G : frame) n l (X : frame) : ValidRows G -> SmallSteps G -> (1 < n)%nat ->
  delta_time KInt X = Ok (DtSeries l) ->
  ic_validate finite n_features KInt G (Some n) (Some (DtSeries l)) = Err TSCException.
Proof.
  intros HV HS Hn HX. destruct (validate_error G n (DtSeries l) HV HS Hn) as [H|H]; [exact H|]. exfalso.
  destruct (validate_compares G n _ HV HS Hn H) as (d & Hd & Ec).
  assert (H0 := regular_small G d HV HS Hd).
  apply (delta_time_series_not_const X l d HX). intros p Hp. cbn [allclose] in Ec. rewrite forallb_forall in Ec.
  specialize (Ec p Hp). destruct (snd p) as [e|]; [|discriminate]. unfold close_entry in Ec. f_equal. lia.
Qed.

Lemma from_tsc_decides (X : frame) n : ValidRows X -> SmallSteps X -> (1 <= n)%nat -> (1 <= n_features)%nat ->
  (HasIC finite X n /\ exists G, ic_from_tsc finite n_features KInt X n = Ok G /\ ValidRows G /\ Subseq G X /\
     forall i, rows_of G i = firstn n (rows_of X i)) \/
  (~ HasIC finite X n /\ ic_from_tsc finite n_features KInt X n = Err TSCException).
Proof.
  intros HV HS Hn Hf. unfold ic_from_tsc. assert (Hne := vr_nonempty _ HV).
  destruct (min_steps_decides X n Hne) as [[Hl Hm]|[Hl Hm]].
  2:{ right. split; [intros (H & _); contradiction|]. unfold initial_states. replace (n <? 1)%nat with false by lia. rewrite Hm. reflexivity. }
  destruct (initial_states_spec X n HV Hn Hl) as (G & EG & HG & Hsub & Hrows). rewrite EG.
  destruct (head_properties X G n HV HG Hn Hrows) as (Hocc & HSG & HRG & Ht). specialize (HSG HS).
  assert (Hlen : forall i, Occurs G i -> length (rows_of G i) = n).
  { intros i Hi. rewrite Hrows, firstn_length. assert (n <= length (rows_of X i))%nat by (apply Hl, Hocc, Hi). lia. }
  assert (Hfin : AllFinite finite G <-> (forall i r, In r (firstn n (rows_of X i)) -> finite (rval r) = true)).
  { split.
    - intros H i r Hr. apply H. rewrite <- Hrows in Hr. apply filter_In in Hr. apply Hr.
    - intros H r Hr. apply (H (rid r)). rewrite <- Hrows. apply filter_In. split; [exact Hr|apply Z.eqb_refl]. }
  assert (Htim : SameTimes G <-> (forall i j, Occurs X i -> Occurs X j -> firstn n (times_of X i) = firstn n (times_of X j))).
  { unfold SameTimes. split; intros H i j Hi Hj.
    - rewrite <- !Ht. apply H; apply Hocc; assumption.
    - rewrite !Ht. apply H; apply Hocc; assumption. }
  destruct (1 <? n)%nat eqn:E1.
  - destruct (delta_time_int_total X HV) as (q & Eq). rewrite Eq.
    destruct q as [[d|]|l].
    + assert (HR : AllRegular X d) by exact (proj1 (delta_time_scalar_some X d HV HS) Eq).
      assert (Hd : Z.abs d < 100000000000) by (assert (H0 := regular_small X d HV HS HR); lia).
      destruct (ic_validate_dt G n d HG HSG Hf ltac:(lia) Hd) as [(A1 & A2 & A3 & ->)|(A & ->)]; [left|right].
      * split; [|exists G; auto]. destruct A1 as (B1 & B2 & _). split; [exact Hl|]. split; [apply Hfin; exact B1|].
        split; [apply Htim; exact B2|]. intros _. exists d. exact HR.
      * split; [|reflexivity]. intros (B1 & B2 & B3 & _). apply A. split; [|split; [exact Hlen|]].
        -- split; [apply Hfin; exact B2|]. split; [apply Htim; exact B3|]. intros _. exists d. intros i Hi.
           apply HRG; [lia|apply Hocc; exact Hi|]. apply HR, Hocc, Hi.
        -- intros i Hi. apply HRG; [lia|apply Hocc; exact Hi|]. apply HR, Hocc, Hi.
    + right. assert (Hno := proj1 (delta_time_scalar_none X HV) Eq). split.
      * intros (_ & _ & _ & H). destruct (H ltac:(lia)) as (d & Hd). destruct (occurs_some X Hne) as (i & Hi).
        apply (Hno i d Hi). apply Hd. exact Hi.
      * assert (E : forall nn, (1 < nn)%nat -> ic_validate finite n_features KInt G (Some nn) (Some (DtScalar None)) = Err TSCException \/
            ic_validate finite n_features KInt G (Some nn) (Some (DtScalar None)) = Ok tt).
        { intros nn Hnn. apply (validate_error G nn (DtScalar None) HG HSG Hnn). }
        destruct (E n ltac:(lia)) as [->|Eok]; [reflexivity|]. exfalso.
        apply (validate_none G n HG HSG ltac:(lia)) in Eok. exact Eok.
    + right. split.
      * intros (_ & _ & _ & H). destruct (H ltac:(lia)) as (d & Hd). apply (delta_time_scalar_some X d HV HS) in Hd. congruence.
      * rewrite (validate_table G n l X HG HSG ltac:(lia) Eq). reflexivity.
  - assert (n = 1%nat) by lia. subst n.
    destruct (ic_validate_decides G (Some 1%nat) HG HSG Hf) as [(A1 & A2 & ->)|(A & ->)]; [left|right].
    + split; [|exists G; auto]. destruct A1 as (B1 & B2 & _). split; [exact Hl|]. split; [apply Hfin; exact B1|].
      split; [apply Htim; exact B2|]. intros H. lia.
    + split; [|reflexivity]. intros (B1 & B2 & B3 & _). apply A. split.
      * split; [apply Hfin; exact B2|]. split; [apply Htim; exact B3|]. intros (i & Hi & Hx). rewrite (Hlen i Hi) in Hx. lia.
      * intros m Em. injection Em as <-. exact Hlen.
Qed.

Lemma array_rows (X : list V) t (i : list Z) : length i = length X ->
  map (fun p => mkRow (fst p) t (snd p)) (combine i X) = flatten (map (fun p => (fst p, [(t, snd p)])) (combine i X)).
Proof.
  intros _. induction (combine i X) as [|p l IH]; [reflexivity|]. cbn [map]. rewrite flatten_cons, IH. reflexivity.
Qed.

Lemma array_columns (X : list V) t : forall i : list Z, length i = length X ->
  let F := map (fun p => mkRow (fst p) t (snd p)) (combine i X) in
  map rid F = i /\ map rval F = X /\ map rtime F = repeat t (length X).
Proof.
  induction X as [|x X IH]; intros [|z i] H; cbn in H; try lia; [auto|].
  destruct (IH i ltac:(lia)) as (H1 & H2 & H3). cbn. rewrite H1, H2, H3. auto.
Qed.

Lemma rows_ext (F G : frame) : map rid F = map rid G -> map rval F = map rval G -> map rtime F = map rtime G -> F = G.
Proof.
  revert G. induction F as [|a F IH]; intros [|b G] H1 H2 H3; cbn in *; try discriminate; [reflexivity|].
  injection H1 as A1 B1. injection H2 as A2 B2. injection H3 as A3 B3. f_equal; [|apply IH; assumption].
  destruct a, b. cbn in *. congruence.
Qed.

Lemma array_valid (X : list V) t (i : list Z) : length i = length X ->
  ValidRows (map (fun p => mkRow (fst p) t (snd p)) (combine i X)) <->
  X <> [] /\ NoDup i /\ (forall z, In z i -> 0 <= z) /\ 0 <= t.
Proof.
  intros Hl. destruct (array_columns X t i Hl) as (E1 & E2 & E3). split.
  - intros HV. assert (Hnd := valid_index_nodup _ HV).
    assert (HX : X <> []) by (intros ->; apply (vr_nonempty _ HV); destruct i; reflexivity).
    assert (Ht : forall r, In r (map (fun p => mkRow (fst p) t (snd p)) (combine i X)) -> rtime r = t).
    { intros r Hr. apply in_map_iff in Hr. destruct Hr as (p & <- & _). reflexivity. }
    split; [exact HX|]. split; [|split].
    + rewrite <- E1. assert (Ei : index (map (fun p => mkRow (fst p) t (snd p)) (combine i X)) =
        map (fun z => (z, t)) (map rid (map (fun p => mkRow (fst p) t (snd p)) (combine i X)))).
      { unfold index. rewrite !map_map. reflexivity. }
      rewrite Ei in Hnd. apply NoDup_map_inv in Hnd. exact Hnd.
    + intros z Hz. rewrite <- E1 in Hz. apply in_map_iff in Hz. destruct Hz as (r & <- & Hr). apply (vr_ids _ HV r Hr).
    + destruct (map (fun p => mkRow (fst p) t (snd p)) (combine i X)) as [|r F] eqn:EF; [destruct (vr_nonempty _ HV eq_refl)|].
      rewrite <- (Ht r (or_introl eq_refl)). apply (vr_times _ HV). left. reflexivity.
  - intros (HX & Hnd & Hz & Ht). rewrite array_rows by exact Hl. apply wfb_valid. constructor.
    + intros E. destruct X as [|x X]; [congruence|]. destruct i; discriminate.
    + rewrite map_map. cbn [fst]. rewrite map_fst_combine by exact Hl. exact Hnd.
    + intros b Hb. apply in_map_iff in Hb. destruct Hb as (p & <- & Hp). cbn. split; [discriminate|].
      split; [apply Hz; apply (in_combine_l i X (fst p) (snd p)); rewrite <- surjective_pairing; exact Hp|].
      split; [intros q [<-|[]]; exact Ht|]. repeat constructor.
Qed.

Lemma from_array_ok (X : list V) t ts_ids F : (1 <= n_features)%nat ->
  ic_from_array finite n_features KInt X t ts_ids = Ok F <->
  X <> [] /\ 0 <= t /\ (forall x, In x X -> finite x = true) /\
  map rid F = (match ts_ids with None => np_arange (length X) | Some l => l end) /\
  NoDup (map rid F) /\ (forall z, In z (map rid F) -> 0 <= z) /\
  map rval F = X /\ map rtime F = repeat t (length X).
Proof.
  intros Hf. unfold ic_from_array. set (i := match ts_ids with None => _ | Some l => l end).
  destruct (length i =? length X)%nat eqn:El; cbn [negb].
  2:{ split; [discriminate|]. intros (_ & _ & _ & E1 & _ & _ & E2 & _). apply (f_equal (@length _)) in E1, E2.
      rewrite map_length in E1, E2. lia. }
  apply Nat.eqb_eq in El. destruct (array_columns X t i El) as (E1 & E2 & E3). assert (HA := array_valid X t i El).
  set (R := map (fun p => mkRow (fst p) t (snd p)) (combine i X)) in *.
  assert (Hval : ValidRows R -> ((forall x, In x X -> finite x = true) /\ ic_validate finite n_features KInt R (Some 1%nat) None = Ok tt) \/
                 (~ (forall x, In x X -> finite x = true) /\ ic_validate finite n_features KInt R (Some 1%nat) None = Err TSCException)).
  { intros HV. assert (Htm : forall r, In r R -> rtime r = t).
    { intros r Hr. apply in_map_iff in Hr. destruct Hr as (p & <- & _). reflexivity. }
    assert (HS : SmallSteps R).
    { intros a b Hn E. assert (H : rtime a < rtime b).
      { apply (vr_inc _ HV); [|exact E]. destruct Hn as (l & r & El'). exists l, [], r. exact El'. }
      destruct Hn as (l & r & Er). rewrite !Htm in H; [lia| |]; rewrite Er; apply in_or_app; right; [right|]; left; reflexivity. }
    assert (H1 : forall z, Occurs R z -> exists r, rows_of R z = [r] /\ rtime r = t).
    { intros z (r0 & Hr0 & <-). assert (Hin : In r0 (rows_of R (rid r0))) by (apply filter_In; split; [exact Hr0|apply Z.eqb_refl]).
      assert (Hs := times_of_sorted R (rid r0) HV). unfold times_of in Hs.
      assert (Ha : forall r, In r (rows_of R (rid r0)) -> rtime r = t) by (intros r Hr; apply Htm; apply filter_In in Hr; apply Hr).
      destruct (rows_of R (rid r0)) as [|a [|b l]]; [destruct Hin|exists a; split; [reflexivity|apply Ha; left; reflexivity]|].
      apply StronglySorted_inv in Hs. destruct Hs as [_ HF]. apply Forall_inv in HF. rename HF into Hlt.
      rewrite (Ha a (or_introl eq_refl)), (Ha b (or_intror (or_introl eq_refl))) in Hlt. lia. }
    assert (HFin : AllFinite finite R <-> (forall x, In x X -> finite x = true)).
    { split.
      - intros H x Hx. rewrite <- E2 in Hx. apply in_map_iff in Hx. destruct Hx as (r & <- & Hr). apply H. exact Hr.
      - intros H r Hr. apply H. rewrite <- E2. apply in_map. exact Hr. }
    assert (HST : SameTimes R).
    { intros a b Ha Hb. destruct (H1 a Ha) as (r & Er & Etr). destruct (H1 b Hb) as (q & Eq & Etq). unfold times_of.
      rewrite Er, Eq. cbn. congruence. }
    assert (Hlen : forall z, Occurs R z -> length (rows_of R z) = 1%nat).
    { intros z Hz. destruct (H1 z Hz) as (r & -> & _). reflexivity. }
    destruct (ic_validate_decides R (Some 1%nat) HV HS Hf) as [((A & _) & _ & E)|(A & E)]; [left|right]; (split; [|exact E]).
    - apply HFin. exact A.
    - intros H. apply A. split.
      + split; [apply HFin; exact H|]. split; [exact HST|]. intros (z & Hz & Hx). rewrite (Hlen z Hz) in Hx. lia.
      + intros m Em. injection Em as <-. exact Hlen. }
  clearbody R.
  destruct (tsc_cases R) as [[HV ->]|[HV (e & ->)]].
  - destruct (Hval HV) as [[Hfin ->]|[Hfin ->]].
    + destruct (proj1 HA HV) as (B1 & B2 & B3 & B4). split.
      * intros E. injection E as <-. rewrite E1. auto 9.
      * intros (_ & _ & _ & C1 & _ & _ & C2 & C3). f_equal. apply rows_ext; congruence.
    + split; [discriminate|]. intros (_ & _ & H & _). contradiction.
  - split; [discriminate|]. intros (C1 & C2 & C3 & C4 & C5 & C6 & C7 & C8). destruct HV. apply HA. rewrite C4 in *. auto.
Qed.
End Checks.

(** ** Fitting *)

Lemma rint_near a b m : 0 < b -> Z.even m = true -> 2 * Z.abs (a - b * m) <= b -> rint_div a b = m.
Proof.
  intros Hb Hm H. unfold rint_div. assert (Hd := Z_div_mod_eq_full a b). assert (Hr := Z.mod_pos_bound a b Hb).
  set (q := a / b) in *. set (r := a mod b) in *.
  assert (Hc : m = q \/ m = q + 1) by nia.
  destruct Hc as [->| ->].
  - assert (2 * r <= b) by nia. destruct (Z.ltb_spec (2 * r) b); [reflexivity|]. replace (b <? 2 * r) with false by lia.
    rewrite Hm. reflexivity.
  - assert (2 * r >= b) by nia. replace (2 * r <? b) with false by lia. destruct (Z.ltb_spec b (2 * r)); [reflexivity|].
    rewrite Z.even_add in Hm. cbn in Hm. destruct (Z.even q); [discriminate|reflexivity].
Qed.

Lemma rint_close a b : 0 < b -> 2 * Z.abs (a - b * rint_div a b) <= b.
Proof.
  intros Hb. unfold rint_div. assert (Hd := Z_div_mod_eq_full a b). assert (Hr := Z.mod_pos_bound a b Hb).
  set (q := a / b) in *. set (r := a mod b) in *.
  destruct (Z.ltb_spec (2 * r) b); [nia|]. destruct (Z.ltb_spec b (2 * r)); [nia|]. destruct (Z.even q); nia.
Qed.

Lemma span_spec span d : 0 < d -> span_is_multiple span d = true <-> NearMultiple span d.
Proof.
  intros Hd. unfold span_is_multiple, NearMultiple. rewrite Z.eqb_eq. split.
  - intros H. assert (Hc := rint_close (span * 100000) d Hd). apply Z.mod_divide in H; [|lia]. destruct H as (n & Hn).
    exists n. rewrite Hn in Hc. replace (span * 100000 - d * (n * 100000)) with (100000 * (span - n * d)) in Hc by ring.
    rewrite Z.abs_mul in Hc. change (Z.abs 100000) with 100000 in Hc. lia.
  - intros (n & Hn). rewrite (rint_near (span * 100000) d (100000 * n) Hd).
    + rewrite Z.mul_comm. apply Z_mod_mult.
    + rewrite Z.even_mul. reflexivity.
    + replace (span * 100000 - d * (100000 * n)) with (100000 * (span - n * d)) by ring.
      rewrite Z.abs_mul. change (Z.abs 100000) with 100000. lia.
Qed.

Section Fit.
Context {V W : Type}.
Notation frame := (list (row V)).
Notation block := (Z * list (Z * V))%type.

Lemma leading_series i (s : list (Z * V)) (F : frame) : (forall r, In r F -> rid r <> i) ->
  leading (series_rows i s ++ F) = series_rows i (removelast s) ++ leading F.
Proof.
  intros HF. induction s as [|p [|q s] IH]; [reflexivity| |].
  - cbn [series_rows map app removelast fst snd]. destruct F as [|r F]; [reflexivity|]. cbn [leading rid].
    destruct (Z.eqb_spec i (rid r)) as [E|_]; [|reflexivity]. destruct (HF r (or_introl eq_refl)). congruence.
  - change (series_rows i (p :: q :: s) ++ F) with (mkRow i (fst p) (snd p) :: mkRow i (fst q) (snd q) :: (series_rows i s ++ F)).
    set (a := mkRow i (fst p) (snd p)). set (b := mkRow i (fst q) (snd q)).
    change (leading (a :: b :: (series_rows i s ++ F))) with
      (if i =? i then a :: leading (b :: (series_rows i s ++ F)) else leading (b :: (series_rows i s ++ F))).
    rewrite Z.eqb_refl. change (b :: (series_rows i s ++ F)) with (series_rows i (q :: s) ++ F).
    rewrite IH. reflexivity.
Qed.

Lemma leading_flatten (bs : list block) : NoDup (map fst bs) ->
  leading (flatten bs) = flatten (map (fun b => (fst b, removelast (snd b))) bs).
Proof.
  induction bs as [|b bs IH]; intros Hnd; [reflexivity|]. cbn [map] in *. inversion Hnd as [|? ? Hni Hnd']; subst.
  rewrite !flatten_cons. unfold brows. cbn [fst snd]. rewrite leading_series, IH by exact Hnd' || (intros r Hr E; apply Hni; rewrite <- E; apply in_flatten_id; exact Hr).
  reflexivity.
Qed.

Lemma drop_last_leading (F : frame) : ValidRows F -> (forall i, Occurs F i -> (2 <= length (rows_of F i))%nat) ->
  drop_last_n_samples F 1 = Ok (leading F).
Proof.
  intros HV Hl. assert (Hnd := valid_index_nodup F HV). destruct (drop_last_spec F 1 HV) as (G & EG & _ & _ & _).
  { intros i Hi. specialize (Hl i Hi). lia. }
  rewrite EG. f_equal. unfold drop_last_n_samples in EG. destruct (check_required_min_timesteps F 1); [|discriminate].
  apply tsc_ok in EG. destruct EG as [_ ->]. destruct (valid_blocks F HV) as (bs & -> & WB).
  rewrite (tail_flatten 1 bs (wf_nodup _ WB)).
  rewrite (filter_flatten _ (fun s => firstn (length s - 1) s)) by (intros b Hb; apply drop_block; [exact Hnd|apply (wf_nodup _ WB)|exact Hb]).
  rewrite leading_flatten by apply (wf_nodup _ WB). f_equal. apply map_ext. intros b. f_equal.
  symmetry. rewrite Nat.sub_1_r. apply removelast_firstn_len.
Qed.

Lemma span_exists (F : frame) : F <> [] -> Span F (last (time_values F) 0 - first_time F).
Proof.
  intros Hne. exists (first_time F), (last (time_values F) 0). split; [apply first_time_earliest; auto|].
  assert (Hs : StronglySorted Z.lt (time_values F)) by apply np_unique_sorted.
  assert (Hn : time_values F <> []).
  { destruct F as [|r F]; [congruence|]. intros E. assert (H : In (rtime r) (time_values (r :: F))) by (apply in_time_values; exists r; split; [left|]; reflexivity).
    rewrite E in H. destruct H. }
  split; [|split; [|reflexivity]].
  - apply in_time_values. destruct (exists_last Hn) as (l & x & ->). rewrite last_last. apply in_or_app. right. left. reflexivity.
  - intros r Hr. assert (H : In (rtime r) (time_values F)) by (apply in_time_values; eauto).
    destruct (exists_last Hn) as (l & x & E). rewrite E in *. rewrite last_last. apply in_app_or in H. destruct H as [H|[<-|[]]]; [|lia].
    clear -Hs H. induction l as [|y l IH]; [destruct H|]. cbn in Hs. inversion Hs as [|? ? Hs' HF]; subst. destruct H as [->|H]; [|auto].
    rewrite Forall_forall in HF. assert (rtime r < x) by (apply HF; apply in_or_app; right; left; reflexivity). lia.
Qed.

Lemma span_unique (F : frame) s s' : Span F s -> Span F s' -> s = s'.
Proof.
  intros (a & b & [(r1 & H1 & E1) L1] & (r2 & H2 & E2) & L2 & ->) (a' & b' & [(r3 & H3 & E3) L3] & (r4 & H4 & E4) & L4 & ->).
  assert (a <= a') by (subst a'; apply L1; exact H3). assert (a' <= a) by (subst a; apply L3; exact H1).
  assert (b <= b') by (subst b; apply L4; exact H2). assert (b' <= b) by (subst b'; apply L2; exact H4). lia.
Qed.

Lemma fit_controls (last : bool) (X : frame) (U : list (row W)) d : ValidRows X -> AllRegular X d ->
  exists X', (if last then Ok X else drop_last_n_samples X 1) = Ok X' /\ (index_eqb (index X') (index U) = true <-> MatchingControls last X U).
Proof.
  intros HV HR. unfold MatchingControls. destruct last.
  - exists X. split; [reflexivity|]. rewrite index_eqb_eq. split; congruence.
  - exists (leading X). split; [apply drop_last_leading; [exact HV|]; intros i Hi; apply (HR i Hi)|].
    rewrite index_eqb_eq, leading_index. split; congruence.
Qed.

Lemma fit_ok (last : bool) (X : frame) (U : option (list (row W))) d : ValidRows X -> SmallSteps X ->
  fit_attrs KInt last X U = Ok d <->
  AllRegular X d /\ (forall U', U = Some U' -> MatchingControls last X U') /\ (exists s, Span X s /\ NearMultiple s d).
Proof.
  intros HV HS. unfold fit_attrs.
  assert (Hsp := span_exists X (vr_nonempty _ HV)). set (s := List.last (time_values X) 0 - first_time X) in *.
  split.
  - intros H. destruct (match U with None => Ok tt | Some _ => _ end) as [u|e] eqn:EU; [|discriminate].
    destruct (delta_time KInt X) as [[[x|]|l]|e] eqn:Ed; try discriminate.
    assert (HR : AllRegular X x) by exact (proj1 (delta_time_scalar_some X x HV HS) Ed).
    destruct (span_is_multiple s x) eqn:Es; [|discriminate]. injection H as <-. split; [exact HR|].
    assert (Hx := regular_small X x HV HS HR). apply span_spec in Es; [|lia]. split; [|eauto].
    intros U' ->. destruct (fit_controls last X U' x HV HR) as (X' & EX & HM). rewrite EX in EU. apply HM.
    destruct (index_eqb (index X') (index U')); [reflexivity|discriminate].
  - intros (HR & HU & (s' & Hs' & Hm)). rewrite (span_unique X s' s Hs' Hsp) in Hm. assert (Hx := regular_small X d HV HS HR).
    apply span_spec in Hm; [|lia]. rewrite (proj2 (delta_time_scalar_some X d HV HS) HR), Hm.
    destruct U as [U'|]; [|reflexivity]. destruct (fit_controls last X U' d HV HR) as (X' & -> & HM).
    rewrite (proj2 HM (HU U' eq_refl)). reflexivity.
Qed.

Lemma fit_control_error (last : bool) (X : frame) (U : list (row W)) d : ValidRows X -> AllRegular X d ->
  ~ MatchingControls last X U -> fit_attrs KInt last X (Some U) = Err ValueError.
Proof.
  intros HV HR HM. unfold fit_attrs. destruct (fit_controls last X U d HV HR) as (X' & -> & H).
  destruct (index_eqb (index X') (index U)); [destruct HM; apply H; reflexivity|reflexivity].
Qed.

Lemma fit_irregular (last : bool) (X : frame) : ValidRows X -> SmallSteps X -> (forall d, ~ AllRegular X d) ->
  fit_attrs KInt last X (None : option (list (row W))) = Err AttributeError.
Proof.
  intros HV HS HN. unfold fit_attrs. destruct (delta_time_int_total X HV) as (r & Er). rewrite Er.
  destruct r as [[x|]|l]; try reflexivity. exfalso. apply (HN x). exact (proj1 (delta_time_scalar_some X x HV HS) Er).
Qed.

Lemma fit_aligned (last : bool) (X : frame) (U : option (list (row W))) d : ValidRows X -> SmallSteps X -> AllRegular X d -> Aligned X d ->
  (forall U', U = Some U' -> MatchingControls last X U') -> fit_attrs KInt last X U = Ok d.
Proof.
  intros HV HS HR HA HU. apply (fit_ok last X U d HV HS). split; [exact HR|]. split; [exact HU|].
  assert (Hsp := span_exists X (vr_nonempty _ HV)). eexists. split; [exact Hsp|].
  destruct Hsp as (t0 & t1 & [(r & Hr & <-) _] & (q & Hq & <-) & _ & ->).
  destruct (HA q r Hq Hr) as (z & Hz). exists z. rewrite Hz, Z.sub_diag. change (Z.abs 0) with 0.
  assert (H := regular_small X d HV HS HR). lia.
Qed.
End Fit.
