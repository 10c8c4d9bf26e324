(** * Proofs: building, expanding, shifting and tabulating collections. *)

From Coq Require Import List ZArith Bool Arith Lia Sorted Permutation.
From Coq Require Import ZifyBool ZifyNat.
Import ListNotations.
From Verif Require Import Np NpFacts TscModel TscSpec TscBlocks TscProofs TscDt TscOps TscBuild TscShift TscRegular.
From Verif Require Import PredModel PredSpec PredProofs ReconModel ReconSpec ReconProofs ReconEdmd.
From Verif Require Import CvModel AccSpec AccProofs ChkModel ChkSpec ChkProofs BldModel BldSpec.
Close Scope nat_scope.
Open Scope Z_scope.

Section Bld.
Context {V : Type}.
Notation frame := (list (row V)).
Notation block := (Z * list (Z * V))%type.

Lemma list_eqb_eq {A} (eqb : A -> A -> bool) : (forall x y, eqb x y = true <-> x = y) ->
  forall l m, list_eqb eqb l m = true <-> l = m.
Proof.
  intros H. induction l as [|x l IH]; intros [|y m]; cbn; split; intros E; try discriminate; try reflexivity.
  - apply andb_prop in E. destruct E as [E1 E2]. apply H in E1. apply IH in E2. congruence.
  - injection E as -> ->. apply andb_true_intro. split; [apply H|apply IH]; reflexivity.
Qed.

Lemma z_list_eqb_eq l m : list_eqb Z.eqb l m = true <-> l = m.
Proof. apply list_eqb_eq. apply Z.eqb_eq. Qed.

(** ** storage order *)

Lemma storage_unique (F : frame) l m : StorageOrder F l -> StorageOrder F m -> l = m.
Proof.
  intros (_ & Hl & El) (_ & Hm & Em). rewrite El in Em at 1. clear El.
  assert (Hl' : forall i, In i l -> Occurs F i) by (intros i; apply Hl). clear Hl.
  assert (Hm' : forall i, In i m -> Occurs F i) by (intros i; apply Hm). clear Hm.
  revert m Hm' Em. induction l as [|i l IH]; intros [|j m] Hm Em; [reflexivity| | |].
  - assert (H := proj2 (rows_of_nonempty F j)). specialize (Hm j (or_introl eq_refl)).
    apply rows_of_nonempty in Hm. cbn in Em. destruct (rows_of F j); [congruence|discriminate].
  - specialize (Hl' i (or_introl eq_refl)).
    apply rows_of_nonempty in Hl'. cbn in Em. destruct (rows_of F i); [congruence|discriminate].
  - assert (Oi := Hl' i (or_introl eq_refl)). assert (Oj := Hm j (or_introl eq_refl)).
    apply rows_of_nonempty in Oi, Oj.
    assert (E : i = j).
    { cbn in Em. destruct (rows_of F i) as [|r R] eqn:Ei; [congruence|].
      destruct (rows_of F j) as [|q Q] eqn:Ej; [congruence|]. cbn in Em. injection Em as -> _.
      rewrite <- (rid_rows_of F i q) by (rewrite Ei; left; reflexivity).
      apply (rid_rows_of F j). rewrite Ej; left; reflexivity. }
    subst j. f_equal. apply IH.
    + intros k Hk. apply Hl'. right; exact Hk.
    + intros k Hk. apply Hm. right; exact Hk.
    + cbn in Em. apply app_inv_head in Em. exact Em.
Qed.

Lemma flatten_order (bs : list block) : wfb bs ->
  flatten bs = flat_map (rows_of (flatten bs)) (map fst bs).
Proof.
  intros W. rewrite flat_map_map. unfold flatten at 1. apply flat_map_ext_in. intros b Hb.
  symmetry. apply rows_of_flatten; [apply (wf_nodup _ W)|exact Hb].
Qed.

Lemma storage_blocks (bs : list block) : wfb bs -> StorageOrder (flatten bs) (map fst bs).
Proof.
  intros W. split; [apply (wf_nodup _ W)|]. split; [|apply flatten_order; exact W].
  intros i. rewrite (occurs_block bs i W), in_map_iff. firstorder.
Qed.

Lemma storage_sorted (F : frame) : ValidRows F -> IdsSorted F -> StorageOrder F (ids F).
Proof.
  intros HV HS. destruct (valid_blocks F HV) as (bs & -> & W).
  rewrite (ids_sorted_blocks bs W HS). apply storage_blocks, W.
Qed.

(** ** tables *)

Lemma same_times_steps (F : frame) : ValidRows F -> SameTimes F ->
  exists n, n_timesteps F = NInt n /\ forall i, Occurs F i -> length (rows_of F i) = n.
Proof.
  intros HV HT. destruct (n_timesteps F) as [n|l] eqn:En.
  - exists n. split; [reflexivity|]. intros i Hi.
    destruct (valid_blocks F HV) as (bs & E & W). subst F.
    apply (proj1 (occurs_block bs i W)) in Hi. destruct Hi as (b & Hb & <-).
    rewrite (rows_of_flatten bs b (wf_nodup _ W) Hb), brows_length.
    apply (proj1 (n_timesteps_blocks bs n W) En b Hb).
  - exfalso. assert (HL : is_equal_length F = true).
    { apply is_equal_length_spec; [apply (vr_nonempty _ HV)|]. intros i j Hi Hj.
      assert (H := f_equal (@length _) (HT i j Hi Hj)). unfold times_of in H. rewrite !map_length in H. exact H. }
    unfold is_equal_length in HL. rewrite En in HL. cbn [nsteps_values] in HL.
    unfold n_timesteps in En. destruct (_ || _) eqn:E; [discriminate|]. injection En as <-.
    rewrite map_snd_combine in HL by (unfold counts, ids; rewrite map_length; reflexivity).
    rewrite HL, orb_true_r in E. discriminate.
Qed.

Lemma same_values_reshape (F : frame) n l : StorageOrder F l ->
  (forall i, Occurs F i -> length (rows_of F i) = n) ->
  reshape (length l) n (map rval F) = map (fun i => map rval (rows_of F i)) l.
Proof.
  intros (Hnd & Hl & E) Hn. rewrite E at 1. rewrite map_flat_map.
  rewrite reshape_flat_map; [reflexivity|].
  intros i Hi. rewrite map_length. apply Hn, Hl, Hi.
Qed.

Lemma storage_length (F : frame) l : ValidRows F -> StorageOrder F l -> n_timeseries F = length l.
Proof.
  intros HV HO. destruct (valid_blocks F HV) as (bs & -> & W).
  rewrite (storage_unique _ _ _ HO (storage_blocks bs W)), map_length. apply n_timeseries_blocks, W.
Qed.

Lemma storage_exists (F : frame) : ValidRows F -> exists l, StorageOrder F l.
Proof. intros HV. destruct (valid_blocks F HV) as (bs & -> & W). eexists. apply storage_blocks, W. Qed.

Lemma feature_array_same (F : frame) l : ValidRows F -> SameTimes F -> StorageOrder F l ->
  feature_to_array F = Ok (map (fun i => map rval (rows_of F i)) l).
Proof.
  intros HV HT HO. unfold feature_to_array.
  rewrite (proj2 (is_same_time_values_spec F HV) HT). cbn [negb].
  destruct (same_times_steps F HV HT) as (n & -> & Hn).
  rewrite (storage_length F l HV HO). f_equal. apply same_values_reshape; assumption.
Qed.

Lemma feature_array_other (F : frame) : ValidRows F -> ~ SameTimes F -> feature_to_array F = Err TSCException.
Proof.
  intros HV HT. unfold feature_to_array. destruct (is_same_time_values F) eqn:E; [|reflexivity].
  destruct (HT (proj1 (is_same_time_values_spec F HV) E)).
Qed.

Lemma feature_array_spec (F : frame) A : ValidRows F ->
  feature_to_array F = Ok A <->
  SameTimes F /\ exists l, StorageOrder F l /\ A = map (fun i => map rval (rows_of F i)) l.
Proof.
  intros HV. split.
  - intros H. destruct (is_same_time_values F) eqn:E.
    + assert (E' := proj1 (is_same_time_values_spec F HV) E). change (SameTimes F) in E'. clear E. rename E' into E.
      split; [exact E|].
      destruct (storage_exists F HV) as (l & HO). exists l. split; [exact HO|].
      rewrite (feature_array_same F l HV E HO) in H. congruence.
    + unfold feature_to_array in H. rewrite E in H. discriminate.
  - intros (HT & l & HO & ->). apply feature_array_same; assumption.
Qed.

Lemma times_are (F : frame) i : ValidRows F -> SameTimes F -> Occurs F i -> time_values F = times_of F i.
Proof. intros HV HT Hi. apply common_times; [exact HV|]. intros j Hj. apply HT; assumption. Qed.

Lemma feature_frame_spec (F : frame) M : ValidRows F -> IdsSorted F -> feature_to_frame F = Ok M ->
  forall i t v, Entry M i t v <-> In (mkRow i t v) F.
Proof.
  intros HV HS H i t v. unfold feature_to_frame in H. apply bind_ok in H. destruct H as (A & HA & H).
  apply (feature_array_spec F A HV) in HA. destruct HA as (HT & l & HO & ->).
  rewrite (storage_unique F l (ids F) HO (storage_sorted F HV HS)) in H. clear l HO.
  injection H as <-. unfold Entry. cbn [t_index t_columns t_array]. split.
  - intros (a & b & s & Ha & Hb & Hs & Hv).
    rewrite nth_error_map, Ha in Hs. cbn in Hs. injection Hs as <-.
    assert (Hi : Occurs F i) by (apply in_ids, (nth_error_In _ _ Ha)).
    rewrite (times_are F i HV HT Hi) in Hb. unfold times_of in Hb. rewrite nth_error_map in Hb, Hv.
    destruct (nth_error (rows_of F i) b) as [r|] eqn:Er; [|discriminate]. cbn in Hb, Hv.
    apply nth_error_In in Er. assert (E := rid_rows_of F i r Er). apply filter_In in Er.
    replace (mkRow i t v) with r; [apply Er|]. destruct r; cbn in *; congruence.
  - intros Hr. assert (Hi : Occurs F i) by (exists (mkRow i t v); auto).
    assert (Hin : In (mkRow i t v) (rows_of F i)) by (apply filter_In; split; [exact Hr|cbn; lia]).
    destruct (In_nth_error _ _ Hin) as (b & Hb).
    destruct (In_nth_error _ _ (proj2 (in_ids F i) Hi)) as (a & Ha).
    exists a, b, (map rval (rows_of F i)). split; [exact Ha|].
    rewrite (times_are F i HV HT Hi). unfold times_of. rewrite !nth_error_map, Hb, Ha. auto.
Qed.

(** ** constant sampling *)

Lemma const_sampled_ok (F : frame) l : ValidRows F -> SmallSteps F ->
  const_sampled_time_values F = Ok l <->
  exists d s e, AllRegular F d /\ Earliest F s /\ Latest F e /\
    l = map (fun k => s + Z.of_nat k * d) (seq 0 (Z.to_nat ((e - s) / d + 1))).
Proof.
  intros HV HSS. unfold const_sampled_time_values.
  assert (HE : Earliest F (hd 0 (time_values F)) /\ Latest F (last (time_values F) 0)).
  { assert (HS : StronglySorted Z.lt (time_values F)) by apply np_unique_sorted.
    assert (Hin := in_time_values F).
    destruct (time_values F) as [|t T] eqn:ET.
    { destruct F as [|r F']; [destruct (vr_nonempty _ HV); reflexivity|].
      destruct (proj2 (Hin (rtime r)) (ex_intro _ r (conj (or_introl eq_refl) eq_refl))). }
    split; (split; [apply Hin|intros r Hr]).
    - left; reflexivity.
    - assert (H : In (rtime r) (t :: T)) by (apply Hin; eauto). cbn.
      apply StronglySorted_inv in HS. destruct HS as [_ Hf]. rewrite Forall_forall in Hf.
      destruct H as [<-|H]; [lia|]. specialize (Hf _ H). lia.
    - rewrite (app_removelast_last 0 (l := t :: T)) at 2 by discriminate. apply in_or_app. right; left; reflexivity.
    - assert (H : In (rtime r) (t :: T)) by (apply Hin; eauto).
      revert H. generalize (rtime r). clear -HS. revert t HS. induction T as [|u T IH]; intros t HS x H.
      + destruct H as [<-|[]]. cbn. lia.
      + change (last (t :: u :: T) 0) with (last (u :: T) 0).
        apply StronglySorted_inv in HS. destruct HS as [HS Hf]. destruct H as [<-|H].
        * specialize (IH u HS u (or_introl eq_refl)). apply Forall_inv in Hf. lia.
        * apply IH; assumption. }
  destruct HE as [HE HL].
  assert (U : forall s, Earliest F s -> s = hd 0 (time_values F)).
  { intros s ((r & Hr & Er) & Hs). destruct HE as ((q & Hq & Eq) & Hh).
    assert (H1 := Hs q Hq). assert (H2 := Hh r Hr). lia. }
  assert (U' : forall s, Latest F s -> s = last (time_values F) 0).
  { intros s ((r & Hr & Er) & Hs). destruct HL as ((q & Hq & Eq) & Hh).
    assert (H1 := Hs q Hq). assert (H2 := Hh r Hr). lia. }
  split.
  - intros H. apply bind_ok in H. destruct H as (dt & Hd & H).
    destruct dt as [[d|]|?]; try discriminate. injection H as <-.
    exists d, (hd 0 (time_values F)), (last (time_values F) 0).
    split; [exact (proj1 (delta_time_scalar_some F d HV HSS) Hd)|]. auto.
  - intros (d & s & e & HR & Hs & He & ->).
    rewrite (proj2 (delta_time_scalar_some F d HV HSS) HR). cbn [bind].
    rewrite (U s Hs), (U' e He). reflexivity.
Qed.

Lemma allregular_pos (F : frame) d : ValidRows F -> AllRegular F d -> 0 < d.
Proof.
  intros HV HR. destruct F as [|r F']; [destruct (vr_nonempty _ HV); reflexivity|].
  apply (regular_pos (r :: F') (rid r) d HV), HR. exists r. split; [left|]; reflexivity.
Qed.

Lemma const_sampled_spec (F : frame) l : ValidRows F -> SmallSteps F ->
  const_sampled_time_values F = Ok l ->
  exists d s e, AllRegular F d /\ Earliest F s /\ Latest F e /\ StronglySorted Z.lt l /\
    forall t, In t l <-> t <= e /\ exists k, t = s + Z.of_nat k * d.
Proof.
  intros HV HSS H. apply (const_sampled_ok F l HV HSS) in H.
  destruct H as (d & s & e & HR & Hs & He & ->). exists d, s, e.
  assert (Hd := allregular_pos F d HV HR).
  split; [exact HR|]. split; [exact Hs|]. split; [exact He|]. split.
  - generalize (Z.to_nat ((e - s) / d + 1)) 0%nat. induction n as [|n IH]; intros a; [constructor|].
    cbn [seq map]. constructor; [apply IH|]. apply Forall_forall. intros x Hx.
    apply in_map_iff in Hx. destruct Hx as (k & <- & Hk). apply in_seq in Hk. nia.
  - intros t. rewrite in_map_iff. split.
    + intros (k & <- & Hk). apply in_seq in Hk. split; [|eauto].
      assert (HH := Z.mul_div_le (e - s) d Hd). assert (Z.of_nat k <= (e - s) / d) by lia. nia.
    + intros (Ht & k & ->). exists k. split; [reflexivity|]. apply in_seq.
      assert (Z.of_nat k <= (e - s) / d); [|lia]. apply Z.div_le_lower_bound; lia.
Qed.

Lemma const_sampled_error (F : frame) : ValidRows F -> SmallSteps F ->
  const_sampled_time_values F = Err TSCException <-> ~ exists d, AllRegular F d.
Proof.
  intros HV HSS. unfold const_sampled_time_values.
  destruct (delta_time_int_total F HV) as (dt & E). rewrite E. cbn [bind]. split.
  - intros H (d & HR). rewrite (proj2 (delta_time_scalar_some F d HV HSS) HR) in E.
    injection E as <-. discriminate.
  - intros H. destruct dt as [[d|]|?]; [|reflexivity|reflexivity].
    destruct H. exists d. exact (proj1 (delta_time_scalar_some F d HV HSS) E).
Qed.

Lemma const_sampled_complete (F : frame) l d : ValidRows F -> SmallSteps F ->
  AllRegular F d -> Aligned F d -> const_sampled_time_values F = Ok l ->
  forall r, In r F -> In (rtime r) l.
Proof.
  intros HV HSS HR HA H r Hr.
  destruct (const_sampled_spec F l HV HSS H) as (d' & s & e & HR' & Hs & He & _ & Hin).
  assert (d' = d).
  { assert (X := proj2 (delta_time_scalar_some F d HV HSS) HR).
    assert (Y := proj2 (delta_time_scalar_some F d' HV HSS) HR'). congruence. }
  subst d'. assert (Hd := allregular_pos F d HV HR). apply Hin. split; [apply He, Hr|].
  destruct Hs as ((q & Hq & Eq) & Hs). destruct (HA r q Hr Hq) as (z & Hz).
  specialize (Hs r Hr). exists (Z.to_nat z). nia.
Qed.

End Bld.
