(** * Proofs: reconstruction with control input. *)

From Coq Require Import List ZArith Bool Arith Lia Sorted Permutation.
From Coq Require Import ZifyBool ZifyNat.
Import ListNotations.
From Verif Require Import Np NpFacts TscModel TscSpec TscBlocks TscProofs TscDt TscOps TscBuild TscShift TscRegular.
From Verif Require Import PredModel PredSpec PredProofs PredControl ReconModel ReconSpec ReconProofs ReconEdmd DerList.
From Verif Require Import CvModel CvWindow AccSpec AccProofs ChkModel ChkSpec ChkProofs BldModel BldSpec BldProofs BldBuild.
From Verif Require Import WinModel WinSpec WinProofs CtrModel CtrSpec.
Close Scope nat_scope.
Open Scope Z_scope.

(** ** validation of the control input *)

Section Validate.
Context {V W : Type}.

Lemma first_ids (bs : list (Z * list (Z * V))) : (forall b, In b bs -> snd b <> []) ->
  ids_index (flatten (map (fun b => (fst b, firstn 1 (snd b))) bs)) = map fst bs.
Proof.
  intros H. induction bs as [|b bs IH]; [reflexivity|]. cbn [map].
  rewrite flatten_cons. unfold ids_index in *. rewrite map_app, IH by (intros c Hc; apply H; right; exact Hc).
  specialize (H b (or_introl eq_refl)). unfold brows, series_rows. cbn [fst snd].
  destruct (snd b) as [|p s]; [congruence|]. reflexivity.
Qed.

Lemma check_ids_sorted (X : list (row V)) l : ValidRows X -> IdsSorted X ->
  (ids X = l -> check_ids_ordered X l = Ok tt) /\ (ids X <> l -> check_ids_ordered X l = Err TSCException).
Proof.
  intros HV HS. destruct (valid_blocks X HV) as (bs & -> & Wf).
  unfold check_ids_ordered. rewrite (initial_one_blocks bs Wf). cbn [bind].
  rewrite (ids_sorted_blocks bs Wf HS), first_ids by (intros b Hb; apply (wf_blocks _ Wf b Hb)).
  destruct (_ && _) eqn:E.
  - apply list_eqb_spec in E. split; intros H; congruence.
  - split; intros H; [|reflexivity]. exfalso. rewrite <- H, Nat.eqb_refl in E. cbn [andb] in E.
    rewrite <- not_true_iff_false in E. apply E. apply forallb_forall. intros [a b] Hab.
    cbn. apply Z.eqb_eq. clear -Hab. induction (map fst bs) as [|x m IH]; [destruct Hab|].
    cbn in Hab. destruct Hab as [E|Hab]; [congruence|apply IH; exact Hab].
Qed.

Lemma validate_control_ok (X : list (row V)) (G : list (row W)) r us :
  ValidRows X -> IdsSorted X -> Reference X r -> ValidRows G -> ids X = ids G -> CommonTimes G (r :: us) ->
  validate_control X G = Ok tt.
Proof.
  intros VX SX RX VG EI HC. unfold validate_control.
  rewrite (proj1 (check_ids_sorted X (ids G) VX SX) EI). cbn [bind].
  rewrite (proj2 (is_same_time_values_spec G VG)).
  2:{ intros i j Hi Hj. rewrite (HC i Hi), (HC j Hj). reflexivity. }
  cbn [negb]. destruct (final_times_single X r VX RX) as (L & -> & EL). cbn [bind].
  destruct (initial_times_single G r us VG HC) as (I & -> & EI'). cbn [bind].
  rewrite EL, EI', Z.eqb_refl. reflexivity.
Qed.

Lemma validate_control_err (X : list (row V)) (G : list (row W)) r :
  ValidRows X -> IdsSorted X -> Reference X r -> ValidRows G ->
  ids X <> ids G \/ (exists i, Occurs G i /\ hd 0 (times_of G i) <> r) ->
  validate_control X G = Err TSCException.
Proof.
  intros VX SX RX VG H. unfold validate_control.
  destruct (list_eq_dec Z.eq_dec (ids X) (ids G)) as [E|E].
  2:{ rewrite (proj2 (check_ids_sorted X (ids G) VX SX) E). reflexivity. }
  rewrite (proj1 (check_ids_sorted X (ids G) VX SX) E). cbn [bind].
  destruct H as [H|(i & Hi & Ht)]; [congruence|].
  destruct (is_same_time_values G) eqn:ES; cbn [negb]; [|reflexivity].
  assert (HC := same_times_common G VG ES).
  destruct (final_times_single X r VX RX) as (L & -> & EL). cbn [bind].
  destruct (time_values G) as [|u0 us] eqn:Eus.
  { specialize (HC i Hi). apply rows_of_nonempty in Hi. apply map_eq_nil in HC. congruence. }
  destruct (initial_times_single G u0 us VG HC) as (I & -> & EI). cbn [bind].
  rewrite EL, EI. replace (r =? u0) with false; [reflexivity|]. symmetry. apply Z.eqb_neq.
  intros ->. apply Ht. rewrite (HC i Hi). reflexivity.
Qed.

End Validate.

(** ** prediction of a group *)

Section Predict.
Context {V W S : Type}.

Definition single_rows (f : Z -> V) (r : Z) (l : list Z) : list (row V) := map (fun i => mkRow i r (f i)) l.

Definition single_blocks (f : Z -> V) (r : Z) (l : list Z) : list (Z * list (Z * V)) := map (fun i => (i, [(r, f i)])) l.

Lemma single_flatten f r l : single_rows f r l = flatten (single_blocks f r l).
Proof. induction l as [|i l IH]; [reflexivity|]. cbn. f_equal. exact IH. Qed.

Lemma single_wfb f r l : l <> [] -> StronglySorted Z.lt l -> (forall i, In i l -> 0 <= i) -> 0 <= r ->
  wfb (single_blocks f r l).
Proof.
  intros Hne Hs Hp Hr. split.
  - destruct l; [congruence|discriminate].
  - unfold single_blocks. rewrite map_map. cbn. rewrite map_id. apply sorted_lt_NoDup. exact Hs.
  - intros b Hb. apply in_map_iff in Hb. destruct Hb as (i & <- & Hi). cbn [fst snd].
    split; [discriminate|]. split; [apply Hp; exact Hi|]. split.
    + intros p [<-|[]]. exact Hr.
    + cbn. repeat constructor.
Qed.

Lemma single_fst f r l : map fst (single_blocks f r l) = l.
Proof. unfold single_blocks. rewrite map_map. cbn. apply map_id. Qed.

Lemma single_occurs f r l i : Occurs (single_rows f r l) i <-> In i l.
Proof.
  unfold Occurs, single_rows. split.
  - intros (q & Hq & <-). apply in_map_iff in Hq. destruct Hq as (j & <- & Hj). exact Hj.
  - intros Hi. exists (mkRow i r (f i)). split; [|reflexivity]. apply in_map_iff. exists i. auto.
Qed.

Lemma single_time f r l q : In q (single_rows f r l) -> rtime q = r.
Proof. intros Hq. apply in_map_iff in Hq. destruct Hq as (j & <- & _). reflexivity. Qed.

Lemma single_reference f r l : Reference (single_rows f r l) r.
Proof.
  intros i Hi. split.
  - destruct Hi as (q & Hq & <-). exists q. split; [exact Hq|]. split; [reflexivity|]. apply (single_time f r l q Hq).
  - intros q Hq _. rewrite (single_time f r l q Hq). lia.
Qed.

Lemma predict_controlled_ok f r l (G : list (row W)) d m :
  l <> [] -> StronglySorted Z.lt l -> (forall i, In i l -> 0 <= i) -> 0 <= r -> 0 < d -> (1 <= m)%nat ->
  ValidRows G -> IdsSorted G -> ids G = l -> CommonTimes G (equispaced r d m) ->
  predict_controlled (V := V) KInt 0 0 d false (single_rows f r l) G (Some (equispaced r d (Datatypes.S m)))
  = Ok (map (fun i => (mkRow i r (f i), map rval (rows_of G i))) l, equispaced r d (Datatypes.S m)).
Proof.
  intros Hne Hs Hp Hr Hd Hm VG SG EG HC.
  assert (Wf := single_wfb f r l Hne Hs Hp Hr).
  assert (VX : ValidRows (single_rows f r l)) by (rewrite single_flatten; apply wfb_valid, Wf).
  assert (SX : IdsSorted (single_rows f r l)) by (rewrite single_flatten; apply flatten_sorted; rewrite single_fst; exact Hs).
  assert (EX : ids (single_rows f r l) = l).
  { rewrite single_flatten, ids_sorted_blocks, single_fst; [reflexivity|exact Wf|rewrite <- single_flatten; exact SX]. }
  assert (RX := single_reference f r l).
  set (ts := equispaced r d (Datatypes.S m)).
  assert (Hts : forall x, In x ts -> r <= x).
  { intros x Hx. unfold ts, equispaced in Hx. apply in_map_iff in Hx. destruct Hx as (j & <- & _). nia. }
  unfold predict_controlled.
  assert (HT : predict_time_values KInt 0 0 d false (XFrame (single_rows f r l)) (UFrame G) (Some ts) = Ok ts).
  { unfold predict_time_values.
    rewrite (proj2 (proj1 (reference_frame KInt 0 (single_rows f r l) (UFrame G) VX) r) RX). cbn [bind].
    rewrite tolerance_frame. cbn [tol_of].
    assert (HF : validate_time_values_format KInt ts = Ok ts).
    { apply format_spec. split; [reflexivity|]. split; [apply equispaced_sorted; exact Hd|].
      right. intros x Hx. specialize (Hts x Hx). lia. }
    rewrite HF. cbn [bind]. rewrite (common_times G _ VG HC).
    rewrite filter_all_true.
    2:{ intros x Hx. unfold equispaced in Hx. apply in_map_iff in Hx. destruct Hx as (j & <- & _). nia. }
    destruct m as [|m]; [lia|].
    assert (Ereq : equispaced r d (Datatypes.S m) ++ [last (equispaced r d (Datatypes.S m)) 0 + d] = ts).
    { unfold ts. rewrite (equispaced_snoc r d (Datatypes.S m)). f_equal. f_equal. rewrite last_equispaced. lia. }
    destruct (equispaced r d (Datatypes.S m)) as [|e0 es] eqn:Ees; [rewrite equispaced_S in Ees; discriminate|].
    cbn [bind]. rewrite Ereq, Nat.eqb_refl. cbn [andb].
    replace (forallb _ (combine ts ts)) with true.
    2:{ symmetry. apply forallb_forall. intros [a b] Hab. cbn.
        assert (a = b); [|lia]. clear -Hab. induction ts as [|x ts IH]; [destruct Hab|].
        cbn in Hab. destruct Hab as [E|Hab]; [congruence|apply IH; exact Hab]. }
    cbn [bind]. replace (existsb _ ts) with false.
    2:{ symmetry. apply existsb_none_false. intros x Hx. specialize (Hts x Hx). lia. }
    unfold ts. rewrite equispaced_S. replace (0 <? Z.abs (r - r)) with false by lia. reflexivity. }
  rewrite HT. cbn [bind].
  assert (H1 : one_row_per_series (single_rows f r l) = Ok tt).
  { unfold one_row_per_series. rewrite single_flatten.
    rewrite (proj2 (n_timesteps_blocks _ 1 Wf)).
    2:{ intros b Hb. apply in_map_iff in Hb. destruct Hb as (i & <- & _). reflexivity. }
    rewrite <- single_flatten, (proj2 (is_same_time_values_spec _ VX)); [reflexivity|].
    intros i j Hi Hj. assert (HH : forall k, Occurs (single_rows f r l) k -> times_of (single_rows f r l) k = [r]).
    { intros k Hk. unfold times_of. rewrite single_flatten.
      change k with (fst (k, [(r, f k)])). rewrite (rows_of_flatten _ (k, [(r, f k)]) (wf_nodup _ Wf)); [reflexivity|].
      apply in_map_iff. exists k. split; [reflexivity|]. apply single_occurs in Hk. exact Hk. }
    rewrite !HH by assumption. reflexivity. }
  rewrite H1. cbn [bind].
  rewrite (proj2 (is_same_time_values_spec G VG)).
  2:{ intros i j Hi Hj. rewrite (HC i Hi), (HC j Hj). reflexivity. }
  cbn [negb]. destruct m as [|m]; [lia|].
  rewrite (validate_control_ok (single_rows f r l) G r (equispaced (r + d) d m) VX SX RX VG);
    [|congruence|rewrite <- equispaced_S; exact HC].
  cbn [bind].
  destruct (valid_blocks G VG) as (bs & EGb & Wg).
  assert (ET : control_tensor G = map (fun i => map rval (rows_of G i)) l).
  { rewrite EGb at 1. rewrite (control_tensor_blocks bs (equispaced r d (Datatypes.S m)) Wg) by (rewrite <- EGb; exact HC).
    rewrite <- EG, EGb, (ids_sorted_blocks bs Wg) by (rewrite <- EGb; exact SG).
    rewrite map_map. apply map_ext_in. intros b Hb. rewrite (rows_of_flatten bs b (wf_nodup _ Wg) Hb).
    symmetry. apply vals_brows. }
  rewrite ET, map_length. unfold single_rows at 1. rewrite map_length, Nat.eqb_refl. cbn [negb].
  unfold single_rows. rewrite combine_maps.
  destruct l as [|i0 l']; [congruence|].
  set (l := i0 :: l') in *.
  assert (HL0 : length (map rval (rows_of G i0)) = Datatypes.S m).
  { assert (Ho : Occurs G i0) by (apply in_ids; rewrite EG; left; reflexivity).
    assert (HC0 := f_equal (@length Z) (HC i0 Ho)). unfold times_of in HC0. rewrite map_length, equispaced_length in HC0.
    rewrite map_length. exact HC0. }
  unfold check_control_length, l at 1. cbn [map]. rewrite HL0. unfold ts. rewrite equispaced_length.
  cbn [extra]. replace (Datatypes.S m + 1 =? Datatypes.S (Datatypes.S m))%nat with true by lia. reflexivity.
Qed.

End Predict.

(** ** the groups of initial conditions *)

Section Groups.
Context {V : Type}.
Notation frame := (list (row V)).

Definition ic_blocks (F : frame) (n : nat) (l : list Z) : list (Z * list (Z * V)) :=
  map (fun i => (i, firstn n (pairs_of F i))) l.

Lemma initial_group (F : frame) n l : ValidRows F -> (1 <= n)%nat -> l <> [] -> NoDup l ->
  (forall i, In i l -> Occurs F i /\ (n <= length (rows_of F i))%nat) ->
  initial_states (select_ids F l) n = Ok (flatten (ic_blocks F n l)) /\ wfb (ic_blocks F n l).
Proof.
  intros HV Hn Hne Hnd Hl.
  assert (Wf := select_wfb F l HV Hne Hnd (fun i Hi => proj1 (Hl i Hi))).
  rewrite select_blocks. assert (VS := wfb_valid _ Wf).
  assert (Hm : check_required_min_timesteps (flatten (map (block_of F) l)) n = Ok tt).
  { apply (min_timesteps_ok _ _ (vr_nonempty _ VS)). intros i Hi.
    apply (proj1 (occurs_block _ i Wf)) in Hi. destruct Hi as (b & Hb & <-).
    rewrite (rows_of_flatten _ b (wf_nodup _ Wf) Hb). apply in_map_iff in Hb. destruct Hb as (i & <- & Hi).
    rewrite brows_block_of. apply Hl. exact Hi. }
  assert (E : map (fun b : Z * list (Z * V) => (fst b, firstn n (snd b))) (map (block_of F) l) = ic_blocks F n l).
  { rewrite map_map. reflexivity. }
  assert (W2 : wfb (ic_blocks F n l)).
  { rewrite <- E. apply (sub_wf (firstn n)); auto.
    - intros b Hb E0. destruct (wf_blocks _ Wf b Hb) as (H1 & _). destruct n; [lia|]. destruct (snd b); [congruence|discriminate].
    - intros s p. apply in_firstn.
    - intros s Hs. rewrite <- firstn_map. apply StronglySorted_firstn. exact Hs. }
  split; [|exact W2].
  unfold initial_states. replace (n <? 1)%nat with false by lia. rewrite Hm. apply tsc_ok. unfold groupby_head.
  rewrite head_aux_flatten; [|apply (wf_nodup _ Wf)|intros b _ []].
  rewrite E. split; [apply wfb_valid; exact W2|reflexivity].
Qed.

Lemma iter_groups (F : frame) d n :
  ValidRows F -> SmallSteps F -> (1 <= n)%nat ->
  (forall i, Occurs F i -> Regular F i d /\ (n <= length (rows_of F i))%nat) ->
  iter_reconstruct_ic KInt F n
  = Ok (map (fun k => let gids := filter (fun i => key_eqb (keyof F d i) k) (ids F) in
                      (gids, flatten (ic_blocks F n gids), skipn (n - 1) (time_values (select_ids F gids))))
            (sort_keys (map (keyof F d) (ids F)))).
Proof.
  intros HV HSS Hn HR. unfold iter_reconstruct_ic.
  replace (check_required_min_timesteps F n) with (@Ok unit tt)
    by (symmetry; apply (min_timesteps_ok F n (vr_nonempty _ HV)); intros i Hi; apply HR; exact Hi).
  cbn [bind]. unfold time_values_overview.
  rewrite (proj2 (delta_time_scalar_some F d HV HSS)) by (intros i Hi; apply HR; exact Hi).
  cbn [bind].
  rewrite existsb_none_false.
  2:{ intros e He. apply in_map_iff in He. destruct He as (i & <- & _). reflexivity. }
  set (keyed := flat_map _ _).
  assert (EK : keyed = map (fun i => (keyof F d i, i)) (ids F)).
  { unfold keyed. clear. induction (ids F) as [|i l IH]; [reflexivity|]. cbn. f_equal. exact IH. }
  clearbody keyed. subst keyed. rewrite map_map. cbn [fst].
  apply map_result_ok. intros k Hk. rewrite keyed_filter. cbv zeta. set (gids := filter _ _).
  apply (proj1 (in_sort_keys _ _)) in Hk. apply in_map_iff in Hk. destruct Hk as (i0 & <- & Hi0).
  destruct (initial_group F n gids HV Hn) as [-> _]; [| | |reflexivity].
  - intros E. assert (Hin : In i0 gids) by (apply filter_In; split; [exact Hi0|apply key_eqb_eq; reflexivity]).
    rewrite E in Hin. destruct Hin.
  - apply NoDup_filter, sorted_lt_NoDup, ids_sorted.
  - intros i Hi. apply filter_In in Hi. destruct Hi as [Hi _]. apply in_ids in Hi. split; [exact Hi|apply HR; exact Hi].
Qed.

End Groups.

Section Core.
Context {V W S : Type}.
Variable enc : list V -> S.
Variable step : S -> W -> S.
Variable out : S -> V.
Notation frame := (list (row V)).
Notation block := (Z * list (Z * V))%type.

Lemma sort_keys_const {A} (f : A -> rkey) k l : l <> [] -> (forall x, In x l -> f x = k) -> sort_keys (map f l) = [k].
Proof.
  induction l as [|x l IH]; intros Hne H; [congruence|]. cbn [map].
  rewrite (H x (or_introl eq_refl)). unfold sort_keys. cbn [fold_right].
  destruct l as [|y l]; [reflexivity|].
  change (fold_right insert_key [] (map f (y :: l))) with (sort_keys (map f (y :: l))).
  rewrite IH by (try discriminate; intros z Hz; apply H; right; exact Hz).
  destruct k as [[a b] c]. cbn. rewrite !Z.ltb_irrefl, !Z.eqb_refl. reflexivity.
Qed.

Lemma flow_states_states us : forall x ds, length ds = length us -> flow_states S step x us ds = states step x us.
Proof. induction us as [|u us IH]; intros x [|e ds] H; cbn in *; try lia; [reflexivity|]. f_equal. apply IH. lia. Qed.

Lemma states_length us : forall x, length (states step x us) = Datatypes.S (length us).
Proof. induction us as [|u us IH]; intros x; cbn; [reflexivity|]. rewrite IH. reflexivity. Qed.

Lemma np_diff_length l : length (np_diff l) = pred (length l).
Proof.
  induction l as [|x l IH]; [reflexivity|]. destruct l as [|y l]; [reflexivity|].
  rewrite np_diff_cons2. cbn [length] in *. rewrite IH. reflexivity.
Qed.

Definition series_block (i : Z) (ts : list Z) (x : S) (us : list W) : block :=
  (i, combine ts (map out (states step x us))).

Lemma series_block_rows i ts x us :
  map (fun q : Z * S => mkRow i (fst q) (out (snd q))) (combine ts (states step x us)) = brows (series_block i ts x us).
Proof.
  unfold brows, series_rows, series_block. cbn [fst snd].
  rewrite <- (map_id ts) at 2. rewrite combine_map_both, map_map. reflexivity.
Qed.

Lemma equispaced_in s d m t : 0 < d -> In t (equispaced s d m) -> s <= t.
Proof. intros Hd H. unfold equispaced in H. apply in_map_iff in H. destruct H as (j & <- & _). nia. Qed.

(** The prediction of a group whose initial conditions end at time [r]. *)
Lemma predict_group_ok (ics : list block) (G : list (row W)) d m r :
  wfb ics -> StronglySorted Z.lt (map fst ics) ->
  (forall b, In b ics -> last (map fst (snd b)) 0 = r) ->
  0 <= r -> 0 < d -> (1 <= m)%nat -> ValidRows G -> IdsSorted G -> ids G = map fst ics ->
  CommonTimes G (equispaced r d m) ->
  predict_group_controlled enc step out d G (map fst ics, flatten ics, equispaced r d (Datatypes.S m))
  = Ok (flat_map (fun b => brows (series_block (fst b) (equispaced r d (Datatypes.S m)) (enc (map snd (snd b)))
                                    (map rval (rows_of G (fst b))))) ics).
Proof.
  intros Wf Hs Hr H0 Hd Hm VG SG EG HC. unfold predict_group_controlled.
  assert (VX := wfb_valid _ Wf).
  assert (SX : IdsSorted (flatten ics)) by (apply flatten_sorted; exact Hs).
  assert (RX : Reference (flatten ics) r).
  { intros i Hi. apply (proj1 (occurs_block ics i Wf)) in Hi. destruct Hi as (b & Hb & <-).
    destruct (wf_blocks _ Wf b Hb) as (H1 & _ & _ & H4).
    assert (ER := rows_of_flatten ics b (wf_nodup _ Wf) Hb).
    assert (ET : map rtime (brows b) = map fst (snd b)).
    { change (map rtime (brows b)) with (time_index (brows b)). apply times_brows. }
    split.
    - assert (Hin : In r (map rtime (brows b))).
      { rewrite ET, <- (Hr b Hb). apply last_in. destruct (snd b); [congruence|discriminate]. }
      apply in_map_iff in Hin. destruct Hin as (q & E & Hq). rewrite <- ER in Hq.
      exists q. apply filter_In in Hq. destruct Hq as [Hq E2]. apply Z.eqb_eq in E2. auto.
    - intros q Hq E. rewrite <- (Hr b Hb).
      assert (Hq' : In q (rows_of (flatten ics) (fst b))) by (apply filter_In; split; [exact Hq|apply Z.eqb_eq; exact E]).
      rewrite ER in Hq'. apply (in_map rtime) in Hq'. rewrite ET in Hq'. apply sorted_last_max; assumption. }
  destruct m as [|m]; [lia|].
  rewrite (validate_control_ok (flatten ics) G r (equispaced (r + d) d m) VX SX RX VG);
    [|rewrite (ids_sorted_blocks ics Wf SX); congruence|rewrite <- equispaced_S; exact HC].
  cbn [bind].
  rewrite filter_all_true.
  2:{ intros g Hg. apply existsb_exists. exists (rid g). split; [|apply Z.eqb_refl].
      rewrite <- EG. apply in_ids. exists g. auto. }
  set (f := fun i => enc (to_numpy (group (flatten ics) i))).
  assert (ED : dict_ic enc (map fst ics) (flatten ics) = single_rows f r (map fst ics)).
  { unfold dict_ic, single_rows. apply map_ext_in. intros i Hi. apply in_map_iff in Hi. destruct Hi as (b & <- & Hb).
    f_equal. change (group (flatten ics) (fst b)) with (rows_of (flatten ics) (fst b)).
    rewrite (rows_of_flatten ics b (wf_nodup _ Wf) Hb), times_brows. apply Hr. exact Hb. }
  rewrite ED, predict_controlled_ok; auto.
  2:{ destruct ics; [exfalso; apply (wf_ne _ Wf); reflexivity|discriminate]. }
  2:{ intros i Hi. apply in_map_iff in Hi. destruct Hi as (b & <- & Hb). apply (wf_blocks _ Wf b Hb). }
  cbn [bind fst snd]. f_equal. rewrite !flat_map_map. apply flat_map_ext_in. intros b Hb. cbn [fst snd rid rval].
  assert (HL : length (map rval (rows_of G (fst b))) = Datatypes.S m).
  { assert (Ho : Occurs G (fst b)) by (apply in_ids; rewrite EG; apply in_map; exact Hb).
    assert (H := f_equal (@length Z) (HC _ Ho)). unfold times_of in H. rewrite map_length, equispaced_length in H.
    rewrite map_length. exact H. }
  unfold flowmap_controlled. rewrite flow_states_states by (rewrite np_diff_length, equispaced_length, HL; reflexivity).
  rewrite series_block_rows. unfold f.
  change (group (flatten ics) (fst b)) with (rows_of (flatten ics) (fst b)).
  rewrite (rows_of_flatten ics b (wf_nodup _ Wf) Hb), vals_brows. reflexivity.
Qed.


Lemma reg_sb (bs : list block) L d : RegBlocks bs L d -> forall b, In b bs -> map fst (snd (sb b)) = equispaced 0 d L.
Proof.
  intros HR b Hb. destruct (HR b Hb) as (s & _ & E). rewrite sb_times. unfold bstart. rewrite E.
  destruct L as [|L]; [reflexivity|]. replace (hd 0 (equispaced s d (Datatypes.S L))) with s by (rewrite equispaced_S; reflexivity).
  unfold equispaced. rewrite map_map. apply map_ext. intros j. lia.
Qed.

Lemma index_blocks (bs : list block) n : wfb bs -> IdsSorted (flatten bs) ->
  (if (1 <? n)%nat then flat_map (fun i => skipn (n - 1) (index (group (flatten bs) i))) (ids (flatten bs))
   else index (flatten bs))
  = flat_map (fun b => skipn (n - 1) (index (brows b))) bs.
Proof.
  intros Wf Hs.
  replace (flat_map (fun i => skipn (n - 1) (index (group (flatten bs) i))) (ids (flatten bs)))
    with (flat_map (fun b => skipn (n - 1) (index (brows b))) bs).
  2:{ rewrite (ids_sorted_blocks bs Wf Hs), flat_map_map. apply flat_map_ext_in. intros b Hb.
      change (group (flatten bs) (fst b)) with (rows_of (flatten bs) (fst b)).
      rewrite (rows_of_flatten bs b (wf_nodup _ Wf) Hb). reflexivity. }
  destruct (1 <? n)%nat eqn:E; [reflexivity|]. replace (n - 1)%nat with 0%nat by lia.
  unfold index at 1, flatten. rewrite map_flat_map. reflexivity.
Qed.

(** The series of a reconstruction, with the times [ts b] of the block. *)
Lemma series_blocks_wfb (bs : list block) (ts : block -> list Z) (x : block -> S) (us : block -> list W) :
  wfb bs -> (forall b, In b bs -> ts b <> [] /\ StronglySorted Z.lt (ts b) /\
                                  (forall t, In t (ts b) -> 0 <= t) /\ length (ts b) = Datatypes.S (length (us b))) ->
  wfb (map (fun b => series_block (fst b) (ts b) (x b) (us b)) bs).
Proof.
  intros Wf H. split.
  - destruct bs; [exfalso; apply (wf_ne _ Wf); reflexivity|discriminate].
  - rewrite map_map. apply (wf_nodup _ Wf).
  - intros c Hc. apply in_map_iff in Hc. destruct Hc as (b & <- & Hb).
    destruct (H b Hb) as (H1 & H2 & H3 & H4). unfold series_block. cbn [fst snd].
    assert (EF : map fst (combine (ts b) (map out (states step (x b) (us b)))) = ts b)
      by (apply map_combine_fst; rewrite map_length, states_length; exact H4).
    split; [|split; [|split]].
    + intros E. rewrite E in EF. cbn in EF. congruence.
    + apply (wf_blocks _ Wf b Hb).
    + intros p Hp. apply (in_map fst) in Hp. rewrite EF in Hp. apply H3. exact Hp.
    + rewrite EF. exact H2.
Qed.

Lemma core_ok (bs : list block) L d n (G : list (row W)) :
  wfb bs -> StronglySorted Z.lt (map fst bs) -> RegBlocks bs L d -> SmallSteps (flatten bs) ->
  (1 <= n)%nat -> (n < L)%nat -> 0 < d -> ValidRows G -> IdsSorted G -> ids G = map fst bs ->
  CommonTimes G (equispaced (Z.of_nat (n - 1) * d) d (L - n)) ->
  reconstruct_controlled_core enc step out d (flatten bs) G n
  = Ok (flat_map (controlled_reconstruction enc step out (flatten bs) G n) (ids (flatten bs))).
Proof.
  intros Wf Hs HRB HSS Hn HL Hd VG SG EG HC.
  assert (HR := reg_regular bs L d Wf HRB ltac:(lia)).
  assert (SX : IdsSorted (flatten bs)) by (apply flatten_sorted; exact Hs).
  unfold reconstruct_controlled_core. rewrite (shift_blocks_eq bs d Wf HSS SX HR). cbn [bind].
  set (cs := map sb bs).
  assert (Wc : wfb cs) by (apply sb_wfb; exact Wf).
  assert (VS := wfb_valid _ Wc).
  assert (Tc : forall c, In c cs -> map fst (snd c) = equispaced 0 d L).
  { intros c Hc. apply in_map_iff in Hc. destruct Hc as (b & <- & Hb). apply (reg_sb bs L d HRB b Hb). }
  assert (Rc : RegBlocks cs L d) by (intros c Hc; exists 0; split; [lia|apply Tc; exact Hc]).
  assert (HRc := reg_regular cs L d Wc Rc ltac:(lia)).
  assert (Fc : map fst cs = map fst bs) by (unfold cs; rewrite map_map; reflexivity).
  assert (Sc : IdsSorted (flatten cs)) by (apply flatten_sorted; rewrite Fc; exact Hs).
  assert (Ic : ids (flatten cs) = map fst bs) by (rewrite (ids_sorted_blocks cs Wc Sc); exact Fc).
  assert (Rows : forall c, In c cs -> rows_of (flatten cs) (fst c) = brows c)
    by (intros c Hc; apply (rows_of_flatten cs c (wf_nodup _ Wc) Hc)).
  assert (TF : forall i, Occurs (flatten cs) i -> times_of (flatten cs) i = equispaced 0 d L).
  { intros i Hi. apply (proj1 (occurs_block cs i Wc)) in Hi. destruct Hi as (c & Hc & <-).
    unfold times_of. rewrite (Rows c Hc). change (map rtime (brows c)) with (time_index (brows c)).
    rewrite times_brows. apply Tc. exact Hc. }
  assert (LF : forall i, Occurs (flatten cs) i -> length (rows_of (flatten cs) i) = L).
  { intros i Hi. rewrite <- (map_length rtime). change (map rtime (rows_of (flatten cs) i)) with (times_of (flatten cs) i).
    rewrite (TF i Hi). apply equispaced_length. }
  rewrite (iter_groups (flatten cs) d n VS (sb_small bs d Wf HSS HR) Hn).
  2:{ intros i Hi. split; [apply HRc; exact Hi|]. rewrite (LF i Hi). lia. }
  set (k0 := (0, (Z.of_nat L - 1) * d, d) : rkey).
  assert (HK : forall i, In i (ids (flatten cs)) -> keyof (flatten cs) d i = k0).
  { intros i Hi. apply in_ids in Hi. unfold keyof.
    rewrite (time_interval_regular (flatten cs) i d VS Hi (proj2 (HRc i Hi))), (TF i Hi), (LF i Hi).
    destruct L as [|L']; [lia|]. rewrite equispaced_S. cbn [hd]. reflexivity. }
  rewrite (sort_keys_const _ k0).
  2:{ rewrite Ic. destruct bs; [exfalso; apply (wf_ne _ Wf); reflexivity|discriminate]. }
  2:{ exact HK. }
  cbn [map bind]. rewrite filter_all_true.
  2:{ intros i Hi. apply key_eqb_eq. apply HK. exact Hi. }
  cbv zeta.
  assert (Ndi : NoDup (ids (flatten cs))) by (apply sorted_lt_NoDup, ids_sorted).
  assert (Nei : ids (flatten cs) <> []).
  { rewrite Ic. destruct bs; [exfalso; apply (wf_ne _ Wf); reflexivity|discriminate]. }
  destruct (initial_group (flatten cs) n (ids (flatten cs)) VS Hn Nei Ndi) as [_ W2].
  { intros i Hi. apply in_ids in Hi. split; [exact Hi|]. rewrite (LF i Hi). lia. }
  set (ics := ic_blocks (flatten cs) n (ids (flatten cs))) in *.
  assert (Fi : map fst ics = ids (flatten cs)) by (unfold ics, ic_blocks; rewrite map_map; cbn; apply map_id).
  assert (TI : forall b, In b ics -> map fst (snd b) = equispaced 0 d n).
  { intros b Hb. apply in_map_iff in Hb. destruct Hb as (i & <- & Hi). apply in_ids in Hi. cbn [snd].
    unfold pairs_of. rewrite <- firstn_map, map_map. cbn [fst].
    change (map (fun x => rtime x) (rows_of (flatten cs) i)) with (times_of (flatten cs) i).
    rewrite (TF i Hi). apply equispaced_firstn. lia. }
  set (r := Z.of_nat (n - 1) * d).
  assert (Etv : skipn (n - 1) (time_values (select_ids (flatten cs) (ids (flatten cs))))
                = equispaced r d (Datatypes.S (L - n))).
  { assert (WS := select_wfb (flatten cs) (ids (flatten cs)) VS Nei Ndi (fun i Hi => proj1 (in_ids _ i) Hi)).
    rewrite (common_times _ (equispaced 0 d L)).
    - rewrite equispaced_skipn by lia. f_equal; unfold r; lia.
    - rewrite select_blocks. apply wfb_valid, WS.
    - intros i Hi. assert (Hi' : In i (ids (flatten cs))).
      { destruct (in_dec Z.eq_dec i (ids (flatten cs))) as [H|H]; [exact H|].
        apply rows_of_nonempty in Hi. rewrite rows_of_select_other in Hi by exact H. congruence. }
      unfold times_of. rewrite rows_of_select by assumption. apply TF, in_ids, Hi'. }
  rewrite Etv. rewrite <- Fi at 1. cbn [map_result].
  rewrite (predict_group_ok ics G d (L - n) r W2); auto; try lia.
  2:{ rewrite Fi. apply ids_sorted. }
  2:{ intros b Hb. rewrite (TI b Hb). destruct n as [|n']; [lia|]. rewrite last_equispaced. unfold r. lia. }
  2:{ unfold r; nia. }
  2:{ rewrite Fi, Ic. exact EG. }
  cbn [bind concat]. rewrite app_nil_r.
  (* in terms of the blocks of the collection *)
  assert (HU : forall b, In b bs -> length (map rval (rows_of G (fst b))) = (L - n)%nat).
  { intros b Hb. assert (Ho : Occurs G (fst b)) by (apply in_ids; rewrite EG; apply in_map; exact Hb).
    assert (H := f_equal (@length Z) (HC _ Ho)). unfold times_of in H. rewrite map_length, equispaced_length in H.
    rewrite map_length. exact H. }
  set (xb := fun b : block => enc (map snd (firstn n (snd b)))).
  set (ub := fun b : block => map rval (rows_of G (fst b))).
  assert (EI : ics = map (fun b : block => (fst b, firstn n (snd (sb b)))) bs).
  { unfold ics, ic_blocks. rewrite Ic, map_map. apply map_ext_in. intros b Hb. f_equal. f_equal.
    unfold pairs_of. change (fst b) with (fst (sb b)). rewrite (Rows (sb b)) by (apply in_map; exact Hb).
    unfold brows, series_rows. rewrite map_map. cbn [rtime rval]. rewrite <- (map_id (snd (sb b))) at 2.
    apply map_ext. intros [t v]. reflexivity. }
  assert (ER : flat_map (fun b : block => brows (series_block (fst b) (equispaced r d (Datatypes.S (L - n)))
                  (enc (map snd (snd b))) (map rval (rows_of G (fst b))))) ics
               = flat_map (fun b : block => brows (series_block (fst b) (equispaced r d (Datatypes.S (L - n))) (xb b) (ub b))) bs).
  { rewrite EI, flat_map_map. apply flat_map_ext_in. intros b Hb. cbn [fst snd]. unfold xb, ub. do 3 f_equal.
    unfold sb. cbn [snd]. rewrite firstn_map, map_map. reflexivity. }
  rewrite ER.
  assert (WR : wfb (map (fun b : block => series_block (fst b) (equispaced r d (Datatypes.S (L - n))) (xb b) (ub b)) bs)).
  { apply series_blocks_wfb; [exact Wf|]. intros b Hb. split; [rewrite equispaced_S; discriminate|].
    split; [apply equispaced_sorted; exact Hd|]. split.
    - intros t Ht. apply equispaced_in in Ht; [|exact Hd]. unfold r in Ht. nia.
    - rewrite equispaced_length. unfold ub. rewrite (HU b Hb). reflexivity. }
  replace (tsc (flat_map (fun b : block => brows (series_block (fst b) (equispaced r d (Datatypes.S (L - n))) (xb b) (ub b))) bs))
    with (Ok (flat_map (fun b : block => brows (series_block (fst b) (equispaced r d (Datatypes.S (L - n))) (xb b) (ub b))) bs)).
  2:{ symmetry. apply tsc_ok. split; [|reflexivity].
      rewrite <- (flat_map_map (fun b : block => series_block (fst b) (equispaced r d (Datatypes.S (L - n))) (xb b) (ub b)) (@brows V)).
      apply (wfb_valid _ WR). }
  cbn [bind]. rewrite (index_blocks bs n Wf SX).
  assert (TB : forall b, In b bs -> exists s, 0 <= s /\ skipn (n - 1) (map fst (snd b)) = equispaced s d (Datatypes.S (L - n))).
  { intros b Hb. destruct (HRB b Hb) as (s & H0 & E). exists (s + Z.of_nat (n - 1) * d). split; [nia|].
    rewrite E, equispaced_skipn by lia. f_equal. lia. }
  assert (HLn : forall b, In b bs -> length (skipn (n - 1) (map fst (snd b))) = Datatypes.S (L - n)).
  { intros b Hb. destruct (TB b Hb) as (s & _ & ->). apply equispaced_length. }
  rewrite (set_index_blocks _ _ bs (fun b : block => brows (series_block (fst b) (skipn (n - 1) (map fst (snd b))) (xb b) (ub b)))).
  - match goal with |- tsc ?A = Ok ?B => assert (EAB : A = B) end.
    + rewrite (ids_sorted_blocks bs Wf SX), flat_map_map. apply flat_map_ext_in. intros b Hb.
      unfold controlled_reconstruction, controlled_series, times_of.
      rewrite (rows_of_flatten bs b (wf_nodup _ Wf) Hb), series_block_rows. f_equal.
      change (map rtime (brows b)) with (time_index (brows b)). rewrite times_brows.
      unfold xb, ub. do 2 f_equal. rewrite <- !firstn_map. f_equal. symmetry. apply (vals_brows b).
    + rewrite EAB. apply tsc_ok. split; [|reflexivity]. rewrite <- EAB.
      rewrite <- (flat_map_map (fun b : block => series_block (fst b) (skipn (n - 1) (map fst (snd b))) (xb b) (ub b)) (@brows V)).
      refine (wfb_valid _ _). apply series_blocks_wfb; [exact Wf|]. intros b Hb.
      destruct (TB b Hb) as (s & H0 & ->). split; [rewrite equispaced_S; discriminate|].
      split; [apply equispaced_sorted; exact Hd|]. split.
      * intros t Ht. apply equispaced_in in Ht; [|exact Hd]. lia.
      * rewrite equispaced_length. unfold ub. rewrite (HU b Hb). reflexivity.
  - intros b Hb. rewrite brows_length. cbn [series_block snd]. rewrite combine_length, map_length, states_length, equispaced_length.
    unfold ub. rewrite (HU b Hb), skipn_length. unfold index. rewrite map_length, brows_length, (reg_len bs L d b HRB Hb). lia.
  - intros b Hb. unfold index. rewrite skipn_map. unfold brows at 1 2 3, series_rows. cbn [series_block fst snd].
    rewrite !skipn_map, !map_map. cbn [rid rtime].
    rewrite combine_map_both, map_map. cbn [fst snd rval].
    set (st := map out (states step (xb b) (ub b))).
    set (A := equispaced r d (Datatypes.S (L - n))). specialize (HLn b Hb). rewrite skipn_map in HLn. rewrite map_length in HLn.
    set (B := skipn (n - 1) (snd b)) in *.
    assert (HA : length A = length B) by (unfold A; rewrite equispaced_length; lia).
    assert (HST : length st = length B).
    { unfold st, ub. rewrite map_length, states_length, (HU b Hb). lia. }
    clearbody A B st. clear -HA HST. revert A st HA HST.
    induction B as [|[t v] B IH]; intros [|a A] [|s st] HA HST; cbn in *; try lia; [reflexivity|].
    f_equal. apply IH; lia.
Qed.


Lemma map_result_all_err {A B} (f : A -> result B) l e : l <> [] -> (forall x, In x l -> f x = Err e) ->
  map_result f l = Err e.
Proof. intros Hne H. destruct l as [|x l]; [congruence|]. cbn. rewrite (H x (or_introl eq_refl)). reflexivity. Qed.

Lemma sorted_filter_lt (p : Z -> bool) l : StronglySorted Z.lt l -> StronglySorted Z.lt (filter p l).
Proof.
  induction 1 as [|x l Hl IH Hf]; [constructor|]. cbn. destruct (p x); [|exact IH]. constructor; [exact IH|].
  rewrite Forall_forall in *. intros y Hy. apply filter_In in Hy. apply Hf, Hy.
Qed.

Lemma filter_map_fst (p : Z -> bool) (q : block -> bool) bs : (forall b, In b bs -> p (fst b) = q b) ->
  filter p (map fst bs) = map fst (filter q bs).
Proof.
  induction bs as [|b bs IH]; intros H; [reflexivity|]. cbn [map filter].
  rewrite (H b (or_introl eq_refl)), IH by (intros c Hc; apply H; right; exact Hc). destruct (q b); reflexivity.
Qed.

Lemma core_err (bs : list block) d n (G : list (row W)) :
  wfb bs -> StronglySorted Z.lt (map fst bs) -> SmallSteps (flatten bs) ->
  (forall i, Occurs (flatten bs) i -> Regular (flatten bs) i d) ->
  (1 <= n)%nat -> (forall b, In b bs -> (n <= length (snd b))%nat) -> ValidRows G ->
  (exists i, Occurs G i /\ hd 0 (times_of G i) <> Z.of_nat (n - 1) * d) \/
  (forall L, map fst (filter (fun b => length (snd b) =? L)%nat bs) <> ids G) ->
  reconstruct_controlled_core enc step out d (flatten bs) G n = Err TSCException.
Proof.
  intros Wf Hs HSS HR Hn HL VG HE.
  assert (SX : IdsSorted (flatten bs)) by (apply flatten_sorted; exact Hs).
  unfold reconstruct_controlled_core. rewrite (shift_blocks_eq bs d Wf HSS SX HR). cbn [bind].
  set (cs := map sb bs).
  assert (Wc : wfb cs) by (apply sb_wfb; exact Wf).
  assert (VS := wfb_valid _ Wc).
  assert (HRc : forall i, Occurs (flatten cs) i -> Regular (flatten cs) i d).
  { intros i Hi. unfold cs in Hi. apply (proj1 (sb_occurs bs i Wf)) in Hi. assert (Hi' := Hi).
    apply (proj1 (occurs_block bs i Wf)) in Hi. destruct Hi as (b & Hb & <-). apply sb_regular; auto. }
  assert (Fc : map fst cs = map fst bs) by (unfold cs; rewrite map_map; reflexivity).
  assert (Sc : IdsSorted (flatten cs)) by (apply flatten_sorted; rewrite Fc; exact Hs).
  assert (Ic : ids (flatten cs) = map fst bs) by (rewrite (ids_sorted_blocks cs Wc Sc); exact Fc).
  assert (LF : forall b, In b bs -> length (rows_of (flatten cs) (fst b)) = length (snd b)).
  { intros b Hb. change (fst b) with (fst (sb b)).
    rewrite (rows_of_flatten cs (sb b) (wf_nodup _ Wc) (in_map sb _ _ Hb)), brows_length.
    unfold sb. cbn [snd]. apply map_length. }
  assert (Ob : forall b, In b bs -> Occurs (flatten cs) (fst b)).
  { intros b Hb. apply (sb_occurs bs (fst b) Wf). apply (occurs_block bs _ Wf). eauto. }
  assert (T0 : forall b, In b bs -> times_of (flatten cs) (fst b) = equispaced 0 d (length (snd b))).
  { intros b Hb. rewrite (ReconProofs.regular_times (flatten cs) (fst b) d VS (Ob b Hb) (proj2 (HRc _ (Ob b Hb)))), (LF b Hb).
    f_equal. unfold times_of. change (fst b) with (fst (sb b)).
    rewrite (rows_of_flatten cs (sb b) (wf_nodup _ Wc) (in_map sb _ _ Hb)).
    change (map rtime (brows (sb b))) with (time_index (brows (sb b))). rewrite times_brows, sb_times. unfold bstart.
    destruct (wf_blocks _ Wf b Hb) as (H1 & _). destruct (snd b); [congruence|]. cbn. lia. }
  rewrite (iter_groups (flatten cs) d n VS (sb_small bs d Wf HSS HR) Hn).
  2:{ intros i Hi. split; [apply HRc; exact Hi|]. apply in_ids in Hi. rewrite Ic in Hi.
      apply in_map_iff in Hi. destruct Hi as (b & <- & Hb). rewrite (LF b Hb). apply HL. exact Hb. }
  cbn [bind]. rewrite (map_result_all_err _ _ TSCException); [reflexivity| |].
  { assert (Hne : ids (flatten cs) <> []).
    { rewrite Ic. destruct bs; [exfalso; apply (wf_ne _ Wf); reflexivity|discriminate]. }
    destruct (ids (flatten cs)) as [|i l]; [congruence|].
    assert (Hk : In (keyof (flatten cs) d i) (sort_keys (map (keyof (flatten cs) d) (i :: l))))
      by (apply in_sort_keys; left; reflexivity).
    destruct (sort_keys _); [destruct Hk|discriminate]. }
  intros g Hg. apply in_map_iff in Hg. destruct Hg as (k & <- & Hk). cbv zeta.
  apply (proj1 (in_sort_keys _ _)) in Hk. apply in_map_iff in Hk. destruct Hk as (i0 & Ek & Hi0).
  assert (Hi0' := Hi0). rewrite Ic in Hi0'. apply in_map_iff in Hi0'. destruct Hi0' as (b0 & Eb0 & Hb0).
  assert (HK : forall b, In b bs -> key_eqb (keyof (flatten cs) d (fst b)) k = (length (snd b) =? length (snd b0))%nat).
  { intros b Hb. rewrite <- Ek, <- Eb0.
    assert (Hd : 0 < d) by (apply (regular_pos _ _ d VS (HRc _ (Ob b Hb)))).
    unfold keyof. rewrite !(time_interval_regular (flatten cs) _ d VS) by (try apply Ob; try apply HRc; auto).
    rewrite (T0 b Hb), (T0 b0 Hb0), (LF b Hb), (LF b0 Hb0).
    assert (E0 : forall m, hd 0 (equispaced 0 d m) = 0) by (intros [|m]; [reflexivity|rewrite equispaced_S; reflexivity]).
    rewrite !E0. cbn [key_eqb]. nia. }
  rewrite Ic. rewrite (filter_map_fst _ _ bs HK).
  set (gids := map fst (filter (fun b => length (snd b) =? length (snd b0))%nat bs)).
  assert (Hgid : forall i, In i gids -> exists b, In b bs /\ fst b = i /\ length (snd b) = length (snd b0)).
  { intros i Hi. apply in_map_iff in Hi. destruct Hi as (b & <- & Hb). apply filter_In in Hb. exists b.
    split; [apply Hb|]. split; [reflexivity|]. lia. }
  assert (Sg : StronglySorted Z.lt gids).
  { unfold gids. rewrite <- (filter_map_fst (fun i => key_eqb (keyof (flatten cs) d i) k) _ bs HK). apply sorted_filter_lt. exact Hs. }
  destruct (initial_group (flatten cs) n gids VS Hn) as [_ W2].
  { assert (Hin : In (fst b0) gids).
    { apply in_map. apply filter_In. split; [exact Hb0|apply Nat.eqb_refl]. }
    intros E. rewrite E in Hin. destruct Hin. }
  { apply sorted_lt_NoDup. exact Sg. }
  { intros i Hi. destruct (Hgid i Hi) as (b & Hb & <- & _). split; [apply Ob; exact Hb|]. rewrite (LF b Hb). apply HL. exact Hb. }
  set (ics := ic_blocks (flatten cs) n gids) in *.
  assert (Fi : map fst ics = gids) by (unfold ics, ic_blocks; rewrite map_map; cbn; apply map_id).
  unfold predict_group_controlled. rewrite (validate_control_err (flatten ics) G (Z.of_nat (n - 1) * d)); [reflexivity| | | |exact VG|].
  - apply wfb_valid. exact W2.
  - apply flatten_sorted. rewrite Fi. exact Sg.
  - intros i Hi. apply (proj1 (occurs_block ics i W2)) in Hi. destruct Hi as (b & Hb & <-).
    assert (Hb' := Hb). apply in_map_iff in Hb'. destruct Hb' as (i & Eb & Hi). destruct (Hgid i Hi) as (b1 & Hb1 & Ei & _).
    assert (Hd : 0 < d) by (apply (regular_pos _ _ d VS (HRc _ (Ob b1 Hb1)))).
    assert (ET : map rtime (brows b) = equispaced 0 d n).
    { change (map rtime (brows b)) with (time_index (brows b)). rewrite times_brows, <- Eb. cbn [snd].
      unfold pairs_of. rewrite <- firstn_map, map_map. cbn [fst]. rewrite <- Ei.
      change (map (fun x => rtime x) (rows_of (flatten cs) (fst b1))) with (times_of (flatten cs) (fst b1)).
      rewrite (T0 b1 Hb1). apply equispaced_firstn. apply HL. exact Hb1. }
    assert (ER := rows_of_flatten ics b (wf_nodup _ W2) Hb).
    split.
    + assert (Hin : In (Z.of_nat (n - 1) * d) (map rtime (brows b))).
      { rewrite ET. unfold equispaced. apply in_map_iff. exists (n - 1)%nat. split; [lia|]. apply in_seq. lia. }
      apply in_map_iff in Hin. destruct Hin as (q & E & Hq). rewrite <- ER in Hq.
      exists q. apply filter_In in Hq. destruct Hq as [Hq E2]. apply Z.eqb_eq in E2. auto.
    + intros q Hq E.
      assert (Hq' : In q (rows_of (flatten ics) (fst b))) by (apply filter_In; split; [exact Hq|apply Z.eqb_eq; exact E]).
      rewrite ER in Hq'. apply (in_map rtime) in Hq'. rewrite ET in Hq'. unfold equispaced in Hq'.
      apply in_map_iff in Hq'. destruct Hq' as (j & <- & Hj). apply in_seq in Hj. nia.
  - destruct HE as [HE|HE]; [right; exact HE|left].
    rewrite (ids_sorted_blocks ics W2) by (apply flatten_sorted; rewrite Fi; exact Sg). rewrite Fi. apply HE.
Qed.

(** ** collections *)

Lemma same_length_blocks (F : frame) d n : ValidRows F -> IdsSorted F -> AllRegular F d -> SameLength F ->
  (forall i, Occurs F i -> (n < length (rows_of F i))%nat) ->
  exists bs L, F = flatten bs /\ wfb bs /\ StronglySorted Z.lt (map fst bs) /\ RegBlocks bs L d /\ (n < L)%nat /\ 0 < d /\
    (forall i, Occurs F i -> length (rows_of F i) = L).
Proof.
  intros HV HS HR HSL HL. destruct (valid_blocks F HV) as (bs & EF & Wf).
  destruct (valid_occurs F HV) as (i0 & Hi0). exists bs, (length (rows_of F i0)).
  split; [exact EF|]. split; [exact Wf|]. split.
  { rewrite <- (ids_sorted_blocks bs Wf) by (rewrite <- EF; exact HS). apply ids_sorted. }
  split; [|split; [|split]].
  - intros b Hb. exists (hd 0 (times_of F (fst b))).
    assert (Ho : Occurs F (fst b)) by (rewrite EF; apply (occurs_block bs _ Wf); eauto).
    assert (E := ReconProofs.regular_times F (fst b) d HV Ho (proj2 (HR _ Ho))).
    rewrite (HSL i0 (fst b) Hi0 Ho).
    assert (ER : times_of F (fst b) = map fst (snd b)).
    { unfold times_of. rewrite EF, (rows_of_flatten bs b (wf_nodup _ Wf) Hb).
      change (map rtime (brows b)) with (time_index (brows b)). apply times_brows. }
    split; [|rewrite <- ER; exact E]. rewrite ER. destruct (wf_blocks _ Wf b Hb) as (H1 & _ & H3 & _).
    destruct (snd b) as [|p s]; [congruence|]. cbn. apply H3. left; reflexivity.
  - apply HL. exact Hi0.
  - apply (regular_pos F i0 d HV (HR _ Hi0)).
  - intros i Hi. apply HSL; assumption.
Qed.

Lemma removelast_equispaced s d m : removelast (equispaced s d (Datatypes.S m)) = equispaced s d m.
Proof. rewrite equispaced_snoc. apply removelast_last. Qed.

Lemma elapsed_equispaced (F : frame) i d : ValidRows F -> Occurs F i -> Regular F i d ->
  elapsed_times F i = equispaced 0 d (length (rows_of F i)).
Proof.
  intros HV Ho HR. unfold elapsed_times. set (c := hd 0 (times_of F i)).
  rewrite (ReconProofs.regular_times F i d HV Ho (proj2 HR)). fold c. unfold equispaced. rewrite map_map.
  apply map_ext. intros j. lia.
Qed.

Lemma same_ids {A B} (F : list (row A)) (G : list (row B)) : (forall i, Occurs G i <-> Occurs F i) -> ids G = ids F.
Proof.
  intros H. apply sorted_lt_unique; try apply ids_sorted. intros i. rewrite !in_ids. apply H.
Qed.

Lemma edmd_controlled_ok (F : frame) (G : list (row W)) d n :
  ValidRows F -> IdsSorted F -> SmallSteps F -> AllRegular F d -> SameLength F ->
  (1 <= n)%nat -> (forall i, Occurs F i -> (n < length (rows_of F i))%nat) ->
  ValidRows G -> IdsSorted G -> ControlElapsed F G n ->
  edmd_reconstruct_controlled enc step out d F G n
  = Ok (flat_map (controlled_reconstruction enc step out F G n) (ids F)).
Proof.
  intros HV HS HSS HR HSL Hn HL VG SG [HC1 HC2]. unfold edmd_reconstruct_controlled.
  replace (check_required_min_timesteps F (n + 1)) with (@Ok unit tt).
  2:{ symmetry. apply (min_timesteps_ok F (n + 1) (vr_nonempty _ HV)). intros i Hi. specialize (HL i Hi). lia. }
  cbn [bind].
  destruct (same_length_blocks F d n HV HS HR HSL HL) as (bs & L & EF & Wf & Hs & HRB & HnL & Hd & HLen).
  assert (EI : ids G = map fst bs).
  { rewrite (same_ids F G HC1), EF. apply ids_sorted_blocks; [exact Wf|rewrite <- EF; exact HS]. }
  assert (HC : CommonTimes G (equispaced (Z.of_nat (n - 1) * d) d (L - n))).
  { intros i Hi. apply HC1 in Hi. rewrite (HC2 i Hi), (elapsed_equispaced F i d HV Hi (HR i Hi)), (HLen i Hi).
    rewrite equispaced_skipn by lia. replace (L - (n - 1))%nat with (Datatypes.S (L - n)) by lia.
    rewrite removelast_equispaced. f_equal. }
  rewrite EF in HSS |- *. apply (core_ok bs L d n G); auto.
Qed.

Lemma edmd_controlled_err (F : frame) (G : list (row W)) d n :
  ValidRows F -> IdsSorted F -> SmallSteps F -> AllRegular F d ->
  (1 <= n)%nat -> (forall i, Occurs F i -> (n < length (rows_of F i))%nat) -> ValidRows G ->
  (exists i, Occurs G i /\ hd 0 (times_of G i) <> Z.of_nat (n - 1) * d) \/
  (~ SameLength F /\ forall i, Occurs F i -> Occurs G i) ->
  edmd_reconstruct_controlled enc step out d F G n = Err TSCException.
Proof.
  intros HV HS HSS HR Hn HL VG HE. unfold edmd_reconstruct_controlled.
  replace (check_required_min_timesteps F (n + 1)) with (@Ok unit tt).
  2:{ symmetry. apply (min_timesteps_ok F (n + 1) (vr_nonempty _ HV)). intros i Hi. specialize (HL i Hi). lia. }
  cbn [bind]. destruct (valid_blocks F HV) as (bs & EF & Wf).
  assert (HB : forall b, In b bs -> rows_of F (fst b) = brows b) by (intros b Hb; rewrite EF; apply rows_of_flatten; [apply (wf_nodup _ Wf)|exact Hb]).
  assert (HO : forall b, In b bs -> Occurs F (fst b)) by (intros b Hb; rewrite EF; apply (occurs_block bs _ Wf); eauto).
  assert (Hs : StronglySorted Z.lt (map fst bs)).
  { rewrite <- (ids_sorted_blocks bs Wf) by (rewrite <- EF; exact HS). apply ids_sorted. }
  assert (HE' : (exists i, Occurs G i /\ hd 0 (times_of G i) <> Z.of_nat (n - 1) * d) \/
                (forall L, map fst (filter (fun b => length (snd b) =? L)%nat bs) <> ids G)).
  { destruct HE as [HE|[HN HG]]; [left; exact HE|right]. intros L E. apply HN.
    assert (HX : forall i, Occurs F i -> length (rows_of F i) = L).
    { intros i Hi. specialize (HG i Hi). apply in_ids in HG. rewrite <- E in HG. apply in_map_iff in HG.
      destruct HG as (b & <- & Hb). apply filter_In in Hb. destruct Hb as [Hb El]. rewrite (HB b Hb), brows_length. lia. }
    intros i j Hi Hj. rewrite (HX i Hi), (HX j Hj). reflexivity. }
  rewrite EF in HSS |- *. apply (core_err bs d n G); auto.
  - intros i Hi. rewrite <- EF in *. apply HR. exact Hi.
  - intros b Hb. specialize (HL (fst b) (HO b Hb)). rewrite (HB b Hb), brows_length in HL. lia.
Qed.

End Core.
