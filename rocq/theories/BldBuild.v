(** * Proofs: constructors, expansion, shifts and checks. *)

From Coq Require Import List ZArith Bool Arith Lia Sorted Permutation.
From Coq Require Import ZifyBool ZifyNat.
Import ListNotations.
From Verif Require Import Np NpFacts TscModel TscSpec TscBlocks TscProofs TscDt TscOps TscBuild TscShift TscRegular.
From Verif Require Import PredModel PredSpec PredProofs ReconModel ReconSpec ReconProofs ReconEdmd.
From Verif Require Import CvModel CvWindow AccSpec AccProofs ChkModel ChkSpec ChkProofs BldModel BldSpec BldProofs.
Close Scope nat_scope.
Open Scope Z_scope.

Section Bld.
Context {V : Type}.
Notation frame := (list (row V)).
Notation block := (Z * list (Z * V))%type.

Lemma tsc_error (rows : frame) e : rows <> [] -> tsc rows = Err e -> e = AttributeError.
Proof.
  intros Hne. unfold tsc, validate_index. destruct rows as [|r rows]; [congruence|].
  unfold ids_index. cbn [map].
  repeat match goal with |- context [if ?b then _ else _] => destruct b end; congruence.
Qed.

(** ** single series *)

Lemma insert_time_perm (p : Z * V) l : Permutation (insert_time p l) (p :: l).
Proof.
  induction l as [|q l IH]; [reflexivity|]. cbn. destruct (fst p <=? fst q); [reflexivity|].
  rewrite IH. apply perm_swap.
Qed.

Lemma sort_times_perm (l : list (Z * V)) : Permutation (sort_times l) l.
Proof.
  induction l as [|p l IH]; [reflexivity|]. cbn [sort_times fold_right].
  rewrite insert_time_perm. constructor. exact IH.
Qed.

Lemma insert_time_sorted (p : Z * V) l : StronglySorted Z.le (map fst l) ->
  StronglySorted Z.le (map fst (insert_time p l)).
Proof.
  induction l as [|q l IH]; intros HS; cbn; [repeat constructor|].
  apply StronglySorted_inv in HS. destruct HS as [HS Hf].
  destruct (fst p <=? fst q) eqn:E; cbn.
  - constructor; [constructor; assumption|]. constructor; [lia|].
    rewrite Forall_forall in *. intros x Hx. specialize (Hf x Hx). lia.
  - constructor; [apply IH; exact HS|]. rewrite Forall_forall in *. intros x Hx.
    apply (Permutation_in x (Permutation_map fst (insert_time_perm p l))) in Hx.
    destruct Hx as [<-|Hx]; [lia|]. apply Hf; exact Hx.
Qed.

Lemma sort_times_sorted (l : list (Z * V)) : StronglySorted Z.le (map fst (sort_times l)).
Proof. induction l as [|p l IH]; [constructor|]. apply insert_time_sorted. exact IH. Qed.

Lemma sorted_le_lt l : StronglySorted Z.le l -> NoDup l -> StronglySorted Z.lt l.
Proof.
  induction l as [|x l IH]; intros HS HN; [constructor|].
  apply StronglySorted_inv in HS. destruct HS as [HS Hf]. apply NoDup_cons_iff in HN. destruct HN as [Hni HN].
  constructor; [auto|]. rewrite Forall_forall in *. intros y Hy.
  specialize (Hf y Hy). assert (x <> y) by (intros ->; auto). lia.
Qed.

Lemma sorted_rows_unique (l m : frame) : Permutation l m ->
  StronglySorted Z.lt (map rtime l) -> StronglySorted Z.lt (map rtime m) -> l = m.
Proof.
  revert m. induction l as [|r l IH]; intros m HP HL HM.
  - apply Permutation_nil in HP. congruence.
  - destruct m as [|q m]; [apply Permutation_sym, Permutation_nil in HP; discriminate|].
    cbn in HL, HM. apply StronglySorted_inv in HL, HM. destruct HL as [HL Hl], HM as [HM Hm].
    rewrite Forall_forall in Hl, Hm.
    assert (E : r = q).
    { assert (H1 : In r (q :: m)) by (apply (Permutation_in r HP); left; reflexivity).
      assert (H2 : In q (r :: l)) by (apply (Permutation_in q (Permutation_sym HP)); left; reflexivity).
      destruct H1 as [H1|H1]; [auto|]. destruct H2 as [H2|H2]; [auto|].
      specialize (Hl _ (in_map rtime _ _ H2)). specialize (Hm _ (in_map rtime _ _ H1)). lia. }
    subst q. f_equal. apply IH; [|exact HL|exact HM]. apply Permutation_cons_inv in HP. exact HP.
Qed.

Lemma good_series_rows i (s : list (Z * V)) : ValidRows (series_rows i s) <-> 0 <= i /\ GoodSeries s.
Proof.
  split.
  - intros HV. assert (Hne : s <> []).
    { intros ->. apply (vr_nonempty _ HV). reflexivity. }
    split; [|split; [exact Hne|split]].
    + destruct s as [|p s]; [congruence|]. apply (vr_ids _ HV (mkRow i (fst p) (snd p))). left; reflexivity.
    + intros p Hp. apply (vr_times _ HV (mkRow i (fst p) (snd p))).
      apply in_map_iff. exists p; auto.
    + assert (HS := times_of_sorted _ i HV). unfold times_of in HS.
      replace (rows_of (series_rows i s) i) with (series_rows i s) in HS.
      * unfold series_rows in HS. rewrite map_map in HS. exact HS.
      * symmetry. unfold rows_of, series_rows. clear HV Hne HS. induction s as [|p s IH]; [reflexivity|].
        cbn. rewrite Z.eqb_refl. f_equal. exact IH.
  - intros [Hi Hg]. destruct Hg as (H1 & H2 & H3). rewrite <- series_rows_flatten. apply wfb_valid.
    constructor; [discriminate|constructor; [intros []|constructor]|].
    intros b [<-|[]]. cbn. auto.
Qed.

Lemma good_sorted i (s : list (Z * V)) : GoodPairs i s <-> 0 <= i /\ GoodSeries (sort_times s).
Proof.
  assert (HP := sort_times_perm s). unfold GoodPairs, GoodSeries. split.
  - intros (Hi & Hne & HN & Ht). split; [exact Hi|]. split; [|split].
    + intros E. rewrite E in HP. apply Permutation_nil in HP. congruence.
    + intros p Hp. apply Ht, in_map, (Permutation_in p HP Hp).
    + apply sorted_le_lt; [apply sort_times_sorted|].
      apply (Permutation_NoDup (Permutation_sym (Permutation_map fst HP)) HN).
  - intros (Hi & Hne & Ht & HS). split; [exact Hi|]. split; [|split].
    + intros ->. apply Hne. reflexivity.
    + apply (Permutation_NoDup (Permutation_map fst HP)). apply sorted_lt_NoDup, HS.
    + intros t Hx. apply in_map_iff in Hx. destruct Hx as (p & <- & Hp).
      apply Ht, (Permutation_in p (Permutation_sym HP) Hp).
Qed.

Lemma from_single_spec (s : list (Z * V)) oi F :
  let i := match oi with None => 0 | Some i => i end in
  from_single_timeseries s oi = Ok F <->
  GoodPairs i s /\ Permutation F (series_rows i s) /\ StronglySorted Z.lt (map rtime F).
Proof.
  intros i. unfold from_single_timeseries. fold i.
  assert (HP : Permutation (series_rows i (sort_times s)) (series_rows i s)).
  { unfold series_rows. apply Permutation_map, sort_times_perm. }
  assert (HT : forall l : list (Z * V), map rtime (series_rows i l) = map fst l).
  { intros l. unfold series_rows. rewrite map_map. reflexivity. }
  rewrite tsc_ok, good_series_rows, <- good_sorted. split.
  - intros (Hg & ->). split; [exact Hg|]. split; [exact HP|]. rewrite HT.
    apply good_sorted in Hg. apply Hg.
  - intros (Hg & HF & HS). split; [exact Hg|]. apply sorted_rows_unique; [|exact HS|].
    + rewrite HF. symmetry. exact HP.
    + rewrite HT. apply good_sorted in Hg. apply Hg.
Qed.

Lemma from_single_error (s : list (Z * V)) oi :
  let i := match oi with None => 0 | Some i => i end in
  s <> [] -> ~ GoodPairs i s -> from_single_timeseries s oi = Err AttributeError.
Proof.
  intros i Hne Hg. destruct (from_single_timeseries s oi) as [F|e] eqn:E.
  - apply from_single_spec in E. destruct Hg. apply E.
  - f_equal. apply (tsc_error _ e) in E; [exact E|]. intros E0. apply map_eq_nil in E0.
    assert (HP := sort_times_perm s). rewrite E0 in HP. apply Permutation_nil in HP. congruence.
Qed.

Lemma from_array_spec (rows : list V) tv oi F :
  let i := match oi with None => 0 | Some i => i end in
  let t := match tv with None => np_arange (length rows) | Some l => l end in
  from_array rows tv oi = Ok F <->
  length t = length rows /\ GoodPairs i (combine t rows) /\
  Permutation F (series_rows i (combine t rows)) /\ StronglySorted Z.lt (map rtime F).
Proof.
  intros i t. unfold from_array. fold t. destruct (length t =? length rows)%nat eqn:E; cbn [negb].
  - rewrite from_single_spec. fold i. split; [intros H; split; [lia|exact H]|intros H; apply H].
  - split; [discriminate|]. intros (H & _). lia.
Qed.

Lemma np_arange_sorted_lt n : StronglySorted Z.lt (np_arange n).
Proof.
  unfold np_arange. generalize 0%nat. induction n as [|n IH]; intros a; cbn; [constructor|].
  constructor; [apply IH|]. apply Forall_forall. intros x Hx. apply in_map_iff in Hx.
  destruct Hx as (k & <- & Hk). apply in_seq in Hk. lia.
Qed.

Lemma np_arange_len n : length (np_arange n) = n.
Proof. unfold np_arange. rewrite map_length, seq_length. reflexivity. Qed.

Lemma np_arange_nonneg n x : In x (np_arange n) -> 0 <= x.
Proof. unfold np_arange. intros H. apply in_map_iff in H. destruct H as (k & <- & _). lia. Qed.

Lemma map_fst_combine_eq {A B} (l : list A) (m : list B) : length l = length m -> map fst (combine l m) = l.
Proof. revert m. induction l as [|x l IH]; intros [|y m] H; cbn in *; try discriminate; [reflexivity|]. f_equal. apply IH. lia. Qed.

Lemma from_array_default (rows : list V) oi :
  let i := match oi with None => 0 | Some i => i end in
  rows <> [] -> 0 <= i ->
  from_array rows None oi = Ok (series_rows i (combine (np_arange (length rows)) rows)).
Proof.
  intros i Hne Hi. apply from_array_spec. fold i.
  assert (HL : length (np_arange (length rows)) = length rows) by apply np_arange_len.
  assert (HF : map fst (combine (np_arange (length rows)) rows) = np_arange (length rows))
    by (apply map_fst_combine_eq; exact HL).
  split; [exact HL|]. split; [|split; [reflexivity|]].
  - split; [exact Hi|]. rewrite HF. split; [|split].
    + intros E. apply (f_equal (@length _)) in E. rewrite combine_length, HL in E. destruct rows; [congruence|cbn in E; lia].
    + apply sorted_lt_NoDup, np_arange_sorted_lt.
    + apply np_arange_nonneg.
  - unfold series_rows. rewrite map_map.
    change (StronglySorted Z.lt (map fst (combine (np_arange (length rows)) rows))). rewrite HF. apply np_arange_sorted_lt.
Qed.

(** ** lists of series *)

Lemma from_frames_spec (frames : list (list (Z * V))) oi G : frames <> [] ->
  let i := opt_ids (length frames) oi in
  from_frame_list frames oi = Ok G <->
  length i = length frames /\ NoDup i /\
  (forall p, In p (combine i frames) -> 0 <= fst p /\ GoodSeries (snd p)) /\
  G = flat_map (fun p => series_rows (fst p) (snd p)) (combine i frames).
Proof.
  intros Hne i. unfold from_frame_list. destruct frames as [|f0 fs]; [congruence|].
  set (frames := f0 :: fs) in *. change (match oi with None => np_arange (length frames) | Some l => l end) with i.
  destruct (length i =? length frames)%nat eqn:EL; cbn [negb orb].
  2:{ split; [discriminate|]. intros (H & _). lia. }
  destruct (length (np_unique i) =? length frames)%nat eqn:EU; cbn [negb].
  2:{ split; [discriminate|]. intros (H & HN & _). apply np_unique_length_NoDup in HN. lia. }
  assert (HN : NoDup i) by (apply np_unique_length_NoDup; lia).
  assert (HL : length i = length frames) by lia.
  split.
  - destruct (map_result _ _) as [l|e] eqn:EM; [|discriminate]. intros H. apply tsc_ok in H. destruct H as [_ ->].
    apply map_result_inv in EM. split; [exact HL|]. split; [exact HN|].
    assert (HX : (forall p, In p (combine i frames) -> 0 <= fst p /\ GoodSeries (snd p)) /\
                 l = map (fun p => series_rows (fst p) (snd p)) (combine i frames)).
    { clear -EM. induction EM as [|p q ps qs H0 HF IH]; [split; [intros _ []|reflexivity]|].
      apply tsc_ok in H0. destruct H0 as [HV ->]. apply good_series_rows in HV. destruct IH as [IH ->]. split.
      - intros x [<-|Hx]; auto.
      - reflexivity. }
    destruct HX as [HX ->]. split; [exact HX|]. rewrite flat_map_concat_map. reflexivity.
  - intros (_ & _ & HG & ->).
    rewrite (map_result_ok _ (fun p => series_rows (fst p) (snd p))).
    2:{ intros p Hp. apply tsc_ok. split; [apply good_series_rows, HG, Hp|reflexivity]. }
    rewrite <- flat_map_concat_map. apply tsc_ok. split; [|reflexivity].
    change (flat_map (fun p => series_rows (fst p) (snd p)) (combine i frames)) with (flatten (combine i frames)).
    apply wfb_valid. constructor.
    + intros E. apply (f_equal (@length _)) in E. rewrite combine_length, HL in E. cbn in E. lia.
    + rewrite map_fst_combine_eq by exact HL. exact HN.
    + intros b Hb. destruct (HG b Hb) as (H0 & H1 & H2 & H3). auto.
Qed.

Lemma sorted_lt_unique l m : StronglySorted Z.lt l -> StronglySorted Z.lt m -> (forall x, In x l <-> In x m) -> l = m.
Proof.
  intros Hl Hm H. rewrite <- (np_unique_of_sorted l Hl), <- (np_unique_of_sorted m Hm). apply np_unique_ext. exact H.
Qed.

Lemma filter_every {A} (f : A -> bool) l : (forall x, In x l -> f x = true) -> filter f l = l.
Proof.
  induction l as [|x l IH]; intros H; [reflexivity|]. cbn. rewrite (H x (or_introl eq_refl)). f_equal.
  apply IH. intros y Hy. apply H. right; exact Hy.
Qed.

Definition item_ok (x : @item V) : Prop := match x with Single _ => True | Collection F => ValidRows F end.

Lemma one_series (F : frame) : ValidRows F -> ~ (1 < length (ids F))%nat -> exists i, ids F = [i] /\ rows_of F i = F.
Proof.
  intros HV H. destruct (ids F) as [|i [|j l]] eqn:E.
  - destruct (ids_nonempty F (vr_nonempty F HV) E).
  - exists i. split; [reflexivity|]. unfold rows_of. apply filter_every. intros r Hr.
    assert (Hi : In (rid r) (ids F)) by (apply in_ids; exists r; auto). rewrite E in Hi. destruct Hi as [->|[]]. lia.
  - cbn in H. lia.
Qed.

Lemma split_parts (x : item) l : item_ok x -> Parts x l <-> l = split_item x.
Proof.
  destruct x as [s|F]; cbn [Parts split_item item_ok]; [reflexivity|]. intros HV.
  assert (EP : split_item (Collection F) = map (pairs_of F) (ids F)).
  { cbn [split_item]. destruct (1 <? length (ids F))%nat eqn:E; [reflexivity|].
    destruct (one_series F HV) as (i & -> & Er); [lia|]. cbn. unfold pairs_of. rewrite Er. reflexivity. }
  cbn [split_item] in EP. rewrite EP. split.
  - intros (is & HS & Hin & ->). f_equal. apply sorted_lt_unique; [exact HS|apply ids_sorted|].
    intros i. rewrite in_ids. apply Hin.
  - intros ->. exists (ids F). split; [apply ids_sorted|]. split; [|reflexivity]. intros i. apply in_ids.
Qed.

Lemma split_allparts (xs : list item) l : (forall x, In x xs -> item_ok x) ->
  AllParts xs l <-> l = flat_map split_item xs.
Proof.
  intros Hok. unfold AllParts. rewrite flat_map_concat_map. split.
  - intros (ls & HF & ->). f_equal. induction HF as [|x p xs ps H HF IH]; [reflexivity|].
    cbn. f_equal.
    + apply split_parts; [apply Hok; left; reflexivity|exact H].
    + apply IH. intros y Hy. apply Hok; right; exact Hy.
  - intros ->. exists (map split_item xs). split; [|reflexivity].
    induction xs as [|x xs IH]; constructor.
    + apply split_parts; [apply Hok; left; reflexivity|reflexivity].
    + apply IH. intros y Hy. apply Hok; right; exact Hy.
Qed.

Lemma split_nonempty (x : item) : item_ok x -> split_item x <> [].
Proof.
  destruct x as [s|F]; cbn [split_item item_ok]; [discriminate|]. intros HV.
  destruct (1 <? length (ids F))%nat eqn:E; [|discriminate].
  intros H. apply map_eq_nil in H. rewrite H in E. discriminate.
Qed.

Lemma from_items_spec (xs : list item) oi G : (forall x, In x xs -> item_ok x) ->
  from_items xs oi = Ok G <->
  xs <> [] /\ exists parts labels, AllParts xs parts /\
    labels = match oi with Some l => l | None => np_arange (length parts) end /\
    length labels = length parts /\ NoDup labels /\
    (forall i s, In (i, s) (combine labels parts) -> 0 <= i /\ GoodSeries s) /\
    G = flat_map (fun p => series_rows (fst p) (snd p)) (combine labels parts).
Proof.
  intros Hok. unfold from_items. destruct xs as [|x xs].
  { split; [discriminate|]. intros ([] & _). reflexivity. }
  set (ys := x :: xs) in *.
  assert (Hne : flat_map split_item ys <> []).
  { unfold ys. cbn. assert (H := split_nonempty x (Hok x (or_introl eq_refl))).
    destruct (split_item x); [congruence|discriminate]. }
  rewrite (from_frames_spec _ oi G Hne). cbv zeta. unfold opt_ids. split.
  - intros (H1 & H2 & H3 & H4). split; [discriminate|].
    exists (flat_map split_item ys), (match oi with None => np_arange (length (flat_map split_item ys)) | Some l => l end).
    split; [apply split_allparts; [exact Hok|reflexivity]|].
    split; [destruct oi; reflexivity|]. split; [exact H1|]. split; [exact H2|]. split; [|exact H4].
    intros i s Hi. apply (H3 (i, s) Hi).
  - intros (_ & parts & labels & HP & EL & H1 & H2 & H3 & H4).
    apply (split_allparts ys parts Hok) in HP. rewrite HP in *. clear HP parts.
    assert (EL' : labels = match oi with None => np_arange (length (flat_map split_item ys)) | Some l => l end)
      by (destruct oi; exact EL).
    rewrite <- EL'. split; [exact H1|]. split; [exact H2|]. split; [|exact H4].
    intros [i s] Hi. apply (H3 i s Hi).
Qed.

Lemma pairs_rows (F : frame) i : series_rows i (pairs_of F i) = rows_of F i.
Proof.
  unfold series_rows, pairs_of. rewrite map_map. cbn [fst snd]. rewrite <- (map_id (rows_of F i)) at 2.
  apply map_ext_in. intros r Hr. rewrite <- (rid_rows_of F i r Hr). destruct r; reflexivity.
Qed.

Lemma pairs_good (F : frame) i : ValidRows F -> Occurs F i -> 0 <= i /\ GoodSeries (pairs_of F i).
Proof.
  intros HV Hi. split; [destruct Hi as (r & Hr & <-); apply (vr_ids _ HV r Hr)|].
  unfold GoodSeries, pairs_of. split; [|split].
  - apply rows_of_nonempty in Hi. intros E. apply map_eq_nil in E. congruence.
  - intros p Hp. apply in_map_iff in Hp. destruct Hp as (r & <- & Hr). apply filter_In in Hr.
    apply (vr_times _ HV r), Hr.
  - rewrite map_map. apply (times_of_sorted F i HV).
Qed.

Lemma roundtrip (F : frame) : ValidRows F ->
  from_items [Collection F] (Some (ids F)) = Ok (flat_map (rows_of F) (ids F)).
Proof.
  intros HV. apply from_items_spec.
  { intros x [<-|[]]. exact HV. }
  split; [discriminate|]. exists (map (pairs_of F) (ids F)), (ids F).
  split.
  { exists [map (pairs_of F) (ids F)]. split; [|cbn; rewrite app_nil_r; reflexivity].
    constructor; [|constructor]. exists (ids F). split; [apply ids_sorted|]. split; [intros i; apply in_ids|reflexivity]. }
  split; [reflexivity|]. split; [rewrite map_length; reflexivity|].
  split; [apply sorted_lt_NoDup, ids_sorted|].
  assert (EC : combine (ids F) (map (pairs_of F) (ids F)) = map (fun i => (i, pairs_of F i)) (ids F)).
  { generalize (ids F). intros l. induction l as [|i l IH]; [reflexivity|]. cbn. rewrite IH. reflexivity. }
  rewrite EC. split.
  - intros i s Hi. apply in_map_iff in Hi. destruct Hi as (j & E & Hj). injection E as <- <-.
    apply in_ids in Hj. apply pairs_good; assumption.
  - rewrite flat_map_map. apply flat_map_ext_in. intros i _. cbn. symmetry. apply pairs_rows.
Qed.

Lemma roundtrip_sorted (F : frame) : ValidRows F -> IdsSorted F ->
  from_items [Collection F] (Some (ids F)) = Ok F.
Proof. intros HV HS. rewrite roundtrip by exact HV. f_equal. symmetry. apply (storage_sorted F HV HS). Qed.

End Bld.
