(** * Proofs: stepwise prediction. *)

From Coq Require Import List ZArith Bool Arith Lia Sorted Permutation.
From Coq Require Import ZifyBool ZifyNat.
Import ListNotations.
From Verif Require Import Np NpFacts TscModel TscSpec TscBlocks TscProofs TscDt TscOps TscBuild TscShift TscRegular.
From Verif Require Import PredModel PredSpec PredProofs ReconModel ReconProofs ReconEdmd DerList.
From Verif Require Import AccSpec AccProofs ChkSpec ChkProofs BldModel BldSpec BldProofs BldBuild BldShift WinProofs CtrProofs CtrWin StepModel StepSpec.
Close Scope nat_scope.
Open Scope Z_scope.

Section Frames.
Context {V : Type}.
Notation frame := (list (row V)).
Notation block := (Z * list (Z * V))%type.

(** ** collections are determined by their rows *)

Lemma frame_of_ids (F : frame) : ValidRows F -> IdsSorted F -> F = flat_map (rows_of F) (ids F).
Proof.
  intros HV HS. destruct (valid_blocks F HV) as (bs & EF & Wf).
  rewrite EF at 1 3. rewrite (ids_sorted_blocks bs Wf) by (rewrite <- EF; exact HS).
  unfold flatten. rewrite flat_map_map. apply flat_map_ext_in. intros b Hb.
  rewrite EF, (rows_of_flatten bs b (wf_nodup _ Wf) Hb). reflexivity.
Qed.

Lemma nodup_rows (l : frame) : StronglySorted Z.lt (map rtime l) -> NoDup l.
Proof. intros H. apply sorted_lt_NoDup in H. apply NoDup_map_inv in H. exact H. Qed.

Lemma frames_unique (F G : frame) : ValidRows F -> IdsSorted F -> ValidRows G -> IdsSorted G ->
  (forall r, In r F <-> In r G) -> F = G.
Proof.
  intros VF SF VG SG H. rewrite (frame_of_ids F VF SF), (frame_of_ids G VG SG).
  assert (EI : ids F = ids G).
  { apply sorted_lt_unique; try apply ids_sorted. intros i. rewrite !in_ids. unfold Occurs.
    split; intros (r & Hr & E); exists r; (split; [apply H; exact Hr|exact E]). }
  rewrite EI. apply flat_map_ext. intros i.
  assert (HF := times_of_sorted F i VF). assert (HG := times_of_sorted G i VG).
  apply sorted_rows_unique; [|exact HF|exact HG].
  apply NoDup_Permutation; [apply nodup_rows; exact HF|apply nodup_rows; exact HG|].
  intros r. unfold rows_of. rewrite !filter_In, H. tauto.
Qed.

(** ** collections with common times *)

Definition tab (l all : list Z) (vals : Z -> list V) : list block := map (fun i => (i, combine all (vals i))) l.

Lemma tab_fst l all vals : map fst (tab l all vals) = l.
Proof. unfold tab. rewrite map_map. cbn. apply map_id. Qed.

Lemma tab_wfb l all vals : l <> [] -> StronglySorted Z.lt l -> (forall i, In i l -> 0 <= i) ->
  all <> [] -> StronglySorted Z.lt all -> (forall t, In t all -> 0 <= t) ->
  (forall i, In i l -> length (vals i) = length all) -> wfb (tab l all vals).
Proof.
  intros H1 H2 H3 H4 H5 H6 H7. split.
  - destruct l; [congruence|discriminate].
  - rewrite tab_fst. apply sorted_lt_NoDup. exact H2.
  - intros b Hb. apply in_map_iff in Hb. destruct Hb as (i & <- & Hi). cbn [fst snd].
    assert (EF : map fst (combine all (vals i)) = all) by (apply map_combine_fst; symmetry; apply H7; exact Hi).
    split; [|split; [|split]].
    + intros E. rewrite E in EF. cbn in EF. congruence.
    + apply H3. exact Hi.
    + intros p Hp. apply (in_map fst) in Hp. rewrite EF in Hp. apply H6. exact Hp.
    + rewrite EF. exact H5.
Qed.

Lemma tab_common (F : frame) ts : ValidRows F -> IdsSorted F -> CommonTimes F ts ->
  F = flatten (tab (ids F) ts (fun i => map rval (rows_of F i))).
Proof.
  intros HV HS HC. rewrite (frame_of_ids F HV HS) at 1. unfold flatten, tab. rewrite flat_map_map.
  apply flat_map_ext_in. intros i Hi. apply in_ids in Hi. rewrite <- (HC i Hi).
  unfold brows, series_rows, times_of. cbn [fst snd]. rewrite combine_maps, map_map. cbn [fst snd].
  rewrite <- (map_id (rows_of F i)) at 1. apply map_ext_in. intros r Hr.
  assert (Er := rid_rows_of F i r Hr). destruct r as [a t v]. cbn in *. congruence.
Qed.

Lemma in_tab l all vals r : (forall i, In i l -> length (vals i) = length all) ->
  In r (flatten (tab l all vals)) <-> In (rid r) l /\ In (rtime r, rval r) (combine all (vals (rid r))).
Proof.
  intros HL. rewrite in_flatten. split.
  - intros (b & p & Hb & Hp & ->). apply in_map_iff in Hb. destruct Hb as (i & <- & Hi). cbn in *.
    split; [exact Hi|]. destruct p; exact Hp.
  - intros [Hi Hp]. exists (rid r, combine all (vals (rid r))), (rtime r, rval r).
    split; [apply in_map_iff; eauto|]. split; [exact Hp|]. destruct r; reflexivity.
Qed.

Lemma combine_pad (ts new : list Z) (vs : list V) (fill : V) : length vs = length ts ->
  combine (ts ++ new) (vs ++ repeat fill (length new)) = combine ts vs ++ map (fun t => (t, fill)) new.
Proof.
  intros H. rewrite combine_app by (symmetry; exact H). f_equal.
  clear. induction new as [|t new IH]; [reflexivity|]. cbn. f_equal. exact IH.
Qed.

Lemma sorted_app (l m : list Z) : StronglySorted Z.lt (l ++ m) ->
  StronglySorted Z.lt m /\ (forall x y, In x l -> In y m -> x < y).
Proof.
  induction l as [|x l IH]; intros H; [split; [exact H|intros ? ? []]|].
  cbn in H. apply StronglySorted_inv in H. destruct H as [H Hf]. destruct (IH H) as [H1 H2]. split; [exact H1|].
  rewrite Forall_forall in Hf. intros a b [->|Ha] Hb; [apply Hf, in_or_app; right; exact Hb|apply H2; assumption].
Qed.

(** ** the expansion *)

Lemma expand_tab (F : frame) ts new fill : ValidRows F -> IdsSorted F -> CommonTimes F ts -> new <> [] ->
  StronglySorted Z.lt (ts ++ new) ->
  expand_time_values F new fill
  = Ok (flatten (tab (ids F) (ts ++ new) (fun i => map rval (rows_of F i) ++ repeat fill (length new)))).
Proof.
  intros HV HS HC Hne Hsort. destruct (sorted_app _ _ Hsort) as [Hnew Hlt].
  assert (HL : forall i, In i (ids F) -> length (map rval (rows_of F i)) = length ts).
  { intros i Hi. apply in_ids in Hi. rewrite <- (HC i Hi). unfold times_of. rewrite !map_length. reflexivity. }
  assert (HtF : forall r, In r F -> In (rtime r) ts).
  { intros r Hr. assert (Ho : Occurs F (rid r)) by (exists r; auto). rewrite <- (HC _ Ho). apply in_map.
    apply filter_In. split; [exact Hr|apply Z.eqb_refl]. }
  destruct (valid_occurs F HV) as (i0 & Hi0).
  assert (Hne0 : ts <> []).
  { rewrite <- (HC i0 Hi0). apply rows_of_nonempty in Hi0. unfold times_of. destruct (rows_of F i0); [congruence|discriminate]. }
  assert (Hpos : forall t, In t ts -> 0 <= t).
  { intros t Ht. rewrite <- (HC i0 Hi0) in Ht. apply in_map_iff in Ht. destruct Ht as (r & <- & Hr).
    apply filter_In in Hr. apply (vr_times _ HV), Hr. }
  assert (Hposn : forall t, In t new -> 0 <= t).
  { intros t Ht. destruct ts as [|s ts]; [congruence|]. specialize (Hlt s t (or_introl eq_refl) Ht).
    specialize (Hpos s (or_introl eq_refl)). lia. }
  set (vals := fun i => map rval (rows_of F i) ++ repeat fill (length new)).
  assert (HLv : forall i, In i (ids F) -> length (vals i) = length (ts ++ new)).
  { intros i Hi. unfold vals. rewrite !app_length, repeat_length, (HL i Hi). reflexivity. }
  assert (Wt : wfb (tab (ids F) (ts ++ new) vals)).
  { apply tab_wfb; auto.
    - intros E. apply in_ids in Hi0. rewrite E in Hi0. destruct Hi0.
    - apply ids_sorted.
    - intros i Hi. apply in_ids in Hi. destruct Hi as (r & Hr & <-). apply (vr_ids _ HV r Hr).
    - destruct ts; [congruence|discriminate].
    - intros t Ht. apply in_app_or in Ht. destruct Ht; auto. }
  assert (HinT : forall r, In r (flatten (tab (ids F) (ts ++ new) vals)) <->
                 In r F \/ (Occurs F (rid r) /\ In (rtime r) new /\ rval r = fill)).
  { intros r. rewrite in_tab by exact HLv. split.
    - intros [Hi Hp]. unfold vals in Hp. rewrite combine_pad in Hp by (apply HL; exact Hi). apply in_app_or in Hp.
      destruct Hp as [Hp|Hp].
      + left. rewrite (tab_common F ts HV HS HC). apply in_tab; [exact HL|]. split; assumption.
      + right. apply in_map_iff in Hp. destruct Hp as (t & E & Ht). injection E as <- <-.
        split; [apply in_ids; exact Hi|]. split; [exact Ht|reflexivity].
    - intros [Hr|(Ho & Ht & Ev)].
      + rewrite (tab_common F ts HV HS HC) in Hr. apply in_tab in Hr; [|exact HL]. destruct Hr as [Hi Hp].
        split; [exact Hi|]. unfold vals. rewrite combine_pad by (apply HL; exact Hi). apply in_or_app. left. exact Hp.
      + apply in_ids in Ho. split; [exact Ho|]. unfold vals. rewrite combine_pad by (apply HL; exact Ho).
        apply in_or_app. right. apply in_map_iff. exists (rtime r). rewrite Ev. auto. }
  assert (EX : exists G, expand_time_values F new fill = Ok G /\ ValidRows G /\ IdsSorted G /\
     forall r, In r G <-> In r F \/ (Occurs F (rid r) /\ In (rtime r) new /\ rval r = fill)).
  { assert (Hdec : (exists i, OnlySeries F i) \/ (forall i, ~ OnlySeries F i)).
    { destruct (ids F) as [|a [|b l]] eqn:E.
      - apply in_ids in Hi0. rewrite E in Hi0. destruct Hi0.
      - left. exists a. intros r Hr. assert (Ho : In (rid r) (ids F)) by (apply in_ids; exists r; auto).
        rewrite E in Ho. destruct Ho as [->|[]]. reflexivity.
      - right. intros i Hi.
        assert (Ha : Occurs F a) by (apply in_ids; rewrite E; left; reflexivity).
        assert (Hb : Occurs F b) by (apply in_ids; rewrite E; right; left; reflexivity).
        destruct Ha as (ra & Hra & Ea), Hb as (rb & Hrb & Eb). rewrite (Hi ra Hra) in Ea. rewrite (Hi rb Hrb) in Eb.
        assert (Hss := ids_sorted F). rewrite E in Hss. apply StronglySorted_inv in Hss. destruct Hss as [_ Hf].
        apply Forall_inv in Hf. lia. }
    destruct Hdec as [[i Hi]|Hmany].
    - destruct (expand_single_succeeds F i new fill HV Hi Hne (sorted_lt_NoDup _ Hnew)) as (G & EG).
      { intros r t Hr Ht. apply Hlt; auto. }
      exists G. split; [exact EG|]. apply (expand_single F i new fill G HV Hi) in EG.
      destruct EG as (_ & _ & _ & VG & P & -> & HP). split; [exact VG|].
      assert (HID : forall r, In r (F ++ P) -> rid r = i).
      { intros r Hr. apply in_app_or in Hr. destruct Hr as [Hr|Hr]; [apply Hi; exact Hr|].
        apply (Permutation_in r HP) in Hr. apply in_map_iff in Hr. destruct Hr as (t & <- & _). reflexivity. }
      split.
      + intros a c (l & m & r & E).
        assert (Ha : In a (F ++ P)) by (rewrite E; apply in_or_app; right; left; reflexivity).
        assert (Hc : In c (F ++ P)) by (rewrite E; apply in_or_app; right; right; apply in_or_app; right; left; reflexivity).
        rewrite (HID a Ha), (HID c Hc). lia.
      + intros r. rewrite in_app_iff. apply or_iff_compat_l. split.
        * intros Hr. apply (Permutation_in r HP) in Hr. apply in_map_iff in Hr. destruct Hr as (t & <- & Ht). cbn.
          split; [|auto]. destruct Hi0 as (r0 & Hr0 & _). exists r0. split; [exact Hr0|apply Hi; exact Hr0].
        * intros (Ho & Ht & Ev). apply (Permutation_in r (Permutation_sym HP)). apply in_map_iff. exists (rtime r).
          split; [|exact Ht]. destruct Ho as (q & Hq & Eq). rewrite (Hi q Hq) in Eq. destruct r; cbn in *; congruence.
    - apply expand_many; auto.
      + intros i j Hi Hj. rewrite (HC i Hi), (HC j Hj). reflexivity.
      + apply sorted_lt_NoDup. exact Hnew.
      + intros r Hr Hn. specialize (Hlt _ _ (HtF r Hr) Hn). lia. }
  destruct EX as (G & -> & VG & SG & HG). f_equal. apply frames_unique; auto.
  - apply wfb_valid. exact Wt.
  - apply flatten_sorted. rewrite tab_fst. apply ids_sorted.
  - intros r. rewrite HG, HinT. reflexivity.
Qed.

(** ** one iteration *)

Lemma filter_range (p : Z -> bool) (f : list V -> list V) (A B C : list Z) (vs : list V) :
  length vs = length (A ++ B ++ C) ->
  (forall x, In x A -> p x = false) -> (forall x, In x B -> p x = true) -> (forall x, In x C -> p x = false) ->
  map snd (filter (fun q => p (fst q)) (combine (A ++ B ++ C) vs)) = firstn (length B) (skipn (length A) vs).
Proof.
  clear f. revert vs. induction A as [|a A IH]; intros vs HL HA HB HC.
  - cbn [app length skipn] in *. revert vs HL. induction B as [|b B IHB]; intros vs HL.
    + cbn [length firstn app] in *. revert vs HL. induction C as [|c C IHC]; intros [|v vs] HL; cbn in *; try lia; [reflexivity|].
      rewrite (HC c (or_introl eq_refl)). apply IHC; [intros x Hx; apply HC; right; exact Hx|lia].
    + destruct vs as [|v vs]; [cbn in HL; lia|]. cbn. rewrite (HB b (or_introl eq_refl)). cbn. f_equal.
      apply IHB; [intros x Hx; apply HB; right; exact Hx|cbn in HL; lia].
  - destruct vs as [|v vs]; [cbn in HL; lia|]. cbn. rewrite (HA a (or_introl eq_refl)).
    apply IH; [cbn in HL; lia|intros x Hx; apply HA; right; exact Hx|exact HB|exact HC].
Qed.

Lemma skipn_add {A} m n (l : list A) : skipn n (skipn m l) = skipn (m + n) l.
Proof. revert l. induction m as [|m IH]; intros l; [reflexivity|]. destruct l; [destruct n; reflexivity|]. cbn. apply IH. Qed.

Lemma split_three {A} n m (l : list A) : l = firstn m l ++ firstn n (skipn m l) ++ skipn (m + n) l.
Proof.
  rewrite <- (firstn_skipn m l) at 1. f_equal. rewrite <- (firstn_skipn n (skipn m l)) at 1. f_equal.
  apply skipn_add.
Qed.

Lemma existsb_in t cur : existsb (Z.eqb t) cur = true <-> In t cur.
Proof.
  rewrite existsb_exists. split.
  - intros (x & Hx & E). apply Z.eqb_eq in E. congruence.
  - intros H. exists t. split; [exact H|apply Z.eqb_refl].
Qed.

Lemma nodup_app_disjoint {A} (l m : list A) x : NoDup (l ++ m) -> In x l -> In x m -> False.
Proof.
  induction l as [|y l IH]; intros Hn H1 H2; [destruct H1|]. cbn in Hn. inversion Hn as [|? ? Hy Hn2]; subst.
  destruct H1 as [->|H1]; [apply Hy; apply in_or_app; right; exact H2|apply IH; assumption].
Qed.

Lemma nodup_app_r {A} (l m : list A) : NoDup (l ++ m) -> NoDup m.
Proof. induction l as [|y l IH]; intros H; [exact H|]. inversion H; auto. Qed.

Lemma range_filter (all : list Z) m n (vs : list V) : NoDup all -> length vs = length all -> (m + n <= length all)%nat ->
  map snd (filter (fun q : Z * V => existsb (Z.eqb (fst q)) (firstn n (skipn m all))) (combine all vs)) = firstn n (skipn m vs).
Proof.
  intros HN HL Hb. set (cur := firstn n (skipn m all)).
  assert (E := split_three n m all). fold cur in E.
  assert (LA : length (firstn m all) = m) by (rewrite firstn_length; lia).
  assert (LB : length cur = n) by (unfold cur; rewrite firstn_length, skipn_length; lia).
  assert (H := filter_range (fun t => existsb (Z.eqb t) cur) (fun x => x) (firstn m all) cur (skipn (m + n) all) vs).
  rewrite LA, LB in H. rewrite <- E in H. apply H; [exact HL| | |].
  - intros x Hx. destruct (existsb _ _) eqn:Ex; [exfalso|reflexivity]. apply existsb_in in Ex.
    rewrite E in HN. apply (nodup_app_disjoint _ _ x HN Hx). apply in_or_app. left. exact Ex.
  - intros x Hx. apply existsb_in. exact Hx.
  - intros x Hx. destruct (existsb _ _) eqn:Ex; [exfalso|reflexivity]. apply existsb_in in Ex.
    rewrite E in HN. apply nodup_app_r in HN. apply (nodup_app_disjoint _ _ x HN Ex Hx).
Qed.

Lemma filter_map_comm {A B} (f : A -> B) p l : filter p (map f l) = map f (filter (fun x => p (f x)) l).
Proof. induction l as [|x l IH]; [reflexivity|]. cbn. destruct (p (f x)); cbn; congruence. Qed.

(** Selecting times from a collection with common times. *)
Lemma tab_filter l all vals (p : Z -> bool) :
  filter (fun r => p (rtime r)) (flatten (tab l all vals))
  = flatten (map (fun i => (i, filter (fun q : Z * V => p (fst q)) (combine all (vals i)))) l).
Proof.
  unfold flatten, tab. rewrite !flat_map_map, filter_flat_map. apply flat_map_ext. intros i.
  unfold brows, series_rows. cbn [fst snd]. rewrite filter_map_comm. reflexivity.
Qed.

Variable pred : list V -> Z -> V.

Lemma latest_length n (l : list V) : (n <= length l)%nat -> length (latest n l) = n.
Proof. intros H. unfold latest. rewrite skipn_length. lia. Qed.

Lemma continued_length n ts : forall (past : list V) t, length (continued pred n past t ts) = (length past + length ts)%nat.
Proof.
  induction ts as [|u ts IH]; intros past t; cbn [continued length]; [lia|]. rewrite IH, app_length. cbn [length]. lia.
Qed.

Lemma assign_tab l all vals : NoDup all ->
  (forall i, In i l -> length (vals i) = length all) ->
  forall k t, nth_error all k = Some t ->
  forall g, assign_rows (flatten (tab l all vals)) (map (fun i => ((i, t), g i)) l)
  = flatten (tab l all (fun i => firstn k (vals i) ++ g i :: skipn (S k) (vals i))).
Proof.
  intros HN HL k t Ht g. unfold assign_rows, flatten, tab. rewrite !flat_map_map, map_flat_map. apply flat_map_ext_in.
  intros i Hi. unfold brows, series_rows. cbn [fst snd]. rewrite map_map. cbn [rid rtime rval].
  assert (HF : forall x, find (fun p : Z * Z * V => pair_eqb (fst p) (i, x)) (map (fun j => ((j, t), g j)) l)
               = if t =? x then Some ((i, t), g i) else None).
  { intros x. clear -Hi. induction l as [|a l IH]; [destruct Hi|]. cbn [map find].
    destruct (pair_eqb _ _) eqn:E.
    - apply pair_eqb_eq in E. cbn [fst] in E. inversion E; subst. rewrite Z.eqb_refl. reflexivity.
    - destruct Hi as [->|Hi]; [|apply IH; exact Hi].
      destruct (t =? x) eqn:E2.
      + apply Z.eqb_eq in E2. subst x. exfalso. rewrite <- not_true_iff_false in E. apply E. apply pair_eqb_eq. reflexivity.
      + clear IH E. induction l as [|b l IHl]; [reflexivity|]. cbn [map find].
        destruct (pair_eqb (fst (b, t, g b)) (i, x)) eqn:E3.
        * apply pair_eqb_eq in E3. cbn [fst] in E3. inversion E3; subst. rewrite Z.eqb_refl in E2. discriminate.
        * apply IHl. }
  specialize (HL i Hi). set (vs := vals i) in *. clearbody vs.
  transitivity (map (fun p : Z * V => mkRow i (fst p) (if t =? fst p then g i else snd p)) (combine all vs)).
  { apply map_ext. intros [x v]. cbn [fst snd]. rewrite HF. destruct (t =? x); reflexivity. }
  transitivity (map (fun p : Z * V => mkRow i (fst p) (snd p)) (map (fun p => (fst p, if t =? fst p then g i else snd p)) (combine all vs))).
  { rewrite map_map. reflexivity. }
  f_equal. clear HF Hi. revert k vs HL Ht. induction all as [|a all IH]; intros k vs HL Ht.
  - destruct k; discriminate.
  - destruct vs as [|v vs]; [cbn in HL; lia|]. apply NoDup_cons_iff in HN. destruct HN as [Ha HN]. destruct k as [|k].
    + cbn in Ht. injection Ht as ->. cbn. rewrite Z.eqb_refl. f_equal.
      rewrite <- (map_id (combine all vs)) at 2. apply map_ext_in. intros [x w] Hx. cbn.
      apply in_combine_l in Hx. destruct (t =? x) eqn:E; [|reflexivity]. apply Z.eqb_eq in E. subst. contradiction.
    + cbn [nth_error] in Ht. cbn [combine map firstn app skipn fst snd].
      destruct (t =? a) eqn:E.
      * apply Z.eqb_eq in E. subst a. apply nth_error_In in Ht. contradiction.
      * f_equal. apply (IH HN k vs); [cbn in HL; lia|exact Ht].
Qed.

Lemma tab_ids l (vals : Z -> list (Z * V)) : StronglySorted Z.lt l -> (forall b, In b (map (fun i : Z => (i, vals i)) l) -> snd b <> []) ->
  ids (flatten (map (fun i => (i, vals i)) l) : frame) = l.
Proof.
  intros Hs HB. rewrite ids_flatten by exact HB. rewrite map_map. cbn [fst]. rewrite map_id. apply np_unique_of_sorted. exact Hs.
Qed.

Lemma rows_tab l (f : Z -> list (Z * V)) i : NoDup l -> In i l ->
  rows_of (flatten (map (fun i => (i, f i)) l)) i = series_rows i (f i).
Proof.
  intros Hn Hi. change i with (fst (i, f i)) at 1. rewrite (rows_of_flatten _ (i, f i)); [reflexivity| |].
  - rewrite map_map. cbn. rewrite map_id. exact Hn.
  - apply in_map_iff. eauto.
Qed.

Lemma last_is_nth (l : list Z) : last l 0 = nth (length l - 1) l 0.
Proof.
  induction l as [|x l IH]; [reflexivity|]. destruct l as [|y l]; [reflexivity|].
  change (last (x :: y :: l) 0) with (last (y :: l) 0). rewrite IH. cbn [length]. rewrite !Nat.sub_succ, !Nat.sub_0_r. reflexivity.
Qed.

Lemma nth_firstn_skipn (l : list Z) n k j : (j < n)%nat -> nth j (firstn n (skipn k l)) 0 = nth (k + j) l 0.
Proof.
  intros H. revert l. induction k as [|k IH]; intros l.
  - cbn [skipn Nat.add]. revert j l H. induction n as [|n IHn]; intros j l H; [lia|].
    destruct l as [|x l]; [destruct j; reflexivity|]. destruct j as [|j]; [reflexivity|]. cbn. apply IHn. lia.
  - destruct l as [|x l]; [cbn [skipn]; rewrite firstn_nil; destruct j; reflexivity|]. cbn [skipn Nat.add nth]. apply IH.
Qed.

Lemma step_loop_ok n l (A tv : list Z) (fill : V) : l <> [] -> StronglySorted Z.lt l ->
  length A = (n - 1)%nat -> (1 <= n)%nat -> NoDup (A ++ tv) ->
  forall todo dn c E, tv = dn ++ c :: todo ->
  (forall i, In i l -> length (E i) = (n + length dn)%nat) ->
  step_loop pred n tv (A ++ tv) (length todo) (n + length dn)
    (flatten (tab l (A ++ tv) (fun i => E i ++ repeat fill (length todo))))
  = Ok (flatten (tab l (A ++ tv) (fun i => continued pred n (E i) c todo))).
Proof.
  intros Hne Hs HA Hn HN. set (all := A ++ tv). induction todo as [|u todo IH]; intros dn c E Etv HE.
  - cbn [length repeat step_loop continued]. do 2 f_equal. unfold tab. apply map_ext. intros i. rewrite app_nil_r. reflexivity.
  - cbn [length step_loop]. set (k := length dn).
    replace (n + k - n)%nat with k by lia.
    assert (Lall : length all = (n + k + S (length todo))%nat).
    { unfold all. rewrite app_length, HA, Etv, app_length. cbn [length]. unfold k. lia. }
    assert (N1 : forall j, (j < length tv)%nat -> nth (n - 1 + j) all 0 = nth j tv 0).
    { intros j Hj. unfold all. rewrite app_nth2 by lia. f_equal. lia. }
    assert (Ltv : length tv = (k + S (S (length todo)))%nat) by (rewrite Etv, app_length; cbn [length]; unfold k; lia).
    assert (Nc : nth k tv 0 = c) by (rewrite Etv, app_nth2 by (unfold k; lia); unfold k; rewrite Nat.sub_diag; reflexivity).
    assert (Nu : nth (S k) tv 0 = u).
    { rewrite Etv, app_nth2 by (unfold k; lia). replace (S k - length dn)%nat with 1%nat by (unfold k; lia). reflexivity. }
    assert (Ec : nth (n + k - 1) all 0 = c) by (replace (n + k - 1)%nat with (n - 1 + k)%nat by lia; rewrite N1 by lia; exact Nc).
    assert (Eu : nth (n + k) all 0 = u) by (replace (n + k)%nat with (n - 1 + S k)%nat by lia; rewrite N1 by lia; exact Nu).
    set (cur := firstn n (skipn k all)).
    assert (Lcur : length cur = n) by (unfold cur; rewrite firstn_length, skipn_length; lia).
    assert (Elast : last cur 0 = c).
    { rewrite <- Ec. unfold cur. rewrite last_is_nth. fold cur. rewrite Lcur. unfold cur. rewrite nth_firstn_skipn by lia. f_equal. lia. }
    rewrite Elast, Nc, Z.eqb_refl. cbn [negb]. rewrite Eu, Ec.
    set (vals := fun i => E i ++ repeat fill (S (length todo))).
    assert (HLv : forall i, In i l -> length (vals i) = length all).
    { intros i Hi. unfold vals. rewrite app_length, repeat_length, (HE i Hi), Lall. unfold k. lia. }
    rewrite (tab_filter l all vals (fun t => existsb (Z.eqb t) cur)).
    set (fl := fun i => filter (fun q : Z * V => existsb (Z.eqb (fst q)) cur) (combine all (vals i))).
    assert (HFl : forall i, In i l -> map snd (fl i) = latest n (E i)).
    { intros i Hi. unfold fl, cur. rewrite range_filter; [|exact HN|apply HLv; exact Hi|lia].
      unfold vals, latest. rewrite (HE i Hi). fold k. replace (n + k - n)%nat with k by lia.
      rewrite skipn_app, firstn_app, skipn_length, (HE i Hi). fold k. replace (n - (n + k - k))%nat with 0%nat by lia.
      rewrite firstn_O, app_nil_r. apply firstn_all2. rewrite skipn_length, (HE i Hi). fold k. lia. }
    assert (Nl := sorted_lt_NoDup _ Hs).
    assert (EI : ids (flatten (map (fun i => (i, fl i)) l)) = l).
    { apply (tab_ids l fl Hs). intros b Hb. apply in_map_iff in Hb. destruct Hb as (i & <- & Hi). cbn [snd].
      specialize (HFl i Hi). intros E0. rewrite E0 in HFl. cbn in HFl. apply (f_equal (@length V)) in HFl.
      rewrite latest_length in HFl by (rewrite (HE i Hi); lia). cbn in HFl. lia. }
    change (fun i : Z => (i, filter (fun q : Z * V => existsb (Z.eqb (fst q)) cur) (combine all (vals i)))) with (fun i : Z => (i, fl i)).
    rewrite EI.
    assert (EM : map (fun j => ((j, u), pred (to_numpy (group (flatten (map (fun i => (i, fl i)) l)) j)) (u - c))) l
                 = map (fun j => ((j, u), pred (latest n (E j)) (u - c))) l).
    { apply map_ext_in. intros j Hj. do 2 f_equal. change (group (flatten (map (fun i => (i, fl i)) l)) j)
        with (rows_of (flatten (map (fun i => (i, fl i)) l)) j).
      rewrite (rows_tab l fl j Nl Hj). unfold to_numpy, series_rows. rewrite map_map. cbn [rval].
      change (map (fun x => snd x) (fl j)) with (map snd (fl j)). apply HFl. exact Hj. }
    rewrite EM.
    assert (Hnth : nth_error all (n + k) = Some u) by (rewrite <- Eu; apply nth_error_nth'; lia).
    rewrite (assign_tab l all vals HN HLv (n + k) u Hnth (fun j => pred (latest n (E j)) (u - c))).
    set (E' := fun i => E i ++ [pred (latest n (E i)) (u - c)]).
    assert (ET : tab l all (fun i => firstn (n + k) (vals i) ++ pred (latest n (E i)) (u - c) :: skipn (S (n + k)) (vals i))
                 = tab l all (fun i => E' i ++ repeat fill (length todo))).
    { unfold tab. apply map_ext_in. intros i Hi. do 2 f_equal. unfold vals, E'. specialize (HE i Hi). fold k in HE.
      rewrite firstn_app, HE, Nat.sub_diag, firstn_O, app_nil_r, (firstn_all2 (E i)) by lia.
      rewrite <- app_assoc. cbn [app]. do 2 f_equal. rewrite skipn_app, HE, (skipn_all2 (E i)) by lia.
      replace (S (n + k) - (n + k))%nat with 1%nat by lia. reflexivity. }
    rewrite ET. replace (S (n + k)) with (n + length (dn ++ [c]))%nat by (rewrite app_length; cbn [length]; unfold k; lia).
    rewrite (IH (dn ++ [c]) u E').
    + reflexivity.
    + rewrite Etv, <- app_assoc. reflexivity.
    + intros i Hi. unfold E'. rewrite !app_length, (HE i Hi). cbn [length]. lia.
Qed.

Lemma predict_stepwise_ok (F : frame) ts t new (fill : V) n :
  ValidRows F -> IdsSorted F -> CommonTimes F ts -> length ts = n -> last ts 0 = t ->
  StronglySorted Z.lt (t :: new) -> new <> [] ->
  predict_stepwise pred F (t :: new) n fill = Ok (flat_map (stepwise_series pred F n t new) (ids F)).
Proof.
  intros HV HS HC Hn Ht Hsort Hne.
  destruct (valid_occurs F HV) as (i0 & Hi0).
  assert (Hts : ts <> []).
  { rewrite <- (HC i0 Hi0). apply rows_of_nonempty in Hi0. unfold times_of. destruct (rows_of F i0); [congruence|discriminate]. }
  assert (Sts : StronglySorted Z.lt ts) by (rewrite <- (HC i0 Hi0); apply times_of_sorted; exact HV).
  set (A := removelast ts). assert (ET : ts = A ++ [t]) by (rewrite <- Ht; apply app_removelast_last; exact Hts).
  assert (EA : ts ++ new = A ++ t :: new) by (rewrite ET, <- app_assoc; reflexivity).
  assert (Hn1 : (1 <= n)%nat) by (rewrite <- Hn; destruct ts; [congruence|cbn; lia]).
  assert (LA : length A = (n - 1)%nat) by (rewrite <- Hn, ET, app_length; cbn; lia).
  apply StronglySorted_inv in Hsort. destruct Hsort as [Snew Hf]. rewrite Forall_forall in Hf.
  assert (Sall : StronglySorted Z.lt (ts ++ new)).
  { assert (HH : forall x, In x ts -> x <= t) by (intros x Hx; rewrite <- Ht; apply sorted_last_max; assumption).
    clear -Sts Snew Hf HH. induction ts as [|x ts IH]; [exact Snew|]. cbn. apply StronglySorted_inv in Sts.
    destruct Sts as [Sts Hx]. constructor; [apply IH; [exact Sts|intros y Hy; apply HH; right; exact Hy]|].
    rewrite Forall_forall in *. intros y Hy. apply in_app_or in Hy. destruct Hy as [Hy|Hy]; [apply Hx; exact Hy|].
    specialize (Hf y Hy). specialize (HH x (or_introl eq_refl)). lia. }
  assert (HL : forall i, In i (ids F) -> length (map rval (rows_of F i)) = n).
  { intros i Hi. apply in_ids in Hi. rewrite <- Hn, <- (HC i Hi). unfold times_of. rewrite !map_length. reflexivity. }
  unfold predict_stepwise. cbn [tl length]. rewrite (expand_tab F ts new fill HV HS HC Hne Sall). cbn [bind].
  set (vals := fun i => map rval (rows_of F i) ++ repeat fill (length new)).
  assert (HLv : forall i, In i (ids F) -> length (vals i) = length (ts ++ new)).
  { intros i Hi. unfold vals. rewrite !app_length, repeat_length, (HL i Hi), Hn. reflexivity. }
  assert (Hidn : ids F <> []) by (intros E; apply in_ids in Hi0; rewrite E in Hi0; destruct Hi0).
  assert (ETv : time_values (flatten (tab (ids F) (ts ++ new) vals)) = ts ++ new).
  { unfold time_values. transitivity (np_unique (ts ++ new)); [|apply np_unique_of_sorted; exact Sall]. apply np_unique_ext. intros x. split.
    - intros Hx. apply in_map_iff in Hx. destruct Hx as (r & <- & Hr). apply in_tab in Hr; [|exact HLv].
      destruct Hr as [_ Hr]. apply in_combine_l in Hr. exact Hr.
    - intros Hx. apply in_ids in Hi0. rewrite <- (map_combine_fst (ts ++ new) (vals i0)) in Hx by (symmetry; apply HLv; exact Hi0).
      apply in_map_iff in Hx. destruct Hx as ([a v] & <- & Hp). cbn.
      change a with (rtime (mkRow i0 a v)). unfold time_index. apply in_map. apply in_tab; [exact HLv|]. split; assumption. }
  rewrite ETv, EA. replace (S (length new) - 1)%nat with (length new) by lia.
  assert (NN : NoDup (A ++ t :: new)) by (rewrite <- EA; apply sorted_lt_NoDup; exact Sall).
  assert (HLoop := step_loop_ok n (ids F) A (t :: new) fill Hidn (ids_sorted F) LA Hn1 NN new [] t
     (fun i => map rval (rows_of F i)) eq_refl).
  cbn [length] in HLoop. replace (n + 0)%nat with n in HLoop by lia. fold vals in HLoop. rewrite (HLoop HL). cbn [bind]. f_equal.
  set (cv := fun i => continued pred n (map rval (rows_of F i)) t new).
  assert (Lcv : forall i, In i (ids F) -> length (cv i) = length (A ++ t :: new)).
  { intros i Hi. unfold cv. rewrite continued_length, (HL i Hi), app_length, LA. cbn [length]. lia. }
  assert (EFin : filter (fun r => existsb (Z.eqb (rtime r)) (t :: new)) (flatten (tab (ids F) (A ++ t :: new) cv))
                 = flat_map (stepwise_series pred F n t new) (ids F)).
  { rewrite (tab_filter (ids F) (A ++ t :: new) cv (fun x => existsb (Z.eqb x) (t :: new))).
    unfold flatten. rewrite flat_map_map. apply flat_map_ext_in. intros i Hi. unfold stepwise_series, brows, series_rows. cbn [fst snd].
    fold (cv i). f_equal. specialize (Lcv i Hi). rewrite <- LA. set (vs := cv i) in *. clearbody vs. clear -Lcv NN.
    revert vs Lcv. induction A as [|a A' IH]; intros vs Lcv.
    - cbn [app length skipn] in *. apply filter_all_true. intros [x v] Hx. apply existsb_in. apply in_combine_l in Hx. exact Hx.
    - destruct vs as [|v vs]; [cbn in Lcv; lia|]. cbn [app combine filter length skipn]. cbn [app] in NN. apply NoDup_cons_iff in NN.
      destruct NN as [Na NN]. destruct (existsb (Z.eqb (fst (a, v))) (t :: new)) eqn:E.
      + exfalso. apply Na. apply in_or_app. right. apply existsb_in in E. exact E.
      + apply IH; [exact NN|cbn in Lcv; lia]. }
  destruct (1 <? n)%nat eqn:E1; [exact EFin|]. rewrite <- EFin.
  assert (EA0 : A = []) by (destruct A; [reflexivity|cbn in LA; lia]). rewrite EA0. cbn [app].
  symmetry. apply filter_all_true. intros r Hr. apply existsb_in. rewrite EA0 in Lcv. cbn [app] in Lcv. apply in_tab in Hr; [|exact Lcv].
  destruct Hr as [_ Hr]. apply in_combine_l in Hr. exact Hr.
Qed.

Lemma rows_of_flat_map (f : Z -> frame) l i : NoDup l -> (forall j r, In r (f j) -> rid r = j) ->
  rows_of (flat_map f l) i = if existsb (Z.eqb i) l then f i else [].
Proof.
  intros Hn Hf.
  assert (HS : forall j, rows_of (f j) i = if i =? j then f i else []).
  { intros j. unfold rows_of. destruct (i =? j) eqn:E.
    - apply Z.eqb_eq in E. subst j. apply filter_all_true. intros r Hr. apply Z.eqb_eq. apply Hf. exact Hr.
    - assert (Hj : forall r, In r (f j) -> (rid r =? i) = false) by (intros r Hr; rewrite (Hf j r Hr); lia).
      clear -Hj. induction (f j) as [|r m IH]; [reflexivity|]. cbn. rewrite (Hj r (or_introl eq_refl)). apply IH.
      intros q Hq. apply Hj. right. exact Hq. }
  induction l as [|j l IH]; [reflexivity|]. cbn [flat_map existsb]. unfold rows_of. rewrite filter_app.
  fold (rows_of (f j) i) (rows_of (flat_map f l) i). apply NoDup_cons_iff in Hn. destruct Hn as [Hj Hn].
  rewrite HS, (IH Hn). destruct (i =? j) eqn:E; [|reflexivity]. apply Z.eqb_eq in E. subst j.
  destruct (existsb (Z.eqb i) l) eqn:Ex; [apply existsb_in in Ex; contradiction|]. apply app_nil_r.
Qed.

Lemma stepwise_rows_eq (F G : frame) n t new i : rows_of F i = rows_of G i ->
  rows_of (flat_map (stepwise_series pred F n t new) (ids F)) i
  = rows_of (flat_map (stepwise_series pred G n t new) (ids G)) i.
Proof.
  intros H.
  assert (HR : forall (X : frame) j r, In r (stepwise_series pred X n t new j) -> rid r = j).
  { intros X j r Hr. apply in_map_iff in Hr. destruct Hr as (p & <- & _). reflexivity. }
  rewrite (rows_of_flat_map _ _ i (sorted_lt_NoDup _ (ids_sorted F)) (HR F)).
  rewrite (rows_of_flat_map _ _ i (sorted_lt_NoDup _ (ids_sorted G)) (HR G)).
  assert (HI : In i (ids F) <-> In i (ids G)).
  { rewrite !in_ids. split; intros Ho; apply rows_of_nonempty in Ho; apply rows_of_nonempty; congruence. }
  assert (EB : existsb (Z.eqb i) (ids F) = existsb (Z.eqb i) (ids G)).
  { apply eq_iff_eq_true. rewrite !existsb_in. exact HI. }
  rewrite EB. unfold stepwise_series. rewrite H. reflexivity.
Qed.

End Frames.
