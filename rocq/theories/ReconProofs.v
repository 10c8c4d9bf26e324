(** * Proofs about reconstructions. *)

From Coq Require Import List ZArith Bool Arith Lia Sorted Permutation.
From Coq Require Import ZifyBool ZifyNat.
Import ListNotations.
From Verif Require Import Np NpFacts TscModel TscSpec TscBlocks TscProofs TscDt TscOps TscShift.
From Verif Require Import PredModel PredSpec PredProofs PredControl ReconModel ReconSpec.
Close Scope nat_scope.
Open Scope Z_scope.

(** ** keys *)

Lemma key_eqb_eq a b : key_eqb a b = true <-> a = b.
Proof.
  destruct a as [[a1 a2] a3], b as [[b1 b2] b3]. cbn. split.
  - intros H. replace a1 with b1 by lia. replace a2 with b2 by lia. replace a3 with b3 by lia. reflexivity.
  - intros H. injection H as -> -> ->. lia.
Qed.

Lemma in_insert_key x y l : In y (insert_key x l) <-> y = x \/ In y l.
Proof.
  induction l as [|z l IH]; cbn.
  - intuition.
  - destruct (key_ltb x z); [cbn; intuition|].
    destruct (key_eqb x z) eqn:E.
    + apply key_eqb_eq in E. subst. cbn. intuition.
    + cbn. rewrite IH. intuition.
Qed.

Lemma in_sort_keys y l : In y (sort_keys l) <-> In y l.
Proof.
  unfold sort_keys. induction l as [|x l IH]; [reflexivity|].
  cbn [fold_right]. rewrite in_insert_key, IH. cbn. intuition.
Qed.

Definition kle (a b : rkey) : Prop := key_ltb b a = false.

Lemma sort_keys_head x l : (forall y, In y l -> key_ltb x y = true) ->
  sort_keys (x :: l) = x :: sort_keys l.
Proof.
  intros H. cbn [sort_keys fold_right]. fold (sort_keys l).
  destruct (sort_keys l) as [|y m] eqn:E; [reflexivity|].
  cbn. rewrite H; [reflexivity|]. apply in_sort_keys. rewrite E. left; reflexivity.
Qed.

Lemma sort_keys_dup x l m : sort_keys l = x :: m -> sort_keys (x :: l) = x :: m.
Proof.
  intros H. cbn [sort_keys fold_right]. fold (sort_keys l). rewrite H. cbn.
  replace (key_ltb x x) with false by (destruct x as [[a b] c]; cbn; lia).
  replace (key_eqb x x) with true by (destruct x as [[a b] c]; cbn; lia). reflexivity.
Qed.

Lemma key_ltb_trans a b c : key_ltb a b = true -> key_ltb b c = true -> key_ltb a c = true.
Proof. destruct a as [[a1 a2] a3], b as [[b1 b2] b3], c as [[c1 c2] c3]. cbn. lia. Qed.

Lemma key_total a b : key_ltb a b = false -> a <> b -> key_ltb b a = true.
Proof.
  destruct a as [[a1 a2] a3], b as [[b1 b2] b3]. cbn. intros H N.
  destruct (Z.eq_dec a1 b1); [|lia]. destruct (Z.eq_dec a2 b2); [|lia].
  destruct (Z.eq_dec a3 b3); [|lia]. exfalso. apply N. congruence.
Qed.

Lemma key_ltb_irrefl a : key_ltb a a = false.
Proof. destruct a as [[a1 a2] a3]. cbn. lia. Qed.

Lemma insert_key_sorted x l : StronglySorted (fun a b => key_ltb a b = true) l ->
  StronglySorted (fun a b => key_ltb a b = true) (insert_key x l).
Proof.
  induction 1 as [|y l Hs IH Hf]; cbn; [repeat constructor|].
  destruct (key_ltb x y) eqn:E1.
  - constructor; [constructor; assumption|]. constructor; [exact E1|].
    rewrite Forall_forall in *. intros z Hz. exact (key_ltb_trans _ _ _ E1 (Hf z Hz)).
  - destruct (key_eqb x y) eqn:E2; [constructor; assumption|].
    constructor; [exact IH|]. rewrite Forall_forall in *. intros z Hz.
    apply in_insert_key in Hz. destruct Hz as [->|Hz]; [|apply Hf; exact Hz].
    apply key_total; [exact E1|]. intros ->. rewrite (proj2 (key_eqb_eq y y) eq_refl) in E2. discriminate.
Qed.

Lemma sort_keys_sorted l : StronglySorted (fun a b => key_ltb a b = true) (sort_keys l).
Proof. unfold sort_keys. induction l as [|x l IH]; [constructor|]. apply insert_key_sorted. exact IH. Qed.

Section Grouping.
Variable key : Z -> rkey.

Definition grouped (l : list Z) : list Z :=
  flat_map (fun k => filter (fun i => key_eqb (key i) k) l) (sort_keys (map key l)).

Lemma flat_map_ext_in {A B} (f g : A -> list B) l :
  (forall x, In x l -> f x = g x) -> flat_map f l = flat_map g l.
Proof.
  intros H. induction l as [|x l IH]; [reflexivity|]. cbn. rewrite H by (left; reflexivity).
  rewrite IH; [reflexivity|]. intros y Hy. apply H. right; exact Hy.
Qed.

Lemma grouped_in l i : In i (grouped l) <-> In i l.
Proof.
  unfold grouped. rewrite in_flat_map. split.
  - intros (k & _ & H). apply filter_In in H. apply H.
  - intros H. exists (key i). split; [apply in_sort_keys, in_map, H|].
    apply filter_In. split; [exact H|]. apply key_eqb_eq. reflexivity.
Qed.

Lemma grouped_sorted l :
  StronglySorted (fun i j => kle (key i) (key j)) l -> grouped l = l.
Proof.
  induction 1 as [|i l Hs IH Hf]; [reflexivity|].
  unfold grouped in *. cbn [map].
  destruct (sort_keys (map key l)) as [|k ks] eqn:E.
  - destruct l as [|j l]; [|exfalso].
    + cbn. rewrite (proj2 (key_eqb_eq (key i) (key i)) eq_refl). reflexivity.
    + assert (Hin : In (key j) (sort_keys (map key (j :: l)))) by (apply in_sort_keys; left; reflexivity).
      rewrite E in Hin. destruct Hin.
  - assert (Hss := sort_keys_sorted (map key l)). rewrite E in Hss.
    apply StronglySorted_inv in Hss. destruct Hss as [_ Hlt].
    assert (Hk : In k (map key l)) by (apply in_sort_keys; rewrite E; left; reflexivity).
    assert (Hge : forall x, In x (map key l) -> kle (key i) x).
    { intros x Hx. apply in_map_iff in Hx. destruct Hx as (j & <- & Hj).
      rewrite Forall_forall in Hf. apply Hf. exact Hj. }
    destruct (key_eqb (key i) k) eqn:Ek.
    + apply key_eqb_eq in Ek. subst k. rewrite (sort_keys_dup _ _ _ E).
      cbn [flat_map]. cbn [filter]. rewrite (proj2 (key_eqb_eq (key i) (key i)) eq_refl).
      cbn [app]. f_equal. etransitivity; [|exact IH]. cbn [flat_map]. f_equal.
      apply flat_map_ext_in. intros x Hx. cbn [filter].
      destruct (key_eqb (key i) x) eqn:Ex; [|reflexivity].
      apply key_eqb_eq in Ex. subst x. rewrite Forall_forall in Hlt. specialize (Hlt _ Hx).
      rewrite key_ltb_irrefl in Hlt. discriminate.
    + assert (Hi : key_ltb (key i) k = true).
      { apply key_total; [exact (Hge k Hk)|]. intros ->.
        rewrite (proj2 (key_eqb_eq _ _) eq_refl) in Ek. discriminate. }
      rewrite sort_keys_head.
      * cbn [flat_map]. rewrite E. cbn [filter].
        rewrite (proj2 (key_eqb_eq (key i) (key i)) eq_refl).
        replace (filter (fun i0 => key_eqb (key i0) (key i)) l) with (@nil Z).
        -- cbn [app]. f_equal. etransitivity; [|exact IH].
           change (filter (fun i0 => key_eqb (key i0) k) (i :: l) ++ flat_map (fun k0 => filter (fun i1 => key_eqb (key i1) k0) (i :: l)) ks)
             with (flat_map (fun k0 => filter (fun i0 => key_eqb (key i0) k0) (i :: l)) (k :: ks)).
           apply flat_map_ext_in. intros x Hx.
           cbn [filter]. destruct (key_eqb (key i) x) eqn:Ex; [|reflexivity].
           apply key_eqb_eq in Ex. subst x. destruct Hx as [->|Hx]; [rewrite key_ltb_irrefl in Hi; discriminate|].
           rewrite Forall_forall in Hlt. specialize (Hlt _ Hx).
           assert (X := key_ltb_trans _ _ _ Hi Hlt). rewrite key_ltb_irrefl in X. discriminate.
        -- symmetry. apply filter_all_false. intros j Hj.
           destruct (key_eqb (key j) (key i)) eqn:Ej; [|reflexivity].
           apply key_eqb_eq in Ej. assert (Hin : In (key j) (sort_keys (map key l))) by (apply in_sort_keys, in_map, Hj).
           rewrite E in Hin. destruct Hin as [->|Hin].
           ++ rewrite Ej in Hi. rewrite key_ltb_irrefl in Hi. discriminate.
           ++ rewrite Forall_forall in Hlt. specialize (Hlt _ Hin). rewrite Ej in Hlt.
              assert (X := key_ltb_trans _ _ _ Hi Hlt). rewrite key_ltb_irrefl in X. discriminate.
      * intros y Hy. assert (Hin : In y (sort_keys (map key l))) by (apply in_sort_keys; exact Hy).
        rewrite E in Hin. destruct Hin as [<-|Hin]; [exact Hi|].
        rewrite Forall_forall in Hlt. exact (key_ltb_trans _ _ _ Hi (Hlt _ Hin)).
Qed.

Lemma nodup_filters l ks : NoDup l -> NoDup ks ->
  NoDup (flat_map (fun k => filter (fun i => key_eqb (key i) k) l) ks).
Proof.
  intros Hl. induction ks as [|k ks IH]; intros Hk; [constructor|]. cbn [flat_map].
  inversion Hk as [|? ? Hni Hnd]; subst.
  assert (Hd : forall x, In x (filter (fun i => key_eqb (key i) k) l) ->
     ~ In x (flat_map (fun k0 => filter (fun i => key_eqb (key i) k0) l) ks)).
  { intros x Hx Hin. apply filter_In in Hx. destruct Hx as [_ Hx]. apply key_eqb_eq in Hx.
    apply in_flat_map in Hin. destruct Hin as (k' & Hk' & Hin). apply filter_In in Hin.
    destruct Hin as [_ Hin]. apply key_eqb_eq in Hin. apply Hni. congruence. }
  specialize (IH Hnd). assert (Hf : NoDup (filter (fun i => key_eqb (key i) k) l)) by (apply NoDup_filter; exact Hl).
  revert Hf Hd. generalize (filter (fun i => key_eqb (key i) k) l). intros m. induction m as [|y m IHm]; intros Hf Hd; [exact IH|].
  cbn. inversion Hf as [|? ? Hy Hm]; subst. constructor.
  - intros Hin. apply in_app_or in Hin. destruct Hin as [Hin|Hin]; [exact (Hy Hin)|].
    exact (Hd y (or_introl eq_refl) Hin).
  - apply IHm; [exact Hm|]. intros x Hx. apply Hd. right; exact Hx.
Qed.

Lemma grouped_perm l : NoDup l -> Permutation (grouped l) l.
Proof.
  intros Hl. apply NoDup_Permutation; [|exact Hl|intros x; apply grouped_in].
  apply nodup_filters; [exact Hl|].
  assert (H := sort_keys_sorted (map key l)). induction H as [|k ks Hs IH Hf]; constructor; [|exact IH].
  intros Hin. rewrite Forall_forall in Hf. specialize (Hf _ Hin). rewrite key_ltb_irrefl in Hf. discriminate.
Qed.

End Grouping.

Section Recon.
Context {V : Type}.
Notation frame := (list (row V)).
Notation block := (Z * list (Z * V))%type.

(** ** selecting some series of a valid collection *)

Definition block_of (F : frame) (i : Z) : block := (i, map (fun r => (rtime r, rval r)) (rows_of F i)).

Lemma brows_block_of (F : frame) i : brows (block_of F i) = rows_of F i.
Proof.
  unfold brows, block_of, series_rows. cbn [fst snd]. rewrite map_map. cbn.
  assert (H : forall r, In r (rows_of F i) -> rid r = i) by apply rid_rows_of.
  induction (rows_of F i) as [|r l IH]; [reflexivity|]. cbn. f_equal.
  - rewrite <- (H r (or_introl eq_refl)). apply row_eta.
  - apply IH. intros q Hq. apply H. right; exact Hq.
Qed.

Lemma select_blocks (F : frame) l : select_ids F l = flatten (map (block_of F) l).
Proof.
  unfold select_ids, flatten. induction l as [|i l IH]; [reflexivity|].
  cbn [flat_map map]. rewrite IH, brows_block_of. reflexivity.
Qed.

Lemma select_wfb (F : frame) l : ValidRows F -> l <> [] -> NoDup l -> (forall i, In i l -> Occurs F i) ->
  wfb (map (block_of F) l).
Proof.
  intros HV Hne Hnd Ho. split.
  - destruct l; [congruence|discriminate].
  - rewrite map_map. cbn. rewrite map_id. exact Hnd.
  - intros b Hb. apply in_map_iff in Hb. destruct Hb as (i & <- & Hi). cbn [fst snd block_of].
    specialize (Ho i Hi). split; [|split; [|split]].
    + apply rows_of_nonempty in Ho. destruct (rows_of F i); [congruence|discriminate].
    + destruct Ho as (r & Hr & <-). apply (vr_ids _ HV). exact Hr.
    + intros p Hp. apply in_map_iff in Hp. destruct Hp as (r & <- & Hr).
      apply filter_In in Hr. apply (vr_times _ HV). apply Hr.
    + rewrite map_map. cbn. apply (times_of_sorted F i HV).
Qed.

Lemma rows_of_select (F : frame) l i : NoDup l -> In i l -> rows_of (select_ids F l) i = rows_of F i.
Proof.
  intros Hnd Hi. rewrite select_blocks.
  change i with (fst (block_of F i)) at 1.
  rewrite (rows_of_flatten (map (block_of F) l) (block_of F i)).
  - apply brows_block_of.
  - rewrite map_map. cbn. rewrite map_id. exact Hnd.
  - apply in_map. exact Hi.
Qed.

Lemma rows_of_select_other (F : frame) l i : ~ In i l -> rows_of (select_ids F l) i = [].
Proof.
  intros Hi. rewrite select_blocks. apply rows_of_notin. rewrite map_map. cbn. rewrite map_id. exact Hi.
Qed.

(** ** regularly sampled series *)

Lemma series_next (F : frame) i d : ValidRows F -> SeriesSampledWith F i d ->
  forall a b p q, rows_of F i = p ++ a :: b :: q -> rtime b - rtime a = d.
Proof.
  intros HV HS a b l m E. destruct (valid_blocks F HV) as (bs & EG & Wf).
  assert (Ho : Occurs F i) by (apply rows_of_nonempty; rewrite E; destruct l; discriminate).
  destruct Ho as (q & Hq & Eq). rewrite EG in Hq. apply in_flatten_id in Hq. rewrite Eq in Hq.
  apply in_map_iff in Hq. destruct Hq as (c & Ec & Hc).
  assert (Ea : rid a = i) by (apply (rid_rows_of F i); rewrite E; apply in_or_app; cbn; auto).
  assert (Eb : rid b = i) by (apply (rid_rows_of F i); rewrite E; apply in_or_app; cbn; auto).
  rewrite EG, <- Ec, (rows_of_flatten bs c (wf_nodup _ Wf) Hc) in E.
  apply in_split in Hc. destruct Hc as (b1 & b2 & ->).
  apply HS; [|exact Ea|exact Eb].
  rewrite EG, flatten_app, flatten_cons, E. exists (flatten b1 ++ l), (m ++ flatten b2).
  rewrite <- !app_assoc. cbn. reflexivity.
Qed.

Lemma regular_times (F : frame) i d : ValidRows F -> Occurs F i -> SeriesSampledWith F i d ->
  times_of F i = equispaced (hd 0 (times_of F i)) d (length (rows_of F i)).
Proof.
  intros HV Ho HS. apply rows_of_nonempty in Ho. unfold times_of.
  destruct (rows_of F i) as [|r l] eqn:E; [congruence|]. rewrite <- E.
  apply rows_equispaced; [|rewrite E; reflexivity].
  intros a b p q Eq. apply (series_next F i d HV HS a b p q Eq).
Qed.

Lemma regular_pos (F : frame) i d : ValidRows F -> Regular F i d -> 0 < d.
Proof.
  intros HV [Hl HS]. assert (Hss := times_of_sorted F i HV). unfold times_of in Hss.
  destruct (rows_of F i) as [|a [|b l]] eqn:E; [cbn in Hl; lia|cbn in Hl; lia|].
  assert (HH := series_next F i d HV HS a b [] l E).
  apply StronglySorted_inv in Hss. destruct Hss as [_ Hf]. cbn in Hf.
  apply Forall_inv in Hf. lia.
Qed.

Lemma last_equispaced s d n : last (equispaced s d (S n)) 0 = s + Z.of_nat n * d.
Proof. rewrite equispaced_snoc, last_last. reflexivity. Qed.

(** key of series i *)
Definition keyof (F : frame) (d : Z) (i : Z) : rkey := (time_interval F i, d).

Lemma time_interval_regular (F : frame) i d : ValidRows F -> Occurs F i -> SeriesSampledWith F i d ->
  time_interval F i
  = (hd 0 (times_of F i), hd 0 (times_of F i) + (Z.of_nat (length (rows_of F i)) - 1) * d).
Proof.
  intros HV Ho HS. unfold time_interval. change (group F i) with (rows_of F i).
  rewrite np_unique_of_sorted by apply (times_of_sorted F i HV).
  change (time_index (rows_of F i)) with (times_of F i).
  f_equal. rewrite (regular_times F i d HV Ho HS) at 1.
  apply rows_of_nonempty in Ho. destruct (length (rows_of F i)) as [|m] eqn:E.
  - apply length_zero_iff_nil in E. congruence.
  - rewrite last_equispaced. lia.
Qed.

Lemma same_key_same_times (F : frame) d i j : ValidRows F -> Regular F i d -> Regular F j d ->
  keyof F d i = keyof F d j -> times_of F i = times_of F j.
Proof.
  intros HV Hi Hj HK.
  assert (Oi : Occurs F i).
  { apply rows_of_nonempty. intros E. destruct Hi as [H _]. rewrite E in H. cbn in H; lia. }
  assert (Oj : Occurs F j).
  { apply rows_of_nonempty. intros E. destruct Hj as [H _]. rewrite E in H. cbn in H; lia. }
  assert (Hp := regular_pos F i d HV Hi).
  apply (f_equal fst) in HK. unfold keyof in HK. cbn [fst] in HK.
  rewrite (time_interval_regular F i d HV Oi (proj2 Hi)) in HK.
  rewrite (time_interval_regular F j d HV Oj (proj2 Hj)) in HK. injection HK as H1 H2.
  rewrite (regular_times F i d HV Oi (proj2 Hi)), (regular_times F j d HV Oj (proj2 Hj)).
  rewrite H1 in *. f_equal. nia.
Qed.

(** ** iter_reconstruct_ic *)

Variable pred : list V -> Z -> V.

Lemma hd_skipn_nth (l : list Z) n : hd 0 (skipn n l) = nth n l 0.
Proof. revert l. induction n as [|n IH]; intros [|x l]; cbn; auto. Qed.

Lemma map_rtime_skipn n (l : frame) : map rtime (skipn n l) = skipn n (map rtime l).
Proof. symmetry. apply skipn_map. Qed.

Lemma existsb_none_false {A} (f : A -> bool) l : (forall x, In x l -> f x = false) -> existsb f l = false.
Proof. intros H. apply existsb_false_forall. exact H. Qed.

Lemma group_prediction (F : frame) d n gids ic :
  ValidRows F -> (1 <= n)%nat -> gids <> [] -> NoDup gids ->
  (forall i, In i gids -> Regular F i d /\ (n <= length (rows_of F i))%nat) ->
  (forall i j, In i gids -> In j gids -> keyof F d i = keyof F d j) ->
  initial_states (select_ids F gids) n = Ok ic ->
  predict_group pred (gids, ic, skipn (n - 1) (time_values (select_ids F gids)))
  = flat_map (reconstruction pred F n) gids.
Proof.
  intros HV Hn Hne Hnd Hg Hk HI.
  assert (Ho : forall i, In i gids -> Occurs F i).
  { intros i Hi. apply rows_of_nonempty. intros E. destruct (Hg i Hi) as [[H _] _]. rewrite E in H. cbn in H; lia. }
  assert (Wf := select_wfb F gids HV Hne Hnd Ho).
  assert (VS : ValidRows (select_ids F gids)) by (rewrite select_blocks; apply wfb_valid; exact Wf).
  assert (OS : forall i, Occurs (select_ids F gids) i -> In i gids).
  { intros i Hi. destruct (in_dec Z.eq_dec i gids) as [|Hni]; [assumption|].
    apply rows_of_nonempty in Hi. rewrite rows_of_select_other in Hi by exact Hni. congruence. }
  destruct (initial_states_spec (select_ids F gids) n VS Hn) as (I & HI' & _ & _ & HR).
  { intros i Hi. apply OS in Hi. rewrite rows_of_select by assumption. apply Hg; exact Hi. }
  rewrite HI in HI'. injection HI' as <-.
  cbn [predict_group]. apply flat_map_ext_in. intros i Hi.
  assert (HC : CommonTimes (select_ids F gids) (times_of F i)).
  { intros j Hj. apply OS in Hj. unfold times_of at 1. rewrite rows_of_select by assumption.
    apply (same_key_same_times F d j i HV (proj1 (Hg j Hj)) (proj1 (Hg i Hi)) (Hk j i Hj Hi)). }
  rewrite (common_times _ _ VS HC). unfold reconstruction.
  rewrite hd_skipn_nth. unfold times_of at 2. rewrite <- map_rtime_skipn, map_map.
  apply map_ext. intros r. change (group ic i) with (rows_of ic i).
  unfold to_numpy. rewrite HR, rows_of_select by assumption. reflexivity.
Qed.

Lemma keyed_filter (key : Z -> rkey) l k :
  map snd (filter (fun p => key_eqb (fst p) k) (map (fun i => (key i, i)) l))
  = filter (fun i => key_eqb (key i) k) l.
Proof.
  induction l as [|i l IH]; [reflexivity|]. cbn [map filter fst].
  destruct (key_eqb (key i) k); cbn [map snd]; [f_equal|]; exact IH.
Qed.

Lemma iter_spec (F : frame) d n :
  ValidRows F -> SmallSteps F -> (1 <= n)%nat ->
  (forall i, Occurs F i -> Regular F i d /\ (n <= length (rows_of F i))%nat) ->
  exists gs, iter_reconstruct_ic KInt F n = Ok gs /\
    flat_map (predict_group pred) gs
    = flat_map (reconstruction pred F n) (grouped (keyof F d) (ids F)).
Proof.
  intros HV HSS Hn HR. unfold iter_reconstruct_ic.
  replace (check_required_min_timesteps F n) with (@Ok unit tt)
    by (symmetry; apply (min_timesteps_ok F n (vr_nonempty _ HV)); intros i Hi; apply HR; exact Hi).
  cbn [bind]. unfold time_values_overview.
  rewrite (proj2 (delta_time_scalar_some F d HV HSS)) by (intros i Hi; apply HR; exact Hi).
  cbn [bind].
  rewrite existsb_none_false.
  2:{ intros e He. apply in_map_iff in He. destruct He as (i & <- & _). reflexivity. }
  set (keyed := flat_map _ _).
  assert (EK : keyed = map (fun i => (keyof F d i, i)) (ids F)).
  { unfold keyed. clear. induction (ids F) as [|i l IH]; [reflexivity|]. cbn. f_equal. exact IH. }
  clearbody keyed. subst keyed. rewrite map_map. cbn [fst].
  set (key := keyof F d).
  assert (Hids : forall i, In i (ids F) -> Occurs F i) by (intros i; apply in_ids).
  unfold grouped. fold key.
  assert (Hks : forall k, In k (sort_keys (map key (ids F))) ->
    exists ic, initial_states (select_ids F (filter (fun i => key_eqb (key i) k) (ids F))) n = Ok ic /\
      predict_group pred (filter (fun i => key_eqb (key i) k) (ids F), ic,
         skipn (n - 1) (time_values (select_ids F (filter (fun i => key_eqb (key i) k) (ids F)))))
      = flat_map (reconstruction pred F n) (filter (fun i => key_eqb (key i) k) (ids F))).
  { intros k Hk. set (gids := filter _ _).
    apply (proj1 (in_sort_keys _ _)) in Hk. apply in_map_iff in Hk. destruct Hk as (i0 & <- & Hi0).
    assert (Hne : gids <> []).
    { intros E. assert (Hin : In i0 gids) by (apply filter_In; split; [exact Hi0|apply key_eqb_eq; reflexivity]).
      rewrite E in Hin. destruct Hin. }
    assert (Hnd : NoDup gids) by (apply NoDup_filter, sorted_lt_NoDup, ids_sorted).
    assert (Hin : forall i, In i gids -> In i (ids F) /\ key i = key i0).
    { intros i Hi. apply filter_In in Hi. destruct Hi as [H1 H2]. apply key_eqb_eq in H2. auto. }
    assert (Hg : forall i, In i gids -> Regular F i d /\ (n <= length (rows_of F i))%nat).
    { intros i Hi. apply HR, Hids, Hin. exact Hi. }
    assert (Ho : forall i, In i gids -> Occurs F i) by (intros i Hi; apply Hids, Hin; exact Hi).
    assert (VS : ValidRows (select_ids F gids))
      by (rewrite select_blocks; apply wfb_valid, (select_wfb F gids HV Hne Hnd Ho)).
    destruct (initial_states_spec (select_ids F gids) n VS Hn) as (ic & HI & _).
    { intros i Hi. destruct (in_dec Z.eq_dec i gids) as [Hig|Hni].
      - rewrite rows_of_select by assumption. apply Hg; exact Hig.
      - apply rows_of_nonempty in Hi. rewrite rows_of_select_other in Hi by exact Hni. congruence. }
    exists ic. split; [exact HI|].
    apply (group_prediction F d n gids ic HV Hn Hne Hnd Hg); [|exact HI].
    intros i j Hi Hj. fold key. rewrite (proj2 (Hin i Hi)), (proj2 (Hin j Hj)). reflexivity. }
  induction (sort_keys (map key (ids F))) as [|k ks IH].
  - exists []. split; reflexivity.
  - destruct IH as (gs & E1 & E2). { intros x Hx. apply Hks. right; exact Hx. }
    destruct (Hks k (or_introl eq_refl)) as (ic & HI & HP).
    assert (HG := keyed_filter key (ids F) k).
    eexists. split.
    + cbn [map_result]. rewrite HG, HI. cbn [bind]. fold key in E1. rewrite E1. reflexivity.
    + cbn [flat_map]. rewrite E2, HP, flat_map_app. reflexivity.
Qed.

Lemma reconstruction_valid (F : frame) n l :
  ValidRows F -> (1 <= n)%nat -> l <> [] -> NoDup l ->
  (forall i, In i l -> (n <= length (rows_of F i))%nat) ->
  ValidRows (flat_map (reconstruction pred F n) l).
Proof.
  intros HV Hn Hne Hnd Hl.
  set (blk := fun i => (i, map (fun r => (rtime r, rval r)) (reconstruction pred F n i))).
  assert (E : flat_map (reconstruction pred F n) l = flatten (map blk l)).
  { clear Hne Hnd Hl. induction l as [|i l IH]; [reflexivity|]. cbn [flat_map map]. rewrite flatten_cons, IH.
    f_equal. unfold blk, brows, series_rows, reconstruction. cbn [fst snd]. rewrite !map_map. reflexivity. }
  rewrite E. apply wfb_valid. constructor.
  - destruct l; [congruence|discriminate].
  - rewrite map_map. unfold blk. cbn [fst]. rewrite map_id. exact Hnd.
  - intros b Hb. apply in_map_iff in Hb. destruct Hb as (i & <- & Hi). unfold blk. cbn [fst snd].
    specialize (Hl i Hi). unfold reconstruction.
    assert (HI : forall q, In q (skipn (n - 1) (rows_of F i)) -> In q F /\ rid q = i).
    { intros q Hq. assert (Hq' := in_skipn _ _ _ Hq). split; [|apply (rid_rows_of F i); exact Hq'].
      apply filter_In in Hq'. apply Hq'. }
    assert (HS := times_of_sorted F i HV).
    assert (HL : skipn (n - 1) (rows_of F i) <> []).
    { intros H0. apply (f_equal (@length _)) in H0. rewrite skipn_length in H0. cbn in H0. lia. }
    rewrite !map_map. cbn [rtime rval]. split; [|split; [|split]].
    + intros H0. apply map_eq_nil in H0. exact (HL H0).
    + destruct (skipn (n - 1) (rows_of F i)) as [|q r]; [congruence|].
      destruct (HI q (or_introl eq_refl)) as [Hq <-]. apply (vr_ids _ HV q Hq).
    + intros p Hp. apply in_map_iff in Hp. destruct Hp as (q & <- & Hq). cbn.
      apply (vr_times _ HV q), (HI q Hq).
    + cbn. change (fun x : row V => rtime x) with (@rtime V). rewrite map_rtime_skipn.
      unfold times_of in HS. clear -HS.
      revert HS. generalize (map rtime (rows_of F i)) (n - 1)%nat. intros l k. revert l.
      induction k as [|k IH]; intros l HS; [exact HS|]. destruct l as [|x l]; [constructor|].
      cbn. apply IH. apply StronglySorted_inv in HS. apply HS.
Qed.

Lemma all_reconstructed (F : frame) d n : ValidRows F -> (1 <= n)%nat ->
  (forall i, Occurs F i -> (n <= length (rows_of F i))%nat) ->
  ValidRows (flat_map (reconstruction pred F n) (grouped (keyof F d) (ids F))).
Proof.
  intros HV Hn HL. apply reconstruction_valid; [exact HV|exact Hn| | |].
  - destruct F as [|r F']; [destruct (vr_nonempty _ HV); reflexivity|].
    intros H0. assert (Hr : In (rid r) (grouped (keyof (r :: F') d) (ids (r :: F')))).
    { apply grouped_in, in_ids. exists r. split; [left|]; reflexivity. }
    rewrite H0 in Hr. destruct Hr.
  - eapply Permutation_NoDup; [symmetry; apply grouped_perm|]; apply sorted_lt_NoDup, ids_sorted.
  - intros i Hi. apply (proj1 (grouped_in _ _ _)) in Hi. apply in_ids in Hi. auto.
Qed.

(** ** DMD.reconstruct *)

Lemma dmd_reconstruct_spec (F G : frame) :
  ValidRows F -> SmallSteps F -> dmd_reconstruct pred KInt F = Ok G ->
  forall r, In r G <->
    exists i q0, Occurs F i /\ hd_error (rows_of F i) = Some q0 /\ rid r = i /\
      exists q, In q (rows_of F i) /\ rtime r = rtime q /\ rval r = pred [rval q0] (rtime q - rtime q0).
Proof.
  intros HV HSS H. unfold dmd_reconstruct in H.
  apply bind_ok in H. destruct H as (d & Hd & H).
  rewrite (const_dt_ok F d HV HSS) in Hd.
  destruct (iter_spec F d 1 HV HSS (le_n 1)) as (gs & E1 & E2).
  { intros i Hi. split; [apply Hd; exact Hi|]. destruct (Hd i Hi) as [HL _]. lia. }
  rewrite E1 in H. cbn [bind] in H. unfold concat_groups in H. apply tsc_ok in H. destruct H as [_ ->]. rewrite E2.
  intros r. rewrite in_flat_map. split.
  - intros (i & Hi & Hr). apply (proj1 (grouped_in _ _ _)) in Hi. apply in_ids in Hi.
    unfold reconstruction in Hr. apply in_map_iff in Hr. destruct Hr as (q & <- & Hq).
    cbn [Nat.sub] in Hq. rewrite skipn_O in Hq.
    destruct (rows_of F i) as [|q0 l] eqn:E; [destruct Hq|].
    exists i, q0. rewrite E. split; [exact Hi|]. split; [reflexivity|]. split; [reflexivity|].
    exists q. split; [exact Hq|]. split; [reflexivity|]. cbn [rval]. unfold times_of. rewrite E. reflexivity.
  - intros (i & q0 & Hi & Hh & Er & q & Hq & Et & Ev). exists i.
    split; [apply grouped_in, in_ids; exact Hi|]. unfold reconstruction.
    apply in_map_iff. exists q. cbn [Nat.sub]. rewrite skipn_O. split; [|exact Hq].
    destruct (rows_of F i) as [|q1 l] eqn:E; [discriminate|]. injection Hh as ->.
    unfold times_of. rewrite E. cbn.
    transitivity (mkRow (rid r) (rtime r) (rval r)); [congruence | apply row_eta].
Qed.

Lemma dmd_labels (F G : frame) :
  ValidRows F -> SmallSteps F -> dmd_reconstruct pred KInt F = Ok G ->
  forall r, In r G <-> exists q, Reconstructs pred F r q.
Proof.
  intros HV HSS H r. rewrite (dmd_reconstruct_spec F G HV HSS H r). split.
  - intros (i & q0 & _ & Hh & Er & q & Hq & Et & Ev). exists q.
    assert (Eq := rid_rows_of F i q Hq). apply filter_In in Hq. destruct Hq as [Hq _].
    split; [exact Hq|]. split; [congruence|]. split; [exact Et|]. exists q0. rewrite Eq. auto.
  - intros (q & Hq & Er & Et & q0 & Hh & Ev). exists (rid q), q0.
    split; [exists q; auto|]. split; [exact Hh|]. split; [exact Er|]. exists q.
    split; [|auto]. apply filter_In. split; [exact Hq|]. apply Z.eqb_refl.
Qed.

Lemma dmd_succeeds (F : frame) d :
  ValidRows F -> SmallSteps F -> (forall i, Occurs F i -> Regular F i d) ->
  exists G, dmd_reconstruct pred KInt F = Ok G.
Proof.
  intros HV HSS HR. unfold dmd_reconstruct. rewrite (proj2 (const_dt_ok F d HV HSS) HR). cbn [bind].
  destruct (iter_spec F d 1 HV HSS (le_n 1)) as (gs & -> & E2).
  { intros i Hi. split; [apply HR; exact Hi|]. destruct (HR i Hi). lia. }
  eexists. cbn [bind]. unfold concat_groups. apply tsc_ok. split; [|reflexivity]. rewrite E2.
  apply all_reconstructed; [exact HV|apply le_n|]. intros i Hi. destruct (HR i Hi). lia.
Qed.

Lemma dmd_once (F G : frame) :
  ValidRows F -> SmallSteps F -> dmd_reconstruct pred KInt F = Ok G ->
  Permutation G (flat_map (reconstruction pred F 1) (ids F)).
Proof.
  intros HV HSS H. unfold dmd_reconstruct in H.
  apply bind_ok in H. destruct H as (d & Hd & H). rewrite (const_dt_ok F d HV HSS) in Hd.
  destruct (iter_spec F d 1 HV HSS (le_n 1)) as (gs & E1 & E2).
  { intros i Hi. split; [apply Hd; exact Hi|]. destruct (Hd i Hi) as [HL _]. lia. }
  rewrite E1 in H. cbn [bind] in H. unfold concat_groups in H. apply tsc_ok in H. destruct H as [_ ->]. rewrite E2.
  apply Permutation_flat_map, grouped_perm, sorted_lt_NoDup, ids_sorted.
Qed.

End Recon.
