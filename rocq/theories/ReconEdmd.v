(** * Proofs about reconstructions by EDMD. *)

From Coq Require Import List ZArith Bool Arith Lia Sorted Permutation.
From Coq Require Import ZifyBool ZifyNat.
Import ListNotations.
From Verif Require Import Np NpFacts TscModel TscSpec TscBlocks TscProofs TscDt TscOps TscShift.
From Verif Require Import PredModel PredSpec PredProofs PredControl ReconModel ReconSpec ReconProofs.
Close Scope nat_scope.
Open Scope Z_scope.

Section Edmd.
Context {V : Type}.
Notation frame := (list (row V)).
Notation block := (Z * list (Z * V))%type.

Definition bstart (b : block) : Z := hd 0 (map fst (snd b)).
Definition sb (b : block) : block :=
  (fst b, map (fun p => (fst p - bstart b, snd p)) (snd b)).

Lemma np_diff_shift c l : np_diff (map (fun t => t - c) l) = np_diff l.
Proof.
  induction l as [|x l IH]; [reflexivity|]. destruct l as [|y l]; [reflexivity|].
  cbn [map] in IH |- *. rewrite !np_diff_cons2. f_equal; [lia|]. exact IH.
Qed.

Lemma sb_times b : map fst (snd (sb b)) = map (fun t => t - bstart b) (map fst (snd b)).
Proof. unfold sb. cbn [snd]. rewrite !map_map. reflexivity. Qed.

Lemma sorted_shift c l : StronglySorted Z.lt l -> StronglySorted Z.lt (map (fun t => t - c) l).
Proof.
  induction 1 as [|x l Hs IH Hf]; [constructor|]. cbn. constructor; [exact IH|].
  rewrite Forall_forall in *. intros y Hy. apply in_map_iff in Hy. destruct Hy as (z & <- & Hz).
  specialize (Hf z Hz). lia.
Qed.

Lemma hd_sorted_le l x : StronglySorted Z.lt l -> In x l -> hd 0 l <= x.
Proof.
  intros H Hx. destruct l as [|y l]; [destruct Hx|]. cbn. apply StronglySorted_inv in H.
  destruct Hx as [->|Hx]; [lia|]. destruct H as [_ H]. rewrite Forall_forall in H. specialize (H x Hx). lia.
Qed.

Lemma sb_wfb bs : wfb bs -> wfb (map sb bs).
Proof.
  intros W. split.
  - destruct bs; [exfalso; apply (wf_ne _ W); reflexivity|discriminate].
  - rewrite map_map. apply (wf_nodup _ W).
  - intros c Hc. apply in_map_iff in Hc. destruct Hc as (b & <- & Hb).
    destruct (wf_blocks _ W b Hb) as (H1 & H2 & H3 & H4). split; [|split; [|split]].
    + unfold sb; cbn. destruct (snd b); [congruence|discriminate].
    + exact H2.
    + intros p Hp. unfold sb in Hp. cbn [snd] in Hp. apply in_map_iff in Hp.
      destruct Hp as (q & <- & Hq). cbn [fst].
      assert (bstart b <= fst q) by (apply hd_sorted_le; [exact H4|apply in_map; exact Hq]). lia.
    + rewrite sb_times. apply sorted_shift. exact H4.
Qed.

Lemma sb_regular bs b d : wfb bs -> In b bs ->
  Regular (flatten bs) (fst b) d -> Regular (flatten (map sb bs)) (fst b) d.
Proof.
  intros W Hb H. apply (proj2 (exact_regular bs b d W Hb)) in H.
  change (fst b) with (fst (sb b)). apply (exact_regular (map sb bs) (sb b) d (sb_wfb bs W)).
  - apply in_map. exact Hb.
  - rewrite sb_times, np_diff_shift. exact H.
Qed.

Lemma round_div_exact k d : 0 < d -> round_div (k * d) d * d = k * d.
Proof.
  intros H. unfold round_div. rewrite Z.div_mul, Z.mod_mul by lia.
  replace (2 * 0 <? d) with true by lia. reflexivity.
Qed.

Lemma block_multiples bs b d t : wfb bs -> In b bs -> Regular (flatten bs) (fst b) d ->
  In t (map fst (snd b)) -> exists k, t - bstart b = k * d.
Proof.
  intros W Hb HR Ht. assert (HV := wfb_valid bs W).
  assert (Ho : Occurs (flatten bs) (fst b)) by (apply (occurs_block bs _ W); eauto).
  assert (E := regular_times _ _ d HV Ho (proj2 HR)).
  unfold times_of in E. rewrite (rows_of_flatten bs b (wf_nodup _ W) Hb) in E.
  change (map rtime (brows b)) with (time_index (brows b)) in E. rewrite times_brows in E.
  rewrite E in Ht. unfold equispaced in Ht. apply in_map_iff in Ht. destruct Ht as (j & <- & _).
  exists (Z.of_nat j). unfold bstart. lia.
Qed.

Lemma initial_one_blocks (bs : list block) : wfb bs ->
  initial_states (flatten bs) 1 = Ok (flatten (map (fun b => (fst b, firstn 1 (snd b))) bs)).
Proof.
  intros W. assert (HV := wfb_valid bs W).
  assert (Hm : check_required_min_timesteps (flatten bs) 1 = Ok tt).
  { apply (min_timesteps_ok _ _ (vr_nonempty _ HV)). intros i Hi. apply rows_of_nonempty in Hi.
    destruct (rows_of (flatten bs) i); [congruence|cbn; lia]. }
  unfold initial_states. cbn [Nat.ltb Nat.leb]. rewrite Hm. apply tsc_ok. unfold groupby_head.
  rewrite head_aux_flatten; [|apply (wf_nodup _ W)|intros b _ []].
  split; [|reflexivity]. apply wfb_valid. apply (sub_wf (firstn 1)); auto.
  - intros b Hb E. destruct (wf_blocks _ W b Hb) as (H1 & _). destruct (snd b); [congruence|discriminate].
  - intros s p. apply in_firstn.
  - intros s Hs. rewrite <- firstn_map. apply StronglySorted_firstn. exact Hs.
Qed.

Lemma first_times (bs : list block) : wfb bs ->
  time_index (flatten (map (fun b => (fst b, firstn 1 (snd b))) bs)) = map bstart bs.
Proof.
  intros W. assert (H : forall b, In b bs -> snd b <> []) by (intros b Hb; apply (wf_blocks _ W b Hb)).
  clear W. induction bs as [|b bs IH]; [reflexivity|].
  cbn [map]. rewrite flatten_cons, time_index_app, IH by (intros c Hc; apply H; right; exact Hc).
  rewrite times_brows. cbn [snd]. unfold bstart at 2.
  assert (Hb := H b (or_introl eq_refl)). destruct (snd b); [congruence|]. reflexivity.
Qed.

Lemma map_eq_flat {A B} (f : A -> B) l : map f l = flat_map (fun x => [f x]) l.
Proof. induction l; cbn; congruence. Qed.

Lemma np_repeat_map {A B} (f : A -> B) n l :
  np_repeat (map f l) n = flat_map (fun x => repeat (f x) n) l.
Proof. unfold np_repeat. induction l as [|x l IH]; [reflexivity|]. cbn. rewrite IH. reflexivity. Qed.

Lemma counts_blocks (bs : list block) : wfb bs -> IdsSorted (flatten bs) ->
  counts (flatten bs) = map (fun b => length (snd b)) bs.
Proof.
  intros W Hs. unfold counts. change (np_unique (ids_index (flatten bs))) with (ids (flatten bs)).
  rewrite (ids_sorted_blocks bs W Hs), map_map. apply map_ext_in. intros b Hb.
  rewrite np_count_rows, (rows_of_flatten bs b (wf_nodup _ W) Hb), brows_length. reflexivity.
Qed.

Lemma combine_maps {A B C} (f : A -> B) (g : A -> C) l :
  combine (map f l) (map g l) = map (fun x => (f x, g x)) l.
Proof. induction l; cbn; congruence. Qed.

Lemma flat_map_map {A B C} (f : A -> B) (g : B -> list C) l :
  flat_map g (map f l) = flat_map (fun x => g (f x)) l.
Proof. induction l; cbn; congruence. Qed.

Lemma map_flat_map {A B C} (f : A -> list B) (g : B -> C) l :
  map g (flat_map f l) = flat_map (fun x => map g (f x)) l.
Proof. induction l; cbn; [reflexivity|]. rewrite map_app. congruence. Qed.

Lemma combine_repeat {A B} (l : list A) (c : B) : combine l (repeat c (length l)) = map (fun x => (x, c)) l.
Proof. induction l; cbn; congruence. Qed.

Lemma shift_blocks_eq (bs : list block) d :
  wfb bs -> SmallSteps (flatten bs) -> IdsSorted (flatten bs) ->
  (forall i, Occurs (flatten bs) i -> Regular (flatten bs) i d) ->
  shift_time_per_time_series KInt (flatten bs) = Ok (flatten (map sb bs)).
Proof.
  intros W HSS Hs HR. assert (HV := wfb_valid bs W).
  unfold shift_time_per_time_series. rewrite (initial_one_blocks bs W). cbn [bind].
  rewrite (first_times bs W), map_map.
  destruct (existsb _ _) eqn:E.
  - rewrite (proj2 (delta_time_scalar_some _ d HV HSS) HR). cbn [bind].
    match goal with |- tsc ?m = _ => assert (EM : m = flatten (map sb bs)) end.
    2:{ rewrite EM. apply tsc_ok. split; [apply wfb_valid, sb_wfb, W|reflexivity]. }
    set (ex := match n_timesteps (flatten bs) with NInt n => _ | NSeries l => _ end).
    assert (EX : ex = flat_map (fun b => repeat (- bstart b) (length (brows b))) bs).
    { unfold ex. destruct (n_timesteps (flatten bs)) as [n|l] eqn:En.
      - rewrite np_repeat_map. apply flat_map_ext_in. intros b Hb.
        rewrite brows_length, (proj1 (n_timesteps_blocks bs n W) En b Hb). reflexivity.
      - assert (El : map snd l = map (fun b => length (snd b)) bs).
        { unfold n_timesteps in En. destruct (_ || _); [discriminate|]. injection En as <-.
          rewrite map_snd_combine by (unfold counts, ids; rewrite map_length; reflexivity).
          apply counts_blocks; assumption. }
        rewrite El. unfold np_repeat_each. rewrite combine_maps, flat_map_map.
        apply flat_map_ext_in. intros b _. cbn [fst snd]. rewrite brows_length. reflexivity. }
    rewrite EX. change (flatten bs) with (flat_map (@brows V) bs).
    rewrite combine_flat_map by (intros b _; rewrite repeat_length; reflexivity).
    rewrite map_flat_map. change (flatten (map sb bs)) with (flat_map (@brows V) (map sb bs)).
    rewrite flat_map_map. apply flat_map_ext_in. intros b Hb.
    rewrite combine_repeat, map_map. unfold brows, series_rows, sb. cbn [fst snd]. rewrite !map_map.
    apply map_ext_in. intros p Hp. cbn.
    assert (Hreg : Regular (flatten bs) (fst b) d) by (apply HR, (occurs_block bs _ W); eauto).
    destruct (block_multiples bs b d (fst p) W Hb Hreg (in_map fst _ _ Hp)) as (k & Ek).
    assert (Hd := regular_pos _ _ d HV Hreg). f_equal.
    replace (fst p + - bstart b) with (k * d) by lia. rewrite round_div_exact by exact Hd. lia.
  - f_equal. f_equal. symmetry. rewrite <- (map_id bs) at 2. apply map_ext_in. intros b Hb.
    rewrite existsb_false_forall in E.
    assert (E0 : bstart b = 0).
    { specialize (E (- bstart b)). rewrite in_map_iff in E. specialize (E (ex_intro _ b (conj eq_refl Hb))). lia. }
    unfold sb. rewrite E0. destruct b as [i s]. cbn [fst snd]. f_equal.
    rewrite <- (map_id s) at 2. apply map_ext. intros [t v]. cbn. f_equal. lia.
Qed.

Lemma sb_occurs bs i : wfb bs -> Occurs (flatten (map sb bs)) i <-> Occurs (flatten bs) i.
Proof.
  intros W. rewrite (occurs_block _ _ (sb_wfb bs W)), (occurs_block _ _ W). split.
  - intros (c & Hc & <-). apply in_map_iff in Hc. destruct Hc as (b & <- & Hb). exists b. auto.
  - intros (b & Hb & <-). exists (sb b). split; [apply in_map; exact Hb|reflexivity].
Qed.

Lemma sb_rows bs b : wfb bs -> In b bs ->
  rows_of (flatten (map sb bs)) (fst b)
  = map (fun r => mkRow (rid r) (rtime r - bstart b) (rval r)) (rows_of (flatten bs) (fst b)).
Proof.
  intros W Hb. change (fst b) with (fst (sb b)) at 1.
  rewrite (rows_of_flatten (map sb bs) (sb b) (wf_nodup _ (sb_wfb bs W)) (in_map sb _ _ Hb)).
  rewrite (rows_of_flatten bs b (wf_nodup _ W) Hb).
  unfold brows, series_rows, sb. cbn [fst snd]. rewrite !map_map. reflexivity.
Qed.

Lemma sb_ids bs : wfb bs -> ids (flatten (map sb bs)) = ids (flatten bs).
Proof.
  intros W. rewrite !ids_flatten.
  - rewrite map_map. reflexivity.
  - intros b Hb; apply (wf_blocks _ W b Hb).
  - intros b Hb; apply (wf_blocks _ (sb_wfb bs W) b Hb).
Qed.

Lemma sb_small bs d : wfb bs -> SmallSteps (flatten bs) ->
  (forall i, Occurs (flatten bs) i -> Regular (flatten bs) i d) -> SmallSteps (flatten (map sb bs)).
Proof.
  intros W HSS HR a c Hn Eac.
  assert (Hin : In a (flatten (map sb bs))).
  { destruct Hn as (l & r & ->). apply in_or_app. right; left; reflexivity. }
  assert (Ho : Occurs (flatten (map sb bs)) (rid a)) by (exists a; auto).
  apply (proj1 (sb_occurs bs _ W)) in Ho.
  apply (proj1 (occurs_block bs _ W)) in Ho. destruct Ho as (b & Hb & Eb).
  assert (Hreg : Regular (flatten bs) (fst b) d) by (apply HR, (occurs_block bs _ W); eauto).
  assert (Hreg' := sb_regular bs b d W Hb Hreg).
  rewrite (proj2 Hreg' a c Hn) by congruence.
  apply (proj2 (exact_regular bs b d W Hb)) in Hreg.
  apply (bdt_small bs b d W HSS Hb). exact Hreg.
Qed.

Variable pred : list V -> Z -> V.

Lemma edmd_reconstruct_spec (F : frame) d n :
  ValidRows F -> IdsSorted F -> SmallSteps F -> (1 <= n)%nat ->
  (forall i, Occurs F i -> Regular F i d /\ (n < length (rows_of F i))%nat) ->
  LengthsAscending F ->
  edmd_reconstruct pred KInt F n = Ok (flat_map (reconstruction pred F n) (ids F)).
Proof.
  intros HV Hs HSS Hn HR Hasc.
  unfold edmd_reconstruct.
  replace (check_required_min_timesteps F (n + 1)) with (@Ok unit tt).
  2:{ symmetry. apply (min_timesteps_ok F (n + 1) (vr_nonempty _ HV)). intros i Hi.
      destruct (HR i Hi) as [_ H]. lia. }
  cbn [bind].
  destruct (valid_blocks F HV) as (bs & EF & W).
  assert (HRr : forall i, Occurs F i -> Regular F i d) by (intros i Hi; apply HR; exact Hi).
  assert (ES : shift_time_per_time_series KInt F = Ok (flatten (map sb bs))).
  { rewrite EF. apply (shift_blocks_eq bs d W); rewrite <- EF; assumption. }
  rewrite ES. cbn [bind]. clear ES.
  set (Fs := flatten (map sb bs)).
  assert (VS : ValidRows Fs) by (apply wfb_valid, sb_wfb, W).
  assert (Hocc : forall i, Occurs Fs i <-> Occurs F i) by (intros i; rewrite EF; apply sb_occurs; exact W).
  assert (HSS' : SmallSteps Fs) by (apply (sb_small bs d W); rewrite <- EF; assumption).
  assert (HRows : forall i, Occurs F i -> exists c, c = hd 0 (times_of F i) /\
     rows_of Fs i = map (fun r => mkRow (rid r) (rtime r - c) (rval r)) (rows_of F i)).
  { intros i Hi. rewrite EF in Hi. apply (proj1 (occurs_block bs _ W)) in Hi. destruct Hi as (b & Hb & <-).
    exists (bstart b). split.
    - unfold times_of. rewrite EF, (rows_of_flatten bs b (wf_nodup _ W) Hb).
      change (map rtime (brows b)) with (time_index (brows b)). rewrite times_brows. reflexivity.
    - unfold Fs. rewrite EF. apply sb_rows; assumption. }
  assert (HRs : forall i, Occurs Fs i -> Regular Fs i d /\ (n <= length (rows_of Fs i))%nat).
  { intros i Hi. apply Hocc in Hi. split.
    - destruct (proj1 (occurs_block bs i W)) as (b & Hb & <-); [rewrite <- EF; exact Hi|].
      apply sb_regular; auto. rewrite <- EF. apply HRr. exact Hi.
    - destruct (HRows i Hi) as (c & _ & ->). rewrite map_length. destruct (HR i Hi) as [_ H]. lia. }
  destruct (iter_spec pred Fs d n VS HSS' Hn HRs) as (gs & E1 & E2).
  rewrite E1. cbn [bind]. unfold concat_groups.
  rewrite (proj2 (tsc_ok _ _) (conj (eq_ind_r (fun x => ValidRows x)
     (all_reconstructed pred Fs d n VS Hn (fun i Hi => proj2 (HRs i Hi))) E2) eq_refl)).
  cbn [bind]. rewrite E2.
  assert (Eids : ids Fs = ids F) by (unfold Fs; rewrite EF; apply sb_ids; exact W).
  assert (Hgr : grouped (keyof Fs d) (ids Fs) = ids F).
  { rewrite Eids. apply grouped_sorted.
    assert (Hss := ids_sorted F). assert (Hin : forall i, In i (ids F) -> Occurs F i) by (intros i; apply in_ids).
    revert Hss Hin. generalize (ids F). intros ll Hss Hin.
    induction Hss as [|i l Hl IH Hf]; [constructor|]. constructor.
    - apply IH. intros j Hj. apply Hin. right; exact Hj.
    - rewrite Forall_forall in *. intros j Hj.
      assert (Oi : Occurs F i) by (apply Hin; left; reflexivity).
      assert (Oj : Occurs F j) by (apply Hin; right; exact Hj).
      specialize (Hasc i j Oi Oj (Hf j Hj)).
      unfold kle, keyof.
      assert (Hd : 0 < d) by (apply (regular_pos F i d HV), HRr, Oi).
      rewrite (time_interval_regular Fs i d VS (proj2 (Hocc i) Oi) (proj2 (proj1 (HRs i (proj2 (Hocc i) Oi))))).
      rewrite (time_interval_regular Fs j d VS (proj2 (Hocc j) Oj) (proj2 (proj1 (HRs j (proj2 (Hocc j) Oj))))).
      destruct (HRows i Oi) as (ci & Ei & EFi). destruct (HRows j Oj) as (cj & Ej & EFj).
      assert (Z0 : forall k ck, Occurs F k -> ck = hd 0 (times_of F k) ->
                 rows_of Fs k = map (fun r => mkRow (rid r) (rtime r - ck) (rval r)) (rows_of F k) ->
                 hd 0 (times_of Fs k) = 0).
      { intros k ck Hk -> E. unfold times_of. rewrite E. unfold times_of. apply rows_of_nonempty in Hk.
        destruct (rows_of F k); [congruence|]. cbn. lia. }
      rewrite (Z0 i ci Oi Ei EFi), (Z0 j cj Oj Ej EFj), EFi, EFj, !map_length. cbn [key_ltb]. nia. }
  rewrite Hgr.
  assert (Hidx : (if (1 <? n)%nat then flat_map (fun i => skipn (n - 1) (index (group F i))) (ids F) else index F)
                 = flat_map (fun i => skipn (n - 1) (index (rows_of F i))) (ids F)).
  { destruct (1 <? n)%nat eqn:E; [reflexivity|]. replace (n - 1)%nat with 0%nat by lia.
    replace (ids F) with (map fst bs) by (rewrite EF; symmetry; apply ids_sorted_blocks; [exact W|rewrite <- EF; exact Hs]).
    rewrite flat_map_map. unfold index at 1. rewrite EF at 1. unfold flatten. rewrite map_flat_map.
    apply flat_map_ext_in. intros b Hb. rewrite skipn_O, EF, (rows_of_flatten bs b (wf_nodup _ W) Hb). reflexivity. }
  rewrite Hidx. unfold set_index.
  assert (Hlen : forall i, In i (ids F) ->
     length (reconstruction pred Fs n i) = length (skipn (n - 1) (index (rows_of F i)))).
  { intros i Hi. apply in_ids in Hi. destruct (HRows i Hi) as (c & _ & E).
    unfold reconstruction, index. rewrite map_length, !skipn_length, E, !map_length. reflexivity. }
  rewrite (flat_map_length_eq _ _ _ Hlen), Nat.eqb_refl. apply tsc_ok.
  match goal with |- ValidRows ?m /\ _ => assert (EM : m = flat_map (reconstruction pred F n) (ids F)) end.
  2:{ rewrite EM. split; [|reflexivity].
      apply reconstruction_valid; [exact HV|exact Hn| |apply sorted_lt_NoDup, ids_sorted|].
      - intros H0. destruct F as [|r F']; [destruct (vr_nonempty _ HV); reflexivity|].
        assert (Hr : In (rid r) (ids (r :: F'))) by (apply in_ids; exists r; split; [left|]; reflexivity).
        rewrite H0 in Hr. destruct Hr.
      - intros i Hi. apply in_ids in Hi. destruct (HR i Hi) as [_ HL]. lia. }
  rewrite combine_flat_map by exact Hlen. rewrite map_flat_map. apply flat_map_ext_in.
  intros i Hi. apply in_ids in Hi. destruct (HRows i Hi) as (c & Ec & E).
  unfold reconstruction. unfold times_of. rewrite E. rewrite map_map. cbn [rtime].
  rewrite firstn_map, !map_map. cbn [rval]. rewrite skipn_map.
  unfold index. rewrite skipn_map. rewrite map_map, combine_maps.
  rewrite map_map. cbn [fst snd rval]. apply map_ext_in. intros r Hr. cbn.
  assert (Er : rid r = i) by (apply (rid_rows_of F i); apply (in_skipn _ _ _ Hr)).
  rewrite Er. f_equal. f_equal.
  rewrite <- (map_map rtime (fun t => t - c)).
  destruct (HR i Hi) as [_ HL].
  rewrite (nth_indep (map (fun t => t - c) (map rtime (rows_of F i))) 0 (0 - c)) by (rewrite !map_length; lia).
  rewrite (map_nth (fun t => t - c)). lia.
Qed.

End Edmd.
