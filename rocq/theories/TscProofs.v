(** * Proofs about validation, ids, n_timesteps and time values. *)

From Coq Require Import List ZArith Bool Arith Lia Sorted Permutation.
From Coq Require Import ZifyBool ZifyNat.
Import ListNotations.
From Verif Require Import Np NpFacts TscModel TscSpec TscBlocks.
Open Scope Z_scope.

Section Proofs.
Context {V : Type}.
Notation frame := (list (row V)).

(** ** C01 validation *)

Lemma combine_index (F : frame) : combine (ids_index F) (time_index F) = index F.
Proof. induction F as [|r F IH]; [reflexivity|]. simpl. f_equal. exact IH. Qed.

Lemma cond_not_sorted_spec (F : frame) :
  existsb (fun b => b) (cond_not_sorted (ids_index F) (time_index F)) = false <->
  (forall a b, Next F a b -> rid a = rid b -> rtime a < rtime b).
Proof.
  induction F as [|r [|r' F'] IH].
  - split; [|reflexivity]. intros _ a b (l & q & E). destruct l; discriminate.
  - split; [|reflexivity]. intros _ a b (l & q & E).
    destruct l as [|? l]; [discriminate|]. simpl in E. injection E as _ E. destruct l; discriminate.
  - unfold cond_not_sorted in *. cbn [ids_index time_index map] in *.
    rewrite !np_diff_cons2. cbn [combine map existsb fst snd].
    rewrite orb_false_iff, IH. split.
    + intros [H1 H2] a b (l & q & E) Eid. destruct l as [|x l]; simpl in E.
      * injection E as <- <- _. lia.
      * injection E as _ E. apply H2; [|exact Eid]. exists l, q. exact E.
    + intros H. split.
      * assert (rid r = rid r' -> rtime r < rtime r').
        { apply H. exists [], F'. reflexivity. }
        lia.
      * intros a b (l & q & E) Eid. apply H; [|exact Eid].
        exists (r :: l), q. rewrite E. reflexivity.
Qed.

Lemma valid_no_dup (F : frame) : ValidRows F -> has_dup (index F) = false.
Proof.
  induction F as [|r F IH]; intros HV; [reflexivity|].
  simpl. apply orb_false_iff. split.
  - apply existsb_false_forall. intros p Hp. apply in_map_iff in Hp.
    destruct Hp as (c & <- & Hc). unfold pair_eqb. simpl.
    destruct (rid r =? rid c) eqn:E; [|reflexivity]. simpl.
    assert (rtime r < rtime c); [|lia].
    apply (vr_inc _ HV); [|lia]. apply in_split in Hc. destruct Hc as (m & q & ->).
    exists [], m, q. reflexivity.
  - destruct F as [|r' F']; [reflexivity|].
    apply IH. eapply valid_tail; [discriminate|exact HV].
Qed.

Lemma valid_validate (F : frame) :
  ValidRows F -> validate_index (ids_index F) (time_index F) = Ok tt.
Proof.
  intros HV. unfold validate_index. rewrite combine_index, valid_no_dup by exact HV.
  pose proof (vr_nonempty _ HV) as Hne. pose proof (vr_ids _ HV) as Hi.
  pose proof (vr_times _ HV) as Ht. pose proof (vr_contig _ HV) as Hc. pose proof (vr_inc _ HV) as Hinc.
  replace (existsb (fun i => i <? 0) (ids_index F)) with false.
  2:{ symmetry. apply existsb_false_forall. intros x Hx. apply in_map_iff in Hx.
      destruct Hx as (r & <- & Hr). specialize (Hi r Hr). lia. }
  replace (existsb (fun t => t <? 0) (time_index F)) with false.
  2:{ symmetry. apply existsb_false_forall. intros x Hx. apply in_map_iff in Hx.
      destruct Hx as (r & <- & Hr). specialize (Ht r Hr). lia. }
  assert (W := valid_wfb F HV).
  assert (Est := starts_to_blocks F Hne).
  destruct (ids_index F) as [|i0 il] eqn:Eids.
  { destruct F; [congruence|discriminate]. }
  rewrite <- Eids in *. rewrite Est.
  replace (length (np_unique (map fst (to_blocks F))) =? length (map fst (to_blocks F)))%nat
    with true.
  2:{ symmetry. apply Nat.eqb_eq. apply np_unique_length_NoDup. apply (wf_nodup _ W). }
  cbn [negb].
  replace (existsb (fun b => b) (cond_not_sorted (ids_index F) (time_index F))) with false;
    [reflexivity|].
  symmetry. apply cond_not_sorted_spec. intros a b (l & q & E) Eid.
  apply Hinc; [|exact Eid]. exists l, [], q. exact E.
Qed.

(** A list whose neighbours increase is strongly sorted. *)
Lemma adj_sorted (l : list Z) :
  (forall p a b q, l = p ++ a :: b :: q -> a < b) -> StronglySorted Z.lt l.
Proof.
  intros H. apply Sorted_StronglySorted.
  - intros x y z. apply Z.lt_trans.
  - induction l as [|x [|y r] IH].
    + constructor.
    + repeat constructor.
    + constructor.
      * apply IH. intros p a b q E. apply (H (x :: p) a b q). rewrite E. reflexivity.
      * constructor. apply (H [] x y r). reflexivity.
Qed.

Lemma in_flatten_block (bs : list (Z * list (Z * V))) b :
  In b bs -> exists l r, flatten bs = l ++ @brows V b ++ r.
Proof.
  intros H. apply in_split in H. destruct H as (b1 & b2 & ->).
  exists (flatten b1), (flatten b2). rewrite flatten_app, flatten_cons. reflexivity.
Qed.

Lemma validate_valid (F : frame) :
  validate_index (ids_index F) (time_index F) = Ok tt -> ValidRows F.
Proof.
  unfold validate_index. rewrite combine_index.
  destruct (has_dup (index F)) eqn:Edup; [discriminate|].
  destruct (existsb (fun i => i <? 0) (ids_index F)) eqn:Ei; [discriminate|].
  destruct (existsb (fun t => t <? 0) (time_index F)) eqn:Et; [discriminate|].
  destruct (ids_index F) as [|i0 il] eqn:Eids; [discriminate|].
  rewrite <- Eids in *.
  assert (Hne : F <> []) by (intros ->; discriminate).
  rewrite (starts_to_blocks F Hne).
  destruct (length (np_unique (map fst (to_blocks F))) =? length (map fst (to_blocks F)))%nat
    eqn:Es; cbn [negb]; [|discriminate].
  destruct (existsb (fun b => b) (cond_not_sorted (ids_index F) (time_index F))) eqn:Ec;
    [discriminate|]. intros _.
  apply Nat.eqb_eq in Es. rewrite np_unique_length_NoDup in Es.
  rewrite existsb_false_forall in Ei, Et.
  assert (Hnext := proj1 (cond_not_sorted_spec F) Ec).
  rewrite <- (flatten_to_blocks F). apply wfb_valid. constructor.
  - intros E. destruct F as [|r F']; [congruence|].
    destruct (to_blocks_head r F') as (s & bs & E' & _). congruence.
  - exact Es.
  - intros b Hb.
    assert (Hbne := to_blocks_nonempty F b Hb).
    assert (Hin : forall p, In p (snd b) -> In (mkRow (fst b) (fst p) (snd p)) F).
    { intros p Hp. rewrite <- (flatten_to_blocks F) at 1. apply in_flatten. eauto. }
    repeat split.
    + exact Hbne.
    + destruct (snd b) as [|p s] eqn:E; [congruence|].
      assert (fst b <? 0 = false); [|lia].
      apply Ei. unfold ids_index. apply in_map_iff.
      exists (mkRow (fst b) (fst p) (snd p)). split; [reflexivity|].
      apply Hin. left; reflexivity.
    + intros p Hp. assert (fst p <? 0 = false); [|lia].
      apply Et. unfold time_index. apply in_map_iff.
      exists (mkRow (fst b) (fst p) (snd p)). split; [reflexivity|]. apply Hin. exact Hp.
    + apply adj_sorted. intros p x y q E.
      apply map_eq_app in E. destruct E as (p' & s1 & E1 & Ep & E2).
      destruct s1 as [|x' s1]; [discriminate|]. destruct s1 as [|y' s1]; [discriminate|].
      simpl in E2. injection E2 as <- <- _.
      destruct (in_flatten_block (to_blocks F) b Hb) as (l & r & Efl).
      rewrite flatten_to_blocks in Efl.
      change (rtime (mkRow (fst b) (fst x') (snd x')) < rtime (mkRow (fst b) (fst y') (snd y'))).
      apply Hnext; [|reflexivity].
      exists (l ++ map (fun p => mkRow (fst b) (fst p) (snd p)) p'),
             (map (fun p => mkRow (fst b) (fst p) (snd p)) s1 ++ r).
      rewrite Efl. unfold brows, series_rows. rewrite E1.
      rewrite map_app. simpl. rewrite <- !app_assoc. reflexivity.
Qed.

Lemma tsc_ok (rows F : frame) : tsc rows = Ok F <-> ValidRows rows /\ F = rows.
Proof.
  unfold tsc. split.
  - destruct (validate_index (ids_index rows) (time_index rows)) as [[]|e] eqn:E; [|discriminate].
    intros H. injection H as <-. split; [apply validate_valid; exact E|reflexivity].
  - intros [HV ->]. rewrite valid_validate by exact HV. reflexivity.
Qed.

Lemma tsc_cases (rows : frame) :
  (ValidRows rows /\ tsc rows = Ok rows) \/ (~ ValidRows rows /\ exists e, tsc rows = Err e).
Proof.
  destruct (tsc rows) as [F|e] eqn:E.
  - apply tsc_ok in E. destruct E as [HV ->]. auto.
  - right. split; [|eauto]. intros HV. assert (tsc rows = Ok rows) by (apply tsc_ok; auto). congruence.
Qed.

(** ** C02 ids and n_timesteps *)

Lemma ids_sorted (F : frame) : StronglySorted Z.lt (ids F).
Proof. apply np_unique_sorted. Qed.

Lemma in_ids (F : frame) i : In i (ids F) <-> Occurs F i.
Proof.
  unfold ids, Occurs. rewrite in_np_unique. unfold ids_index. rewrite in_map_iff.
  split; intros (r & H1 & H2); exists r; auto.
Qed.

Lemma ids_nonempty (F : frame) : F <> [] -> ids F <> [].
Proof.
  intros H. destruct F as [|r F]; [congruence|]. intros E.
  assert (In (rid r) (ids (r :: F))).
  { apply in_ids. exists r. split; [left; reflexivity|reflexivity]. }
  rewrite E in *. auto.
Qed.

Lemma counts_spec (F : frame) : counts F = map (fun i => length (rows_of F i)) (ids F).
Proof.
  unfold counts. apply map_ext. intros i. apply np_count_rows.
Qed.

Lemma nat_all_equal_spec l : nat_all_equal l = true <->
  l <> [] /\ forall x, In x l -> x = hd 0%nat l.
Proof.
  destruct l as [|x r]; simpl.
  - split; [discriminate|]. intros [H _]. congruence.
  - rewrite forallb_forall. split.
    + intros H. split; [discriminate|]. intros y [<-|Hy]; [reflexivity|].
      specialize (H _ Hy). lia.
    + intros [_ H] y Hy. specialize (H y (or_intror Hy)). lia.
Qed.

Lemma n_timesteps_int (F : frame) n :
  F <> [] ->
  n_timesteps F = NInt n <-> (forall i, In i (ids F) -> length (rows_of F i) = n).
Proof.
  intros Hne. apply ids_nonempty in Hne.
  unfold n_timesteps, n_timeseries. rewrite counts_spec.
  destruct (ids F) as [|i0 l] eqn:E; [congruence|].
  destruct (nat_all_equal (map (fun i => length (rows_of F i)) (i0 :: l))) eqn:Ea.
  - rewrite orb_true_r. apply nat_all_equal_spec in Ea. destruct Ea as [_ Ea].
    simpl hd in *. split.
    + intros H. injection H as H. intros i Hi. rewrite <- H. apply Ea.
      apply (in_map (fun i => length (rows_of F i))). exact Hi.
    + intros H. f_equal. apply (H i0). left; reflexivity.
  - rewrite orb_false_r. destruct l as [|i1 l].
    + simpl in Ea. discriminate.
    + simpl length. cbn [Nat.eqb]. split; [discriminate|].
      intros H. exfalso.
      assert (nat_all_equal (map (fun i => length (rows_of F i)) (i0 :: i1 :: l)) = true);
        [|congruence].
      apply nat_all_equal_spec. split; [discriminate|].
      intros x Hx. apply in_map_iff in Hx. destruct Hx as (i & <- & Hi).
      simpl hd. rewrite !H; auto. left; reflexivity.
Qed.

Lemma n_timesteps_series (F : frame) l :
  n_timesteps F = NSeries l -> l = map (fun i => (i, length (rows_of F i))) (ids F).
Proof.
  unfold n_timesteps. destruct (_ || _); [discriminate|].
  intros H. injection H as <-. rewrite counts_spec.
  induction (ids F) as [|i r IH]; [reflexivity|]. simpl. f_equal. exact IH.
Qed.

Lemma list_sum_cons x l : list_sum (x :: l) = (x + list_sum l)%nat.
Proof. reflexivity. Qed.

Lemma rows_of_sum (F : frame) (l : list Z) :
  NoDup l -> (forall r, In r F -> In (rid r) l) ->
  list_sum (map (fun i => length (rows_of F i)) l) = length F.
Proof.
  intros Hnd. induction F as [|r F IH]; intros Hin.
  - clear. induction l as [|x r IH]; [reflexivity|]. simpl. exact IH.
  - assert (E : forall l, NoDup l ->
       list_sum (map (fun i => length (rows_of (r :: F) i)) l) =
       ((if existsb (Z.eqb (rid r)) l then 1 else 0)
        + list_sum (map (fun i => length (rows_of F i)) l))%nat).
    { clear. induction l as [|x l IH]; intros Hnd; [reflexivity|].
      inversion Hnd as [|? ? Hx Hnd']; subst.
      cbn [map existsb]. rewrite !list_sum_cons, IH by exact Hnd'.
      unfold rows_of at 1. cbn [filter].
      destruct (rid r =? x) eqn:Ex.
      - assert (existsb (Z.eqb (rid r)) l = false) as ->.
        { apply existsb_false_forall. intros y Hy. destruct (rid r =? y) eqn:Ey; [|reflexivity].
          exfalso. apply Hx. replace x with y by lia. exact Hy. }
        simpl. unfold rows_of. lia.
      - cbn [orb]. unfold rows_of. lia. }
    rewrite E by exact Hnd. rewrite IH by (intros; apply Hin; right; auto).
    assert (existsb (Z.eqb (rid r)) l = true) as ->; [|reflexivity].
    apply existsb_exists. exists (rid r). split; [apply Hin; left; reflexivity|lia].
Qed.

Lemma n_timesteps_total (F : frame) :
  F <> [] ->
  match n_timesteps F with
  | NInt n => (n_timeseries F * n)%nat
  | NSeries l => list_sum (map snd l)
  end = length F.
Proof.
  intros Hne.
  assert (Hs : list_sum (map (fun i => length (rows_of F i)) (ids F)) = length F).
  { apply rows_of_sum.
    - apply sorted_lt_NoDup, ids_sorted.
    - intros r Hr. apply in_ids. exists r. auto. }
  destruct (n_timesteps F) as [n|l] eqn:E.
  - rewrite (n_timesteps_int F n Hne) in E. rewrite <- Hs. unfold n_timeseries.
    clear - E. induction (ids F) as [|i r IH]; [reflexivity|].
    simpl. rewrite E by (left; reflexivity). f_equal. apply IH.
    intros j Hj. apply E. right; exact Hj.
  - apply n_timesteps_series in E. subst l. rewrite map_map. simpl. exact Hs.
Qed.

Lemma min_timesteps_ok (F : frame) k :
  F <> [] ->
  check_required_min_timesteps F k = Ok tt <->
  (forall i, Occurs F i -> (k <= length (rows_of F i))%nat).
Proof.
  intros Hne. unfold check_required_min_timesteps.
  destruct (existsb (fun n => (n <? k)%nat) (nsteps_values (n_timesteps F))) eqn:E.
  - split; [discriminate|]. intros H. exfalso.
    apply existsb_exists in E. destruct E as (n & Hn & Hlt).
    destruct (n_timesteps F) as [m|l] eqn:En; simpl in Hn.
    + destruct Hn as [<-|[]].
      assert (Hi : exists i, In i (ids F)).
      { assert (ids F <> []) by (apply ids_nonempty; exact Hne).
        destruct (ids F) as [|i ?]; [congruence|]. exists i. left; reflexivity. }
      destruct Hi as (i & Hi). rewrite (n_timesteps_int F m Hne) in En.
      specialize (En i Hi). apply in_ids in Hi. specialize (H i Hi). lia.
    + apply n_timesteps_series in En. subst l. rewrite map_map in Hn. simpl in Hn.
      apply in_map_iff in Hn. destruct Hn as (i & <- & Hi). apply in_ids in Hi.
      specialize (H i Hi). lia.
  - split; [|reflexivity]. intros _ i Hi. rewrite existsb_false_forall in E.
    rewrite <- in_ids in Hi.
    destruct (n_timesteps F) as [m|l] eqn:En; simpl in E.
    + rewrite (n_timesteps_int F m Hne) in En. rewrite (En i Hi).
      specialize (E m (or_introl eq_refl)). lia.
    + apply n_timesteps_series in En. subst l.
      specialize (E (length (rows_of F i))). rewrite map_map in E. simpl in E.
      assert (In (length (rows_of F i)) (map (fun x => length (rows_of F x)) (ids F))).
      { apply in_map_iff. eauto. }
      specialize (E H). lia.
Qed.

(** ** C04 same time values *)

Lemma is_equal_length_spec (F : frame) :
  F <> [] ->
  is_equal_length F = true <->
  (forall i j, Occurs F i -> Occurs F j -> length (rows_of F i) = length (rows_of F j)).
Proof.
  intros Hne. unfold is_equal_length. destruct (n_timesteps F) as [n|l] eqn:En.
  - simpl. split; [|reflexivity]. intros _ i j Hi Hj.
    rewrite (n_timesteps_int F n Hne) in En. rewrite <- in_ids in Hi, Hj.
    rewrite !En; auto.
  - simpl. rewrite nat_all_equal_spec.
    pose proof (n_timesteps_series F l En) as El. subst l.
    rewrite map_map. simpl. split.
    + intros [_ H] i j Hi Hj. rewrite <- in_ids in Hi, Hj.
      transitivity (hd 0%nat (map (fun x => length (rows_of F x)) (ids F))).
      * apply H. apply in_map_iff; eauto.
      * symmetry. apply H. apply in_map_iff; eauto.
    + intros H. split.
      * intros E. apply (ids_nonempty F Hne). destruct (ids F); [reflexivity|discriminate].
      * intros x Hx. apply in_map_iff in Hx. destruct Hx as (i & <- & Hi).
        destruct (ids F) as [|i0 r] eqn:Ei; [destruct Hi|]. simpl.
        apply H; apply in_ids; rewrite Ei; [exact Hi|left; reflexivity].
Qed.

Lemma times_of_sorted (F : frame) i :
  ValidRows F -> StronglySorted Z.lt (times_of F i).
Proof.
  intros HV. destruct (valid_blocks F HV) as (bs & -> & W).
  unfold times_of. destruct (in_dec Z.eq_dec i (map fst bs)) as [Hin|Hni].
  - apply in_map_iff in Hin. destruct Hin as (b & <- & Hb).
    rewrite rows_of_flatten; [|apply (wf_nodup _ W)|exact Hb].
    change (map rtime (brows b)) with (time_index (brows b)). rewrite times_brows.
    apply (wf_blocks _ W b Hb).
  - rewrite rows_of_notin by exact Hni. constructor.
Qed.

Lemma in_time_values (F : frame) t :
  In t (time_values F) <-> exists r, In r F /\ rtime r = t.
Proof.
  unfold time_values. rewrite in_np_unique. unfold time_index. rewrite in_map_iff.
  split; intros (r & H1 & H2); exists r; auto.
Qed.

Lemma in_times_of (F : frame) i t :
  In t (times_of F i) <-> exists r, In r F /\ rid r = i /\ rtime r = t.
Proof.
  unfold times_of, rows_of. rewrite in_map_iff. split.
  - intros (r & <- & Hr). apply filter_In in Hr. exists r. intuition lia.
  - intros (r & Hr & Hi & <-). exists r. split; [reflexivity|]. apply filter_In. intuition lia.
Qed.

Lemma is_same_time_values_spec (F : frame) :
  ValidRows F ->
  is_same_time_values F = true <->
  (forall i j, Occurs F i -> Occurs F j -> times_of F i = times_of F j).
Proof.
  intros HV. assert (Hne := vr_nonempty _ HV). unfold is_same_time_values.
  destruct (n_timeseries F =? 1)%nat eqn:E1.
  - split; [|reflexivity]. intros _ i j Hi Hj.
    rewrite <- in_ids in Hi, Hj. apply Nat.eqb_eq in E1. unfold n_timeseries in E1.
    destruct (ids F) as [|x [|? ?]]; simpl in E1; try lia.
    destruct Hi as [->|[]], Hj as [->|[]]. reflexivity.
  - assert (Hincl : forall i, incl (times_of F i) (time_values F)).
    { intros i t Ht. apply in_times_of in Ht. destruct Ht as (r & Hr & _ & <-).
      apply in_time_values. eauto. }
    destruct (n_timesteps F) as [n|l] eqn:En.
    + rewrite (n_timesteps_int F n Hne) in En. split.
      * intros Hn. apply Nat.eqb_eq in Hn.
        assert (Hall : forall i, Occurs F i -> times_of F i = time_values F).
        { intros i Hi. apply sorted_ext.
          - apply times_of_sorted. exact HV.
          - apply np_unique_sorted.
          - intros t. split; [apply Hincl|]. intros Ht.
            apply (NoDup_length_incl (l := times_of F i) (l' := time_values F)); auto.
            + apply sorted_lt_NoDup, times_of_sorted, HV.
            + unfold times_of. rewrite map_length. rewrite <- in_ids in Hi. rewrite (En i Hi). lia. }
        intros i j Hi Hj. rewrite !Hall; auto.
      * intros H. apply Nat.eqb_eq.
        destruct F as [|r0 F0] eqn:EF; [congruence|]. rewrite <- EF in *.
        assert (Hr0 : Occurs F (rid r0)) by (exists r0; subst F; split; [left; reflexivity|reflexivity]).
        assert (Heq : times_of F (rid r0) = time_values F).
        { apply sorted_ext.
          - apply times_of_sorted. exact HV.
          - apply np_unique_sorted.
          - intros t. split; [apply Hincl|]. intros Ht. apply in_time_values in Ht.
            destruct Ht as (r & Hr & <-).
            rewrite (H (rid r0) (rid r)); [|exact Hr0|exists r; auto].
            apply in_times_of. exists r. auto. }
        rewrite <- Heq. unfold times_of. rewrite map_length. symmetry. apply En.
        apply in_ids. exact Hr0.
    + split; [discriminate|]. intros H. exfalso.
      assert (Hc : exists n, n_timesteps F = NInt n).
      { destruct F as [|r0 F0] eqn:EF; [congruence|]. rewrite <- EF in *.
        exists (length (rows_of F (rid r0))). apply n_timesteps_int; [exact Hne|].
        intros i Hi. apply in_ids in Hi.
        assert (Hr0 : Occurs F (rid r0)) by (exists r0; subst F; split; [left; reflexivity|reflexivity]).
        specialize (H i (rid r0) Hi Hr0). unfold times_of in H.
        rewrite <- (map_length rtime (rows_of F i)), H, map_length. reflexivity. }
      destruct Hc as (n & Hc). congruence.
Qed.

End Proofs.
