(** * Proofs: expansion, shifts and checks of collections. *)

From Coq Require Import List ZArith Bool Arith Lia Sorted Permutation.
From Coq Require Import ZifyBool ZifyNat.
Import ListNotations.
From Verif Require Import Np NpFacts TscModel TscSpec TscBlocks TscProofs TscDt TscOps TscBuild TscShift TscRegular.
From Verif Require Import PredModel PredSpec PredProofs ReconModel ReconSpec ReconProofs ReconEdmd.
From Verif Require Import CvModel CvWindow AccSpec AccProofs ChkModel ChkSpec ChkProofs BldModel BldSpec BldProofs BldBuild.
Close Scope nat_scope.
Open Scope Z_scope.

Section Bld.
Context {V : Type}.
Notation frame := (list (row V)).
Notation block := (Z * list (Z * V))%type.

(** ** expansion *)

Lemma NoDup_app_intro {A} (a b : list A) : NoDup a -> NoDup b -> (forall x, In x a -> ~ In x b) -> NoDup (a ++ b).
Proof.
  induction a as [|x a IH]; intros Ha Hb H; [exact Hb|]. apply NoDup_cons_iff in Ha. destruct Ha as [Hx Ha].
  cbn. constructor.
  - intros Hi. apply in_app_or in Hi. destruct Hi as [Hi|Hi]; [auto|]. apply (H x); [left; reflexivity|exact Hi].
  - apply IH; [exact Ha|exact Hb|]. intros y Hy. apply H. right; exact Hy.
Qed.

Lemma combine_repeat_l {A B} (l : list A) (c : B) : combine l (repeat c (length l)) = map (fun x => (x, c)) l.
Proof. induction l; cbn; congruence. Qed.

Lemma only_ids (F : frame) i : F <> [] -> OnlySeries F i -> ids F = [i].
Proof.
  intros Hne HO. apply sorted_lt_unique; [apply ids_sorted|repeat constructor|].
  intros j. rewrite in_ids. split.
  - intros (r & Hr & <-). left. symmetry. apply HO, Hr.
  - intros [<-|[]]. destruct F as [|r F]; [congruence|]. exists r. split; [left; reflexivity|].
    apply HO. left; reflexivity.
Qed.

Lemma only_valid_app (F P : frame) i : ValidRows F -> OnlySeries F i -> OnlySeries P i ->
  StronglySorted Z.lt (map rtime (F ++ P)) -> ValidRows (F ++ P).
Proof.
  intros HV HF HP HS.
  assert (HO : forall r, In r (F ++ P) -> rid r = i) by (intros r Hr; apply in_app_or in Hr; destruct Hr; auto).
  assert (Hi : 0 <= i).
  { destruct F as [|r F']; [destruct (vr_nonempty _ HV); reflexivity|].
    rewrite <- (HF r (or_introl eq_refl)). apply (vr_ids _ HV). left; reflexivity. }
  assert (E : F ++ P = series_rows i (map (fun r => (rtime r, rval r)) (F ++ P))).
  { unfold series_rows. rewrite map_map. cbn [fst snd]. rewrite <- (map_id (F ++ P)) at 1.
    apply map_ext_in. intros r Hr. rewrite <- (HO r Hr). destruct r; reflexivity. }
  rewrite E. apply good_series_rows. split; [exact Hi|]. split; [|split].
  - intros H. apply map_eq_nil in H. destruct F; [apply (vr_nonempty _ HV); reflexivity|discriminate].
  - assert (Hf : forall r, In r F -> 0 <= rtime r) by apply (vr_times _ HV).
    intros p Hp. apply in_map_iff in Hp. destruct Hp as (r & <- & Hr). cbn.
    apply in_app_or in Hr. destruct Hr as [Hr|Hr]; [auto|].
    destruct F as [|q F']; [destruct (vr_nonempty _ HV); reflexivity|].
    cbn in HS. apply StronglySorted_inv in HS. destruct HS as [_ Hs]. rewrite Forall_forall in Hs.
    specialize (Hs (rtime r)). rewrite map_app in Hs. specialize (Hf q (or_introl eq_refl)).
    assert (rtime q < rtime r); [|lia]. apply Hs. apply in_or_app. right. apply in_map, Hr.
  - rewrite map_map. exact HS.
Qed.

Lemma sorted_app (l m : list Z) : StronglySorted Z.lt (l ++ m) <->
  StronglySorted Z.lt l /\ StronglySorted Z.lt m /\ forall x y, In x l -> In y m -> x < y.
Proof.
  induction l as [|x l IH]; cbn.
  - split; [intros H; split; [constructor|split; [exact H|intros ? ? []]]|tauto].
  - split.
    + intros H. apply StronglySorted_inv in H. destruct H as [H Hf]. rewrite Forall_forall in Hf.
      apply IH in H. destruct H as (H1 & H2 & H3). split; [|split].
      * constructor; [exact H1|]. apply Forall_forall. intros y Hy. apply Hf, in_or_app. left; exact Hy.
      * exact H2.
      * intros a b [<-|Ha] Hb; [apply Hf, in_or_app; right; exact Hb|auto].
    + intros (H1 & H2 & H3). apply StronglySorted_inv in H1. destruct H1 as [H1 Hf]. constructor.
      * apply IH. split; [exact H1|]. split; [exact H2|]. intros a b Ha Hb. apply H3; [right; exact Ha|exact Hb].
      * rewrite Forall_forall in *. intros y Hy. apply in_app_or in Hy. destruct Hy; [auto|]. apply H3; [left; reflexivity|assumption].
Qed.

Lemma only_times (F : frame) i : ValidRows F -> OnlySeries F i -> StronglySorted Z.lt (map rtime F).
Proof.
  intros HV HO. assert (H := times_of_sorted F i HV). unfold times_of, rows_of in H.
  rewrite (filter_every) in H; [exact H|]. intros r Hr. rewrite (HO r Hr). lia.
Qed.

Lemma expand_single (F : frame) i new (fill : V) G : ValidRows F -> OnlySeries F i ->
  expand_time_values F new fill = Ok G <->
  new <> [] /\ NoDup new /\ (forall r t, In r F -> In t new -> rtime r < t) /\
  ValidRows G /\ exists P, G = F ++ P /\ Permutation P (map (fun t => mkRow i t fill) new).
Proof.
  intros HV HO. assert (Hne := vr_nonempty _ HV). unfold expand_time_values, n_timeseries.
  rewrite (only_ids F i Hne HO). cbn [length Nat.eqb hd].
  assert (ES : series_rows i (combine new (repeat fill (length new))) = map (fun t => mkRow i t fill) new).
  { rewrite combine_repeat_l. unfold series_rows. rewrite map_map. reflexivity. }
  assert (EF : map fst (combine new (repeat fill (length new))) = new).
  { apply map_fst_combine_eq. rewrite repeat_length. reflexivity. }
  assert (HON : forall P, Permutation P (map (fun t => mkRow i t fill) new) -> OnlySeries P i).
  { intros P HP r Hr. apply (Permutation_in r HP) in Hr. apply in_map_iff in Hr. destruct Hr as (t & <- & _). reflexivity. }
  assert (HTN : forall P, Permutation P (map (fun t => mkRow i t fill) new) -> Permutation (map rtime P) new).
  { intros P HP. rewrite (Permutation_map rtime HP), map_map. cbn. rewrite map_id. reflexivity. }
  split.
  - intros H. apply bind_ok in H. destruct H as (P & HP & H). apply tsc_ok in H. destruct H as [HG ->].
    apply from_array_spec in HP. destruct HP as (_ & (_ & H1 & H2 & _) & HP & HS). rewrite ES in HP. rewrite EF in H2.
    split. { intros ->. apply H1. reflexivity. }
    split; [exact H2|]. split; [|split; [exact HG|exists P; auto]].
    intros r t Hr Ht.
    assert (HS' : StronglySorted Z.lt (map rtime (F ++ P))).
    { apply (only_times _ i HG). intros q Hq. apply in_app_or in Hq. destruct Hq; [auto|apply (HON P HP); assumption]. }
    rewrite map_app in HS'. apply sorted_app in HS'. apply HS'; [apply in_map, Hr|].
    apply (Permutation_in t (Permutation_sym (HTN P HP)) Ht).
  - intros (H1 & H2 & H3 & HG & P & -> & HP).
    rewrite (proj2 (from_array_spec (repeat fill (length new)) (Some new) (Some i) P)).
    + cbn [bind]. apply tsc_ok. auto.
    + rewrite ES. split; [rewrite repeat_length; reflexivity|]. split; [|split; [exact HP|]].
      * unfold GoodPairs. rewrite EF. split; [|split; [|split; [exact H2|]]].
        -- destruct F as [|r F']; [congruence|]. rewrite <- (HO r (or_introl eq_refl)).
           apply (vr_ids _ HV). left; reflexivity.
        -- intros E. apply H1. rewrite <- EF, E. reflexivity.
        -- intros t Ht. destruct F as [|r F']; [congruence|].
           specialize (H3 r t (or_introl eq_refl) Ht). assert (X := vr_times _ HV r (or_introl eq_refl)). lia.
      * assert (HS' : StronglySorted Z.lt (map rtime (F ++ P))).
        { apply (only_times _ i HG). intros q Hq. apply in_app_or in Hq. destruct Hq; [auto|apply (HON P HP); assumption]. }
        rewrite map_app in HS'. apply sorted_app in HS'. apply HS'.
Qed.

Lemma expand_single_succeeds (F : frame) i new (fill : V) : ValidRows F -> OnlySeries F i ->
  new <> [] -> NoDup new -> (forall r t, In r F -> In t new -> rtime r < t) ->
  exists G, expand_time_values F new fill = Ok G.
Proof.
  intros HV HO H1 H2 H3.
  set (P := map (fun t => mkRow i t fill) (map fst (sort_times (map (fun t => (t, fill)) new)))).
  assert (HP : Permutation (map fst (sort_times (map (fun t => (t, fill)) new))) new).
  { rewrite (Permutation_map fst (sort_times_perm _)), map_map. cbn. rewrite map_id. reflexivity. }
  exists (F ++ P). apply (expand_single F i new fill (F ++ P) HV HO).
  split; [exact H1|]. split; [exact H2|]. split; [exact H3|]. split.
  - apply (only_valid_app F P i HV HO).
    + intros r Hr. apply in_map_iff in Hr. destruct Hr as (t & <- & _). reflexivity.
    + rewrite map_app. apply sorted_app. split; [apply (only_times F i HV HO)|].
      assert (EP : map rtime P = map fst (sort_times (map (fun t => (t, fill)) new))).
      { unfold P. rewrite map_map. cbn. apply map_id. }
      rewrite EP. split.
      * apply sorted_le_lt; [apply sort_times_sorted|]. apply (Permutation_NoDup (Permutation_sym HP) H2).
      * intros x y Hx Hy. apply in_map_iff in Hx. destruct Hx as (r & <- & Hr).
        apply H3; [exact Hr|apply (Permutation_in y HP Hy)].
  - exists P. split; [reflexivity|]. apply Permutation_map, HP.
Qed.

Lemma expand_other (F : frame) new (fill : V) : ValidRows F -> (forall i, ~ OnlySeries F i) -> ~ SameTimes F ->
  expand_time_values F new fill = Err TSCException.
Proof.
  intros HV HO HT. unfold expand_time_values.
  destruct (n_timeseries F =? 1)%nat eqn:E.
  - destruct (one_series F HV) as (i & Ei & _); [unfold n_timeseries in E; lia|].
    destruct (HO i). intros r Hr. assert (Hi : In (rid r) (ids F)) by (apply in_ids; exists r; auto).
    rewrite Ei in Hi. destruct Hi as [<-|[]]. reflexivity.
  - destruct (is_same_time_values F) eqn:E2; [|reflexivity].
    destruct (HT (proj1 (is_same_time_values_spec F HV) E2)).
Qed.

Lemma expand_many (F : frame) new (fill : V) : ValidRows F -> IdsSorted F -> SameTimes F ->
  (forall i, ~ OnlySeries F i) ->
  NoDup new -> (forall t, In t new -> 0 <= t) -> (forall r, In r F -> ~ In (rtime r) new) ->
  exists G, expand_time_values F new fill = Ok G /\ ValidRows G /\ IdsSorted G /\
    forall r, In r G <-> In r F \/ (Occurs F (rid r) /\ In (rtime r) new /\ rval r = fill).
Proof.
  intros HV HS HT HM HN H0 HD. unfold expand_time_values.
  destruct (n_timeseries F =? 1)%nat eqn:E.
  { destruct (one_series F HV) as (i & Ei & _); [unfold n_timeseries in E; lia|].
    destruct (HM i). intros r Hr. assert (Hi : In (rid r) (ids F)) by (apply in_ids; exists r; auto).
    rewrite Ei in Hi. destruct Hi as [<-|[]]. reflexivity. }
  rewrite (proj2 (is_same_time_values_spec F HV) HT). cbn [negb].
  destruct (same_times_steps F HV HT) as (n & -> & Hn).
  assert (HO := storage_sorted F HV HS).
  rewrite (storage_length F _ HV HO), (same_values_reshape F n (ids F) HO Hn).
  set (tensor := pad (length new) fill (map (fun i => map rval (rows_of F i)) (ids F))).
  assert (HNE : ids F <> []) by (apply ids_nonempty, (vr_nonempty _ HV)).
  assert (Hlen : length tensor = length (ids F)) by (unfold tensor, pad; rewrite !map_length; reflexivity).
  assert (Ht : forall i, Occurs F i -> time_values F = times_of F i) by (intros i; apply times_are; assumption).
  assert (HTL : length (time_values F) = n).
  { destruct (ids F) as [|i l] eqn:Ei; [congruence|].
    assert (Hi : Occurs F i) by (apply in_ids; rewrite Ei; left; reflexivity).
    rewrite (Ht i Hi). unfold times_of. rewrite map_length. apply Hn, Hi. }
  assert (Hn1 : (1 <= n)%nat).
  { destruct (ids F) as [|i l] eqn:Ei; [congruence|].
    assert (Hi : Occurs F i) by (apply in_ids; rewrite Ei; left; reflexivity).
    specialize (Hn i Hi). apply rows_of_nonempty in Hi. destruct (rows_of F i); [congruence|cbn in Hn; lia]. }
  destruct (from_tensor_spec tensor (n + length new) (Some (ids F)) (Some (time_values F ++ new)))
    as (G & EG & HG & HGS & _ & Hin).
  - intros E0. rewrite E0 in Hlen. destruct (ids F); [congruence|discriminate].
  - lia.
  - intros s Hs. unfold tensor, pad in Hs. apply in_map_iff in Hs. destruct Hs as (s0 & <- & Hs).
    apply in_map_iff in Hs. destruct Hs as (i & <- & Hi). apply in_ids in Hi.
    rewrite app_length, repeat_length, map_length, (Hn i Hi). reflexivity.
  - cbn [opt_ids]. congruence.
  - apply sorted_lt_NoDup, ids_sorted.
  - cbn [opt_ids]. intros x Hx. apply in_ids in Hx. destruct Hx as (r & Hr & <-). apply (vr_ids _ HV r Hr).
  - cbn [opt_ids]. rewrite app_length, HTL. reflexivity.
  - cbn [opt_ids]. apply NoDup_app_intro; [apply sorted_lt_NoDup, np_unique_sorted|exact HN|].
    intros t Hx. apply in_time_values in Hx. destruct Hx as (r & Hr & <-). apply HD, Hr.
  - cbn [opt_ids]. intros x Hx. apply in_app_or in Hx. destruct Hx as [Hx|Hx]; [|auto].
    apply in_time_values in Hx. destruct Hx as (r & Hr & <-). apply (vr_times _ HV r Hr).
  - cbn [opt_ids] in Hin. exists G. split; [exact EG|]. split; [exact HG|]. split; [exact HGS|].
    intros r. rewrite Hin. split.
    + intros (a & b & s & Ha & Hs & Hb & Hv).
      unfold tensor, pad in Hs. rewrite !nth_error_map, Ha in Hs. cbn in Hs. injection Hs as <-.
      assert (Hi : Occurs F (rid r)) by (apply in_ids, (nth_error_In _ _ Ha)).
      assert (HL : length (map rval (rows_of F (rid r))) = n) by (rewrite map_length; apply Hn, Hi).
      destruct (le_lt_dec n b) as [Hb'|Hb'].
      * right. rewrite nth_error_app2 in Hb by lia. rewrite nth_error_app2 in Hv by lia.
        split; [exact Hi|]. split; [apply (nth_error_In _ _ Hb)|].
        apply nth_error_In in Hv. apply repeat_spec in Hv. exact Hv.
      * left. rewrite nth_error_app1 in Hb by lia. rewrite nth_error_app1 in Hv by lia.
        rewrite (Ht _ Hi) in Hb. unfold times_of in Hb. rewrite nth_error_map in Hb, Hv.
        destruct (nth_error (rows_of F (rid r)) b) as [q|] eqn:Eq; [|discriminate]. cbn in Hb, Hv.
        apply nth_error_In in Eq. assert (E1 := rid_rows_of F _ q Eq). apply filter_In in Eq.
        replace r with q; [apply Eq|]. destruct r, q; cbn in *; congruence.
    + intros H. assert (Hi : Occurs F (rid r)) by (destruct H as [H|H]; [exists r; auto|apply H]).
      assert (HL : length (map rval (rows_of F (rid r))) = n) by (rewrite map_length; apply Hn, Hi).
      destruct (In_nth_error _ _ (proj2 (in_ids F (rid r)) Hi)) as (a & Ha).
      assert (Hs : nth_error tensor a = Some (map rval (rows_of F (rid r)) ++ repeat fill (length new))).
      { unfold tensor, pad. rewrite !nth_error_map, Ha. reflexivity. }
      destruct H as [H|(_ & Hnew & Hv)].
      * assert (Hr : In r (rows_of F (rid r))) by (apply filter_In; split; [exact H|lia]).
        destruct (In_nth_error _ _ Hr) as (b & Hb).
        assert (Hbn : (b < length (rows_of F (rid r)))%nat) by (apply nth_error_Some; congruence).
        rewrite map_length in HL.
        exists a, b, (map rval (rows_of F (rid r)) ++ repeat fill (length new)).
        split; [exact Ha|]. split; [exact Hs|].
        rewrite !nth_error_app1 by (rewrite ?map_length; lia).
        rewrite (Ht _ Hi). unfold times_of. rewrite !nth_error_map, Hb. auto.
      * destruct (In_nth_error _ _ Hnew) as (b & Hb).
        assert (Hbn : (b < length new)%nat) by (apply nth_error_Some; congruence).
        exists a, (n + b)%nat, (map rval (rows_of F (rid r)) ++ repeat fill (length new)).
        split; [exact Ha|]. split; [exact Hs|].
        rewrite !nth_error_app2 by lia. rewrite HL, HTL.
        replace (n + b - n)%nat with b by lia. split; [exact Hb|].
        rewrite nth_error_repeat by exact Hbn. congruence.
Qed.

(** ** shifts *)

Lemma shift_delta_ok (F : frame) s : ValidRows F -> (forall r, In r F -> 0 <= rtime r + s) ->
  exists G, shift_time_by_delta F s = (G, Ok G) /\ ValidRows G /\ AllMoved F G s.
Proof.
  intros HV H0. unfold shift_time_by_delta. destruct (s =? 0) eqn:E.
  - exists F. split; [reflexivity|]. split; [exact HV|]. replace s with 0 by lia.
    unfold AllMoved. clear. induction F as [|r F IH]; constructor; [|exact IH]. repeat split; lia.
  - set (G := map (fun r => mkRow (rid r) (rtime r + s) (rval r)) F). exists G.
    assert (HG : ValidRows G).
    { destruct (valid_blocks F HV) as (bs & EF & W).
      assert (EG : G = flatten (map (fun b : block => (fst b, map (fun p => (fst p + s, snd p)) (snd b))) bs)).
      { unfold G. rewrite EF. clear. induction bs as [|b bs IH]; [reflexivity|].
        cbn [map]. rewrite !flatten_cons, map_app, IH. f_equal.
        unfold brows, series_rows. cbn [fst snd]. rewrite !map_map. reflexivity. }
      rewrite EG. apply wfb_valid. constructor.
      - destruct bs; [destruct (wf_ne _ W eq_refl)|discriminate].
      - rewrite map_map. apply (wf_nodup _ W).
      - intros c Hc. apply in_map_iff in Hc. destruct Hc as (b & <- & Hb).
        destruct (wf_blocks _ W b Hb) as (H1 & H2 & H3 & H4). cbn [fst snd]. split; [|split; [exact H2|split]].
        + intros E0. apply map_eq_nil in E0. auto.
        + intros p Hp. apply in_map_iff in Hp. destruct Hp as (q & <- & Hq). cbn.
          apply (H0 (mkRow (fst b) (fst q) (snd q))). rewrite EF. apply in_flatten. eauto.
        + rewrite map_map. cbn. rewrite <- (map_map fst (fun t => t + s)). clear -H4.
          induction H4 as [|x l HS IH Hf]; [constructor|]. cbn. constructor; [exact IH|].
          rewrite Forall_forall in *. intros y Hy. apply in_map_iff in Hy. destruct Hy as (z & <- & Hz).
          specialize (Hf z Hz). lia. }
    unfold assign_index. rewrite (proj2 (tsc_ok G G) (conj HG eq_refl)).
    split; [reflexivity|]. split; [exact HG|]. unfold G, AllMoved. clear.
    induction F as [|r F IH]; constructor; [cbn; auto|exact IH].
Qed.

Lemma shift_delta_error (F : frame) s r : ValidRows F -> In r F -> rtime r + s < 0 ->
  shift_time_by_delta F s = (F, Err AttributeError).
Proof.
  intros HV Hr H. unfold shift_time_by_delta.
  assert (X := vr_times _ HV r Hr). replace (s =? 0) with false by lia.
  unfold assign_index. set (G := map _ F).
  destruct (tsc_cases G) as [[HG _]|[_ (e & E)]].
  - assert (Y := vr_times _ HG _ (in_map (fun r => mkRow (rid r) (rtime r + s) (rval r)) _ _ Hr)). cbn in Y. lia.
  - rewrite E. rewrite (tsc_error G e); [reflexivity| |exact E].
    intros E0. apply map_eq_nil in E0. rewrite E0 in Hr. destruct Hr.
Qed.

Definition mv (sh : Z -> Z) (b : block) : block := (fst b, map (fun p => (fst p + sh (fst b), snd p)) (snd b)).

Lemma expanded_blocks (bs : list block) (sh : Z -> Z) : 
  map (fun p => mkRow (rid (fst p)) (rtime (fst p) + snd p) (rval (fst p)))
      (combine (flatten bs) (flat_map (fun b => repeat (sh (fst b)) (length (snd b))) bs))
  = flatten (map (mv sh) bs).
Proof.
  change (flatten bs) with (flat_map (@brows V) bs).
  rewrite combine_flat_map by (intros b _; rewrite repeat_length, brows_length; reflexivity).
  rewrite map_flat_map. change (flatten (map (mv sh) bs)) with (flat_map (@brows V) (map (mv sh) bs)).
  rewrite flat_map_map. apply flat_map_ext_in. intros b Hb.
  rewrite <- (brows_length b), combine_repeat, map_map.
  unfold brows, series_rows, mv. cbn [fst snd]. rewrite !map_map. reflexivity.
Qed.

Lemma mv_wfb (bs : list block) sh : wfb bs ->
  (forall b p, In b bs -> In p (snd b) -> 0 <= fst p + sh (fst b)) -> wfb (map (mv sh) bs).
Proof.
  intros W H0. constructor.
  - destruct bs; [destruct (wf_ne _ W eq_refl)|discriminate].
  - rewrite map_map. apply (wf_nodup _ W).
  - intros c Hc. apply in_map_iff in Hc. destruct Hc as (b & <- & Hb).
    destruct (wf_blocks _ W b Hb) as (H1 & H2 & H3 & H4). unfold mv. cbn [fst snd]. split; [|split; [exact H2|split]].
    + intros E0. apply map_eq_nil in E0. auto.
    + intros p Hp. apply in_map_iff in Hp. destruct Hp as (q & <- & Hq). cbn. apply H0; assumption.
    + rewrite map_map. cbn. rewrite <- (map_map fst (fun t => t + sh (fst b))). clear -H4.
      induction H4 as [|x l HS IH Hf]; [constructor|]. cbn. constructor; [exact IH|].
      rewrite Forall_forall in *. intros y Hy. apply in_map_iff in Hy. destruct Hy as (z & <- & Hz).
      specialize (Hf z Hz). lia.
Qed.

Lemma mv_zero (bs : list block) sh : (forall b, In b bs -> sh (fst b) = 0) -> map (mv sh) bs = bs.
Proof.
  intros H. rewrite <- (map_id bs) at 2. apply map_ext_in. intros b Hb. unfold mv. rewrite (H b Hb).
  destruct b as [i s]. cbn. f_equal. rewrite <- (map_id s) at 2. apply map_ext. intros [t v]. cbn. f_equal. lia.
Qed.

Lemma mv_moved (bs : list block) sh b : wfb bs -> In b bs ->
  Moved (flatten bs) (flatten (map (mv sh) bs)) (fst b) (sh (fst b)).
Proof.
  intros W Hb. unfold Moved. rewrite (rows_of_flatten bs b (wf_nodup _ W) Hb).
  change (fst b) with (fst (mv sh b)) at 1.
  rewrite (rows_of_flatten (map (mv sh) bs) (mv sh b)).
  - unfold brows, series_rows, mv. cbn [fst snd]. rewrite !map_map. reflexivity.
  - rewrite map_map. apply (wf_nodup _ W).
  - apply in_map, Hb.
Qed.

(** The shift values expanded to the rows, if they are in the order of the blocks
    and the numbers of time steps are too. *)
Lemma repeated_blocks (bs : list block) (sh : Z -> Z) : wfb bs ->
  (IdsSorted (flatten bs) \/ SameLength (flatten bs)) ->
  match n_timesteps (flatten bs) with
  | NInt n => np_repeat (map (fun b => sh (fst b)) bs) n
  | NSeries l => np_repeat_each (map (fun b => sh (fst b)) bs) (map snd l)
  end = flat_map (fun b => repeat (sh (fst b)) (length (snd b))) bs.
Proof.
  intros W Hc. assert (HV := wfb_valid bs W). destruct (n_timesteps (flatten bs)) as [n|l] eqn:En.
  - rewrite np_repeat_map. apply flat_map_ext_in. intros b Hb.
    rewrite (proj1 (n_timesteps_blocks bs n W) En b Hb). reflexivity.
  - destruct Hc as [Hs|HL].
    + assert (El : map snd l = map (fun b => length (snd b)) bs).
      { unfold n_timesteps in En. destruct (_ || _); [discriminate|]. injection En as <-.
        rewrite map_snd_combine by (unfold counts, ids; rewrite map_length; reflexivity).
        apply counts_blocks; assumption. }
      rewrite El. unfold np_repeat_each. rewrite combine_maps, flat_map_map. reflexivity.
    + exfalso. assert (HE := proj2 (is_equal_length_spec _ (vr_nonempty _ HV)) HL).
      unfold is_equal_length in HE. rewrite En in HE. cbn [nsteps_values] in HE.
      unfold n_timesteps in En. destruct (_ || _) eqn:E; [discriminate|]. injection En as <-.
      rewrite map_snd_combine in HE by (unfold counts, ids; rewrite map_length; reflexivity).
      rewrite HE, orb_true_r in E. discriminate.
Qed.

Lemma shift_blocks (bs : list block) given (sh : Z -> Z) : wfb bs ->
  (IdsSorted (flatten bs) \/ SameLength (flatten bs)) ->
  shift_values_of (flatten bs) given = Ok (map (fun b => sh (fst b)) bs) ->
  shift_per_series (flatten bs) given =
    if existsb (fun s => negb (s =? 0)) (map (fun b => sh (fst b)) bs)
    then assign_index (flatten bs) (flatten (map (mv sh) bs)) else (flatten bs, Ok (flatten bs)).
Proof.
  intros W Hc HS. unfold shift_per_series. rewrite HS.
  rewrite (repeated_blocks bs sh W Hc), (expanded_blocks bs sh). reflexivity.
Qed.

Lemma shift_blocks_ok (bs : list block) given (sh : Z -> Z) : wfb bs ->
  (IdsSorted (flatten bs) \/ SameLength (flatten bs)) ->
  shift_values_of (flatten bs) given = Ok (map (fun b => sh (fst b)) bs) ->
  (forall b p, In b bs -> In p (snd b) -> 0 <= fst p + sh (fst b)) ->
  let G := flatten (map (mv sh) bs) in
  shift_per_series (flatten bs) given = (G, Ok G) /\ ValidRows G.
Proof.
  intros W Hc HS H0 G. rewrite (shift_blocks bs given sh W Hc HS).
  assert (HG : ValidRows G) by (apply wfb_valid, mv_wfb; assumption).
  split; [|exact HG]. destruct (existsb _ _) eqn:E.
  - unfold assign_index. fold G. rewrite (proj2 (tsc_ok G G) (conj HG eq_refl)). reflexivity.
  - unfold G. rewrite mv_zero; [reflexivity|]. intros b Hb.
    rewrite existsb_false_forall in E. specialize (E (sh (fst b)) (in_map _ _ _ Hb)). lia.
Qed.

Definition of_list (l : list (Z * Z)) (i : Z) : Z :=
  match find (fun p => fst p =? i) l with Some p => snd p | None => 0 end.

Lemma of_list_in l i s : NoDup (map fst l) -> In (i, s) l -> of_list l i = s.
Proof.
  unfold of_list. induction l as [|[j t] l IH]; cbn; intros HN H; [destruct H|].
  apply NoDup_cons_iff in HN. destruct HN as [Hni HN]. destruct H as [H|H].
  - injection H as -> ->. rewrite Z.eqb_refl. reflexivity.
  - destruct (j =? i) eqn:E; [|apply IH; assumption].
    destruct Hni. replace j with i by lia. apply (in_map fst) in H. exact H.
Qed.

Lemma given_shifts (bs : list block) l : wfb bs -> IdsSorted (flatten bs) -> map fst l = ids (flatten bs) ->
  shift_values_of (flatten bs) (Some l) = Ok (map (fun b => of_list l (fst b)) bs).
Proof.
  intros W Hs El. cbn [shift_values_of]. rewrite (proj2 (z_list_eqb_eq _ _) El). f_equal.
  rewrite <- (map_map fst (of_list l) bs).
  rewrite (ids_sorted_blocks bs W Hs) in El. rewrite <- El, map_map.
  apply map_ext_in. intros [i s] Hp. symmetry. apply of_list_in; [|exact Hp]. rewrite El. apply (wf_nodup _ W).
Qed.

Lemma shift_given_ok (F : frame) l : ValidRows F -> IdsSorted F -> map fst l = ids F ->
  (forall r s, In r F -> In (rid r, s) l -> 0 <= rtime r + s) ->
  exists G, shift_per_series F (Some l) = (G, Ok G) /\ ValidRows G /\ StorageOrder G (ids F) /\
    forall i s, In (i, s) l -> Moved F G i s.
Proof.
  intros HV Hs El H0. destruct (valid_blocks F HV) as (bs & -> & W).
  assert (HN : NoDup (map fst l)) by (rewrite El; apply sorted_lt_NoDup, ids_sorted).
  assert (HG := given_shifts bs l W Hs El).
  assert (Eb : ids (flatten bs) = map fst bs) by (apply ids_sorted_blocks; assumption).
  assert (HB : forall b, In b bs -> In (fst b, of_list l (fst b)) l).
  { intros b Hb. assert (Hi : In (fst b) (map fst l)) by (rewrite El, Eb; apply in_map, Hb).
    apply in_map_iff in Hi. destruct Hi as ([i s] & E & Hi). cbn in E. subst i.
    rewrite (of_list_in l (fst b) s HN Hi). exact Hi. }
  assert (Hnn : forall b p, In b bs -> In p (snd b) -> 0 <= fst p + of_list l (fst b)).
  { intros b p Hb Hp. apply (H0 (mkRow (fst b) (fst p) (snd p)) (of_list l (fst b))).
    - apply in_flatten. eauto.
    - apply HB, Hb. }
  destruct (shift_blocks_ok bs (Some l) (of_list l) W (or_introl Hs) HG Hnn) as [HE HVG].
  eexists. split; [exact HE|]. split; [exact HVG|]. split.
  - rewrite Eb. replace (map fst bs) with (map fst (map (mv (of_list l)) bs)) by (rewrite map_map; reflexivity).
    apply storage_blocks, mv_wfb; assumption.
  - intros i s Hi. assert (Hb : In i (map fst bs)) by (rewrite <- Eb, <- El; apply (in_map fst) in Hi; exact Hi).
    apply in_map_iff in Hb. destruct Hb as (b & <- & Hb).
    rewrite <- (of_list_in l (fst b) s HN Hi). apply mv_moved; assumption.
Qed.

Lemma shift_given_error (F : frame) l r s : ValidRows F -> IdsSorted F -> map fst l = ids F ->
  In r F -> In (rid r, s) l -> rtime r + s < 0 ->
  shift_per_series F (Some l) = (F, Err AttributeError).
Proof.
  intros HV Hs El Hr Hi Hneg. destruct (valid_blocks F HV) as (bs & -> & W).
  assert (HN : NoDup (map fst l)) by (rewrite El; apply sorted_lt_NoDup, ids_sorted).
  rewrite (shift_blocks bs (Some l) (of_list l) W (or_introl Hs) (given_shifts bs l W Hs El)).
  assert (X := vr_times _ HV r Hr).
  apply in_flatten in Hr. destruct Hr as (b & p & Hb & Hp & ->). cbn in *.
  assert (Es := of_list_in l (fst b) s HN Hi).
  destruct (existsb _ _) eqn:E.
  - unfold assign_index. set (G := flatten (map (mv (of_list l)) bs)).
    assert (HG : In (mkRow (fst b) (fst p + s) (snd p)) G).
    { apply in_flatten. exists (mv (of_list l) b), (fst p + s, snd p). split; [apply in_map, Hb|].
      split; [|reflexivity]. unfold mv. cbn [snd fst]. rewrite Es. apply in_map_iff. eauto. }
    destruct (tsc_cases G) as [[HVG _]|[_ (e & Ee)]].
    + assert (Y := vr_times _ HVG _ HG). cbn in Y. lia.
    + rewrite Ee, (tsc_error G e); [reflexivity| |exact Ee]. intros E0. rewrite E0 in HG. destruct HG.
  - rewrite existsb_false_forall in E. specialize (E _ (in_map (fun b => of_list l (fst b)) _ _ Hb)). cbn in E. lia.
Qed.

Lemma shift_given_labels (F : frame) l : map fst l <> ids F -> shift_per_series F (Some l) = (F, Err ValueError).
Proof.
  intros H. unfold shift_per_series. cbn [shift_values_of].
  destruct (list_eqb Z.eqb (map fst l) (ids F)) eqn:E; [|reflexivity].
  apply z_list_eqb_eq in E. contradiction.
Qed.

Definition starts (bs : list block) (i : Z) : Z :=
  match find (fun b => fst b =? i) bs with Some b => - bstart b | None => 0 end.

Lemma starts_in (bs : list block) b : NoDup (map fst bs) -> In b bs -> starts bs (fst b) = - bstart b.
Proof.
  unfold starts. induction bs as [|c bs IH]; cbn; intros HN H; [destruct H|].
  apply NoDup_cons_iff in HN. destruct HN as [Hni HN]. destruct H as [->|H].
  - rewrite Z.eqb_refl. reflexivity.
  - destruct (fst c =? fst b) eqn:E; [|apply IH; assumption].
    destruct Hni. replace (fst c) with (fst b) by lia. apply in_map, H.
Qed.

Lemma default_shifts (bs : list block) : wfb bs ->
  shift_values_of (flatten bs) None = Ok (map (fun b => starts bs (fst b)) bs).
Proof.
  intros W. cbn [shift_values_of]. rewrite (initial_one_blocks bs W). cbn [bind].
  rewrite (first_times bs W), map_map. f_equal. apply map_ext_in. intros b Hb.
  symmetry. apply starts_in; [apply (wf_nodup _ W)|exact Hb].
Qed.

Lemma shift_default (F : frame) : ValidRows F -> (IdsSorted F \/ SameLength F) ->
  exists G, shift_per_series F None = (G, Ok G) /\ ValidRows G /\
    forall i, Occurs F i -> exists q, hd_error (rows_of F i) = Some q /\ Moved F G i (- rtime q).
Proof.
  intros HV Hc. destruct (valid_blocks F HV) as (bs & -> & W).
  assert (Hnn : forall b p, In b bs -> In p (snd b) -> 0 <= fst p + starts bs (fst b)).
  { intros b p Hb Hp. rewrite (starts_in bs b (wf_nodup _ W) Hb).
    destruct (wf_blocks _ W b Hb) as (_ & _ & _ & H4).
    assert (bstart b <= fst p) by (apply hd_sorted_le; [exact H4|apply in_map; exact Hp]). lia. }
  destruct (shift_blocks_ok bs None (starts bs) W Hc (default_shifts bs W) Hnn) as [HE HVG].
  eexists. split; [exact HE|]. split; [exact HVG|].
  intros i Hi. apply (proj1 (occurs_block bs i W)) in Hi. destruct Hi as (b & Hb & <-).
  assert (Hne := proj1 (wf_blocks _ W b Hb)).
  rewrite (rows_of_flatten bs b (wf_nodup _ W) Hb).
  destruct b as [i [|p s]]; [destruct (Hne eq_refl)|]. cbn [fst snd] in *.
  exists (mkRow i (fst p) (snd p)). split; [reflexivity|]. cbn [rtime].
  assert (HM := mv_moved bs (starts bs) (i, p :: s) W Hb). cbn [fst] in HM.
  assert (HE' := starts_in bs (i, p :: s) (wf_nodup _ W) Hb). cbn [fst] in HE'. rewrite HE' in HM. exact HM.
Qed.

(** ** checks *)

Lemma z_insert_perm x l : Permutation (z_insert x l) (x :: l).
Proof.
  induction l as [|y l IH]; [reflexivity|]. cbn. destruct (x <=? y); [reflexivity|]. rewrite IH. apply perm_swap.
Qed.

Lemma z_sort_perm l : Permutation (z_sort l) l.
Proof. induction l as [|x l IH]; [reflexivity|]. cbn. rewrite z_insert_perm. constructor. exact IH. Qed.

Lemma z_sort_sorted l : StronglySorted Z.le (z_sort l).
Proof.
  induction l as [|x l IH]; [constructor|]. cbn [z_sort fold_right]. fold (z_sort l).
  induction IH as [|y m HS IH2 Hf]; cbn; [repeat constructor|].
  destruct (x <=? y) eqn:E.
  - constructor; [constructor; assumption|]. constructor; [lia|].
    rewrite Forall_forall in *. intros z Hz. specialize (Hf z Hz). lia.
  - constructor; [exact IH2|]. rewrite Forall_forall in *. intros z Hz.
    apply (Permutation_in z (z_insert_perm x m)) in Hz. destruct Hz as [<-|Hz]; [lia|auto].
Qed.

Lemma required_ids (F : frame) l :
  (check_contain_required_ids F l false = Ok tt <-> NoDup l /\ forall i, In i l <-> Occurs F i) /\
  (forall e, check_contain_required_ids F l false = Err e -> e = TSCException).
Proof.
  unfold check_contain_required_ids.
  destruct (list_eqb Z.eqb (ids F) (z_sort l)) eqn:E; (split; [|congruence]).
  - apply z_list_eqb_eq in E. split; [|reflexivity]. intros _. split.
    + apply (Permutation_NoDup (z_sort_perm l)). rewrite <- E. apply sorted_lt_NoDup, ids_sorted.
    + intros i. rewrite <- in_ids, E. split; intros H.
      * apply (Permutation_in i (Permutation_sym (z_sort_perm l)) H).
      * apply (Permutation_in i (z_sort_perm l) H).
  - split; [discriminate|]. intros [HN Hin]. exfalso.
    assert (X : ids F = z_sort l); [|apply z_list_eqb_eq in X; congruence].
    apply sorted_lt_unique; [apply ids_sorted| |].
    + apply sorted_le_lt; [apply z_sort_sorted|]. apply (Permutation_NoDup (Permutation_sym (z_sort_perm l)) HN).
    + intros i. rewrite in_ids, <- Hin. split; intros H.
      * apply (Permutation_in i (Permutation_sym (z_sort_perm l)) H).
      * apply (Permutation_in i (z_sort_perm l) H).
Qed.

Lemma ids_of_heads (bs : list block) : (forall b, In b bs -> snd b <> []) ->
  ids_index (flatten (map (fun b => (fst b, firstn 1 (snd b))) bs)) = map fst bs.
Proof.
  intros H. induction bs as [|b bs IH]; [reflexivity|]. cbn [map]. rewrite flatten_cons.
  unfold ids_index in *. rewrite map_app, IH by (intros c Hc; apply H; right; exact Hc).
  assert (Hb := H b (or_introl eq_refl)). destruct b as [i [|p s]]; [destruct (Hb eq_refl)|]. reflexivity.
Qed.

Lemma required_order (F : frame) l : ValidRows F ->
  (check_contain_required_ids F l true = Ok tt <-> StorageOrder F l) /\
  (forall e, check_contain_required_ids F l true = Err e -> e = TSCException).
Proof.
  intros HV. destruct (valid_blocks F HV) as (bs & -> & W). unfold check_contain_required_ids.
  rewrite (initial_one_blocks bs W). cbn [bind].
  rewrite ids_of_heads by (intros b Hb; apply (wf_blocks _ W b Hb)).
  destruct (list_eqb Z.eqb (map fst bs) l) eqn:E; (split; [|congruence]).
  - apply z_list_eqb_eq in E. rewrite <- E. split; [intros _|reflexivity]. apply storage_blocks, W.
  - split; [discriminate|]. intros HO. exfalso.
    assert (X := storage_unique _ _ _ (storage_blocks bs W) HO). apply z_list_eqb_eq in X. congruence.
Qed.

Lemma equal_dt_const (X Y : frame) p : ValidRows X -> SmallSteps X -> ValidRows Y -> SmallSteps Y ->
  check_equal_delta_time X Y true = Ok p <->
  exists d, AllRegular X d /\ AllRegular Y d /\ p = (DtScalar (Some d), DtScalar (Some d)).
Proof.
  intros HX SX HY SY. unfold check_equal_delta_time.
  destruct (delta_time_int_total X HX) as (dx & EX). destruct (delta_time_int_total Y HY) as (dy & EY).
  rewrite EX, EY. cbn [bind].
  assert (RX : forall d, dx = DtScalar (Some d) <-> AllRegular X d).
  { intros d. assert (H := delta_time_scalar_some X d HX SX). rewrite EX in H. unfold AllRegular. rewrite <- H. split; congruence. }
  assert (RY : forall d, dy = DtScalar (Some d) <-> AllRegular Y d).
  { intros d. assert (H := delta_time_scalar_some Y d HY SY). rewrite EY in H. unfold AllRegular. rewrite <- H. split; congruence. }
  split.
  - intros H. destruct dx as [[x|]|a], dy as [[y|]|b]; try discriminate.
    destruct (x =? y) eqn:E; [|discriminate]. injection H as <-. replace y with x in * by lia.
    exists x. split; [apply RX; reflexivity|]. split; [apply RY; reflexivity|reflexivity].
  - intros (d & H1 & H2 & ->). apply RX in H1. apply RY in H2. subst. rewrite Z.eqb_refl. reflexivity.
Qed.

Lemma equal_dt_const_error (X Y : frame) e : ValidRows X -> ValidRows Y ->
  check_equal_delta_time X Y true = Err e -> e = TSCException.
Proof.
  intros HX HY. unfold check_equal_delta_time.
  destruct (delta_time_int_total X HX) as (dx & EX). destruct (delta_time_int_total Y HY) as (dy & EY).
  rewrite EX, EY. cbn [bind]. destruct dx as [[x|]|a], dy as [[y|]|b]; try congruence.
  destruct (x =? y); congruence.
Qed.

Lemma dt_pair_eqb_eq a b : dt_pair_eqb a b = true <-> a = b.
Proof.
  destruct a as [i [x|]], b as [j [y|]]; unfold dt_pair_eqb; cbn; split; intros H; try discriminate; try lia.
  - f_equal; [lia|f_equal; lia].
  - injection H as -> ->. lia.
  - f_equal; lia.
  - injection H as ->. lia.
Qed.

Lemma same_table l m (F G : frame) : map fst l = ids F -> map fst m = ids G ->
  (forall i o, In (i, o) l -> forall d : Z, o = Some d <-> Regular F i d) ->
  (forall i o, In (i, o) m -> forall d, o = Some d <-> Regular G i d) ->
  l = m <-> (forall i, Occurs F i <-> Occurs G i) /\ (forall i d, Occurs F i -> (Regular F i d <-> Regular G i d)).
Proof.
  intros El Em Hl Hm. split.
  - intros <-. assert (Hi : forall i, Occurs F i <-> Occurs G i).
    { intros i. rewrite <- !in_ids, <- El, <- Em. reflexivity. }
    split; [exact Hi|]. intros i d Ho. apply in_ids in Ho. rewrite <- El in Ho.
    apply in_map_iff in Ho. destruct Ho as ([j o] & <- & Ho). cbn.
    rewrite <- (Hl j o Ho), <- (Hm j o Ho). reflexivity.
  - intros [Hi Hr]. assert (E : map fst l = map fst m).
    { rewrite El, Em. apply sorted_lt_unique; [apply ids_sorted|apply ids_sorted|].
      intros i. rewrite !in_ids. apply Hi. }
    assert (HF : forall i o, In (i, o) l -> Occurs F i).
    { intros i o H. apply in_ids. rewrite <- El. apply (in_map fst) in H. exact H. }
    clear El Em. revert m E Hm. induction l as [|[i o] l IH]; intros [|[j q] m] E Hm; try discriminate; [reflexivity|].
    cbn in E. injection E as <- E. f_equal.
    + f_equal. assert (A := Hl i o (or_introl eq_refl)). assert (B := Hm i q (or_introl eq_refl)).
      assert (C := Hr i). assert (D := HF i o (or_introl eq_refl)).
      destruct o as [x|], q as [y|]; try reflexivity.
      * symmetry. apply B, C, A; [exact D|reflexivity].
      * symmetry. apply B, C, A; [exact D|reflexivity].
      * apply A, C, B; [exact D|reflexivity].
    + apply IH; [| |exact E|].
      * intros k p H. apply Hl. right; exact H.
      * intros k p H. apply (HF k p). right; exact H.
      * intros k p H. apply Hm. right; exact H.
Qed.

Lemma equal_dt_series (X Y : frame) : ValidRows X -> SmallSteps X -> IdsSorted X -> ValidRows Y -> SmallSteps Y -> IdsSorted Y ->
  (exists i d, Occurs X i /\ Regular X i d) -> ~ (exists d, AllRegular X d) -> 
  (exists i d, Occurs Y i /\ Regular Y i d) -> ~ (exists d, AllRegular Y d) ->
  (exists p, check_equal_delta_time X Y false = Ok p) <->
  (forall i, Occurs X i <-> Occurs Y i) /\ (forall i d, Occurs X i -> (Regular X i d <-> Regular Y i d)).
Proof.
  intros HX SX IX HY SY IY (ix & dx0 & Ox & Rx) NX (iy & dy0 & Oy & Ry) NY. unfold check_equal_delta_time.
  destruct (delta_time_int_total X HX) as (dx & EX). destruct (delta_time_int_total Y HY) as (dy & EY).
  rewrite EX, EY. cbn [bind].
  destruct dx as [[x|]|a].
  { destruct NX. exists x. exact (proj1 (delta_time_scalar_some X x HX SX) EX). }
  { destruct (proj1 (delta_time_scalar_none X HX) EX ix dx0 Ox Rx). }
  destruct dy as [[y|]|b].
  { destruct NY. exists y. exact (proj1 (delta_time_scalar_some Y y HY SY) EY). }
  { destruct (proj1 (delta_time_scalar_none Y HY) EY iy dy0 Oy Ry). }
  destruct (delta_time_series X a HX (or_introl IX) EX) as (Ea & Ha).
  destruct (delta_time_series Y b HY (or_introl IY) EY) as (Eb & Hb).
  rewrite <- (same_table a b X Y Ea Eb Ha Hb).
  rewrite <- (list_eqb_eq dt_pair_eqb dt_pair_eqb_eq).
  destruct (list_eqb dt_pair_eqb a b); split; intros H; try reflexivity; try discriminate; eauto.
  destruct H; discriminate.
Qed.

End Bld.
