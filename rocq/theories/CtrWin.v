(** * Proofs: windowed reconstruction with control input. *)

From Coq Require Import List ZArith Bool Arith Lia Sorted Permutation.
From Coq Require Import ZifyBool ZifyNat.
Import ListNotations.
From Verif Require Import Np NpFacts TscModel TscSpec TscBlocks TscProofs TscDt TscOps TscBuild TscShift TscRegular.
From Verif Require Import PredModel PredSpec PredProofs PredControl ReconModel ReconSpec ReconProofs ReconEdmd DerList.
From Verif Require Import CvModel CvWindow AccSpec AccProofs ChkModel ChkSpec ChkProofs BldModel BldSpec BldProofs BldBuild.
From Verif Require Import WinModel WinSpec WinProofs CtrModel CtrSpec CtrProofs.
Close Scope nat_scope.
Open Scope Z_scope.

Section Cut.
Context {W : Type}.
Notation block := (Z * list (Z * W))%type.

Definition heads (m : nat) (bs : list block) : list block := map (fun b => (fst b, firstn m (snd b))) bs.
Definition tails (m : nat) (bs : list block) : list block := map (fun b => (fst b, skipn m (snd b))) bs.

Lemma filter_app_split {A} (p : A -> bool) l1 l2 : (forall x, In x l1 -> p x = false) -> (forall x, In x l2 -> p x = true) ->
  filter p (l1 ++ l2) = l2.
Proof.
  intros H1 H2. rewrite filter_app, (filter_all_true p l2 H2).
  replace (filter p l1) with (@nil A); [reflexivity|]. symmetry.
  induction l1 as [|x l1 IH]; [reflexivity|]. cbn. rewrite (H1 x (or_introl eq_refl)). apply IH.
  intros y Hy. apply H1. right; exact Hy.
Qed.

Lemma filter_flat_map {A B} (p : B -> bool) (f : A -> list B) l :
  filter p (flat_map f l) = flat_map (fun x => filter p (f x)) l.
Proof. induction l as [|x l IH]; [reflexivity|]. cbn. rewrite filter_app, IH. reflexivity. Qed.

Lemma nodup_fst_inj (bs : list block) a b : NoDup (map fst bs) -> In a bs -> In b bs -> fst a = fst b -> a = b.
Proof.
  induction bs as [|c bs IH]; intros Hn Ha Hb E; [destruct Ha|]. cbn in Hn. inversion Hn as [|? ? H1 H2]; subst.
  destruct Ha as [->|Ha], Hb as [->|Hb]; [reflexivity| | |apply IH; assumption].
  - exfalso. apply H1. rewrite E. apply in_map. exact Hb.
  - exfalso. apply H1. rewrite <- E. apply in_map. exact Ha.
Qed.

Lemma drop_heads (bs : list block) m : wfb bs ->
  filter (fun r => negb (existsb (pair_eqb (rid r, rtime r)) (index (flatten (heads m bs))))) (flatten bs)
  = flatten (tails m bs).
Proof.
  intros Wf. unfold flatten at 2 3, tails. rewrite filter_flat_map, flat_map_map. apply flat_map_ext_in.
  intros b Hb. set (p := fun r => negb _).
  assert (E : brows b = brows (fst b, firstn m (snd b)) ++ brows (fst b, skipn m (snd b))).
  { unfold brows, series_rows. cbn [fst snd]. rewrite <- map_app, firstn_skipn. reflexivity. }
  rewrite E. apply filter_app_split; intros r Hr; unfold p.
  - apply negb_false_iff. apply existsb_exists. exists (rid r, rtime r). split; [|apply pair_eqb_eq; reflexivity].
    unfold index, flatten, heads. rewrite flat_map_map. apply (in_map (fun q => (rid q, rtime q))).
    apply in_flat_map. exists b. split; [exact Hb|exact Hr].
  - apply negb_true_iff. destruct (existsb _ _) eqn:Ex; [exfalso|reflexivity].
    apply existsb_exists in Ex. destruct Ex as (q & Hq & Eq). apply pair_eqb_eq in Eq. subst q.
    apply in_map_iff in Hq. destruct Hq as (r2 & E2 & Hr2).
    unfold flatten, heads in Hr2. rewrite flat_map_map in Hr2. apply in_flat_map in Hr2.
    destruct Hr2 as (b2 & Hb2 & Hr2). injection E2 as Ei Et.
    unfold brows, series_rows in Hr, Hr2. cbn [fst snd] in Hr, Hr2.
    apply in_map_iff in Hr. destruct Hr as (p1 & <- & Hp1).
    apply in_map_iff in Hr2. destruct Hr2 as (p2 & <- & Hp2). cbn [rid rtime] in Ei, Et.
    assert (b2 = b).
    { apply (nodup_fst_inj bs); auto. apply (wf_nodup _ Wf). }
    subst b2. destruct (wf_blocks _ Wf b Hb) as (_ & _ & _ & Hs). apply sorted_lt_NoDup in Hs.
    rewrite <- (firstn_skipn m (snd b)), map_app in Hs.
    assert (HD : forall l1 l2 : list Z, NoDup (l1 ++ l2) -> forall x, In x l1 -> In x l2 -> False).
    { clear. induction l1 as [|y l1 IH]; intros l2 Hn x H1 H2; [destruct H1|]. cbn in Hn. inversion Hn as [|? ? Hy Hn2]; subst.
      destruct H1 as [->|H1]; [apply Hy; apply in_or_app; right; exact H2|apply (IH l2 Hn2 x H1 H2)]. }
    apply (HD _ _ Hs (fst p1)); [rewrite <- Et; apply in_map; exact Hp2|apply in_map; exact Hp1].
Qed.

Lemma control_window_good (n w : nat) d (U : list (row W)) : (1 <= n)%nat -> (n < w)%nat -> 0 < d ->
  GoodWindow w d U -> GoodWindow (w - n) d (control_window n w U).
Proof.
  intros Hn Hw Hd [(i & Hi) (s & H0 & E)]. split.
  - exists i. intros r Hr. apply Hi. unfold control_window in Hr. apply in_skipn in Hr. apply in_firstn in Hr. exact Hr.
  - exists (s + Z.of_nat (n - 1) * d). split; [nia|]. unfold control_window.
    rewrite <- skipn_map, <- firstn_map, E, equispaced_firstn by lia. rewrite equispaced_skipn by lia. f_equal. lia.
Qed.

Lemma wblocks_control (us : list (list (row W))) n w :
  wblocks (map (control_window n w) us) = tails (n - 1) (heads (w - 1) (wblocks us)).
Proof.
  rewrite !wblocks_enum. unfold tails, heads. rewrite !map_map. unfold enumerate. rewrite map_length.
  rewrite <- (map_id (seq 0 (length us))) at 1. rewrite combine_map_both, map_map. apply map_ext. intros [k U]. cbn [fst snd].
  f_equal. unfold pairs_window, control_window. rewrite <- skipn_map, <- firstn_map. reflexivity.
Qed.

Lemma cut_control_ok (G : list (row W)) d w o n us : ValidRows G -> (1 <= n)%nat -> Z.of_nat n < w -> 0 < o ->
  check_const_time_delta KInt G = Ok d ->
  us = flat_map (fun i => full_windows (Z.to_nat w) (Z.to_nat o) (rows_of G i)) (ids G) ->
  us <> [] -> (forall U, In U us -> GoodWindow (Z.to_nat w) d U) -> 0 < d ->
  cut_control G w o n = Ok (flatten (wblocks (map (control_window n (Z.to_nat w)) us))).
Proof.
  intros VG Hn Hw Ho Hdt Eus Hne HG Hd. unfold cut_control.
  rewrite (cut_windows_ok G d w o us) by (try assumption; lia). cbn [bind].
  set (wn := Z.to_nat w) in *. assert (Hwn : (n < wn)%nat) by (unfold wn; lia). set (bs := wblocks us).
  assert (Wf : wfb bs) by (apply (wblocks_wfb us wn d Hne HG); lia).
  assert (HRB : RegBlocks bs wn d) by (apply wblocks_reg; exact HG).
  unfold groupby_head. rewrite (head_aux_flatten _ bs) by (try apply (wf_nodup _ Wf); intros b _ []).
  fold (heads (wn - 1) bs).
  assert (W1 : wfb (heads (wn - 1) bs)).
  { apply (reg_wfb _ (wn - 1) d).
    - unfold heads. destruct bs; [exfalso; apply (wf_ne _ Wf); reflexivity|discriminate].
    - unfold heads. rewrite map_map. unfold bs. cbn [fst]. change (map (fun x => fst x) (wblocks us)) with (map fst (wblocks us)).
      rewrite wblocks_fst. apply np_arange_sorted_lt.
    - intros b Hb. apply in_map_iff in Hb. destruct Hb as (c & <- & Hc). apply (wf_blocks _ Wf c Hc).
    - intros b Hb. apply in_map_iff in Hb. destruct Hb as (c & <- & Hc). destruct (HRB c Hc) as (s & H0 & E).
      exists s. split; [exact H0|]. cbn [snd]. rewrite <- firstn_map, E. apply equispaced_firstn. lia.
    - lia.
    - exact Hd. }
  rewrite (proj2 (tsc_ok _ _) (conj (wfb_valid _ W1) eq_refl)). cbn [bind].
  rewrite (proj2 (n_timesteps_blocks (heads (wn - 1) bs) (wn - 1) W1)).
  2:{ intros b Hb. apply in_map_iff in Hb. destruct Hb as (c & <- & Hc). cbn [snd].
      rewrite firstn_length, (reg_len bs wn d c HRB Hc). lia. }
  rewrite Nat.eqb_refl. cbn [negb]. cbv zeta.
  rewrite (head_aux_flatten _ (heads (wn - 1) bs)) by (try apply (wf_nodup _ W1); intros b _ []).
  fold (heads (n - 1) (heads (wn - 1) bs)). rewrite (drop_heads _ _ W1).
  unfold bs. rewrite <- wblocks_control. apply tsc_ok. split; [|reflexivity].
  apply wfb_valid. apply (wblocks_wfb _ (wn - n) d); [destruct us; [congruence|discriminate]| |lia|exact Hd].
  intros U HU. apply in_map_iff in HU. destruct HU as (U0 & <- & HU0). apply control_window_good; auto.
Qed.

End Cut.

Lemma enumerate_combine_l {A B} (ws : list A) (us : list B) : length ws = length us ->
  enumerate ws = map (fun z => (fst z, fst (snd z))) (enumerate (combine ws us)).
Proof.
  intros H. unfold enumerate. rewrite combine_length, <- H, Nat.min_id.
  generalize 0%nat as j. revert us H. induction ws as [|a ws IH]; intros [|u us] H j; cbn in *; try lia; [reflexivity|].
  f_equal. apply IH. lia.
Qed.

Lemma enumerate_combine_r {A B} (ws : list A) (us : list B) : length ws = length us ->
  enumerate us = map (fun z => (fst z, snd (snd z))) (enumerate (combine ws us)).
Proof.
  intros H. unfold enumerate. rewrite combine_length, H, Nat.min_id.
  generalize 0%nat as j. revert ws H. induction us as [|u us IH]; intros [|a ws] H j; cbn in *; try lia; [reflexivity|].
  f_equal. apply IH. lia.
Qed.

Section Windows.
Context {V W S : Type}.
Variable enc : list V -> S.
Variable step : S -> W -> S.
Variable out : S -> V.
Notation frame := (list (row V)).

(** The facts about the windows of a regular collection. *)
Lemma windows_facts {A} (F : list (row A)) d w o ws : ValidRows F -> SmallSteps F -> AllRegular F d -> 0 < w -> 0 < o ->
  Windows F (Z.to_nat w) (Z.to_nat o) ws ->
  ws = flat_map (fun i => full_windows (Z.to_nat w) (Z.to_nat o) (rows_of F i)) (ids F) /\
  0 < d /\ d < 100000000000 /\ check_const_time_delta KInt F = Ok d /\ (forall X, In X ws -> GoodWindow (Z.to_nat w) d X).
Proof.
  intros HV HSS HR Hw Ho HW.
  assert (Ews : ws = flat_map (fun i => full_windows (Z.to_nat w) (Z.to_nat o) (rows_of F i)) (ids F)).
  { destruct HW as (is & Hs & Hin & ->). f_equal. apply sorted_lt_unique; [exact Hs|apply ids_sorted|].
    intros x. rewrite Hin. symmetry. apply in_ids. }
  split; [exact Ews|]. destruct (valid_occurs F HV) as (i0 & Hi0).
  assert (Hd : 0 < d) by (apply (regular_pos F i0 d HV), HR, Hi0). split; [exact Hd|]. split; [|split].
  - destruct (HR i0 Hi0) as [Hl HS]. destruct (valid_blocks F HV) as (bs & EF & Wb).
    assert (Hb := Hi0). rewrite EF in Hb. apply (proj1 (occurs_block bs i0 Wb)) in Hb. destruct Hb as (b & Hb & Eb).
    apply (bdt_small bs b d Wb ltac:(rewrite <- EF; exact HSS) Hb).
    apply (proj2 (exact_regular bs b d Wb Hb)). rewrite <- EF, Eb. apply HR. exact Hi0.
  - apply (const_dt_ok F d HV HSS); exact HR.
  - intros X HX. rewrite Ews in HX. apply in_flat_map in HX. destruct HX as (i & Hi & HX).
    apply in_ids in Hi. apply (windows_good F (Z.to_nat w) (Z.to_nat o) d i X HV Hi (HR i Hi)); [lia|lia|exact HX].
Qed.

(** The blocks of windows with equal times. *)
Lemma equal_windows {A} (ws : list (list (row A))) w d : ws <> [] -> (forall X, In X ws -> GoodWindow w d X) ->
  (1 <= w)%nat -> 0 < d ->
  exists s0, 0 <= s0 /\ map rtime (hd [] ws) = equispaced s0 d w /\
    equalize_times (flatten (wblocks ws)) = Ok (flatten (map (retime (equispaced s0 d w)) (wblocks ws))) /\
    wfb (map (retime (equispaced s0 d w)) (wblocks ws)) /\
    RegBlocks (map (retime (equispaced s0 d w)) (wblocks ws)) w d /\
    map fst (map (retime (equispaced s0 d w)) (wblocks ws)) = np_arange (length ws).
Proof.
  intros Hne HG Hw Hd. set (bs := wblocks ws).
  assert (Wf : wfb bs) by (apply (wblocks_wfb ws w d Hne HG); lia).
  assert (HRB : RegBlocks bs w d) by (apply wblocks_reg; exact HG).
  assert (Hsorted : StronglySorted Z.lt (map fst bs)) by (unfold bs; rewrite wblocks_fst; apply np_arange_sorted_lt).
  assert (HS : IdsSorted (flatten bs)) by (apply flatten_sorted; exact Hsorted).
  destruct ws as [|X ws']; [congruence|].
  destruct (HG X (or_introl eq_refl)) as (_ & s0 & H0 & E0). exists s0. split; [exact H0|]. split; [exact E0|].
  assert (Hb0 : exists rest, bs = (Z.of_nat 0, pairs_window X) :: rest) by (unfold bs, wblocks, np_arange; cbn; eauto).
  destruct Hb0 as (rest & Ebs). split; [|split; [|split]].
  - apply (equalize_blocks bs w d _ rest s0 Ebs Wf HS HRB Hw Hd H0). cbn [snd]. unfold pairs_window. rewrite map_map. exact E0.
  - apply (reg_wfb _ w d); [rewrite Ebs; discriminate|rewrite retime_fst; exact Hsorted| |apply retime_reg; assumption|lia|exact Hd].
    intros b Hb. apply in_map_iff in Hb. destruct Hb as (c & <- & Hc). apply (wf_blocks _ Wf c Hc).
  - apply retime_reg; assumption.
  - rewrite retime_fst. unfold bs. rewrite wblocks_fst. reflexivity.
Qed.

(** The steps of [_window_reconstruct] before the reconstruction. *)
Lemma window_controlled_prefix (F : frame) (G : list (row W)) d n w o ws us :
  ValidRows F -> SmallSteps F -> AllRegular F d -> ValidRows G -> SmallSteps G -> AllRegular G d ->
  (1 <= n)%nat -> Z.of_nat n < w -> 0 < o ->
  (forall i, Occurs F i -> w <= Z.of_nat (length (rows_of F i))) ->
  Windows F (Z.to_nat w) (Z.to_nat o) ws -> Windows G (Z.to_nat w) (Z.to_nat o) us -> us <> [] ->
  let wn := Z.to_nat w in
  let cus := map (control_window n wn) us in
  exists s0 u0, 0 <= s0 /\ 0 <= u0 /\ map rtime (hd [] us) = equispaced u0 d wn /\
  0 < d /\ d < 100000000000 /\ ws <> [] /\
  let bs := map (retime (equispaced s0 d wn)) (wblocks ws) in
  let vs := map (retime (equispaced (u0 + Z.of_nat (n - 1) * d) d (wn - n))) (wblocks cus) in
  wfb bs /\ RegBlocks bs wn d /\ map fst bs = np_arange (length ws) /\
  wfb vs /\ RegBlocks vs (wn - n) d /\ map fst vs = np_arange (length us) /\
  (forall X, In X ws -> GoodWindow wn d X) /\ (forall X, In X cus -> GoodWindow (wn - n) d X) /\
  window_reconstruct_controlled enc step out d F G n w o
  = bind (reconstruct_controlled_core enc step out d (flatten bs) (flatten vs) n) (fun R =>
    bind (set_index R (flat_map (fun b => index (series_rows (fst b) (skipn (n - 1) (snd b)))) (wblocks ws))) (fun R =>
    Ok (R, flatten (wblocks ws), flatten (wblocks cus)))).
Proof.
  intros HV HSS HR VG SG RG Hn Hnw Ho Hlen HW HU Hne wn cus.
  destruct (windows_facts F d w o ws HV HSS HR ltac:(lia) Ho HW) as (Ews & Hd & Hsm & Hdt & HG).
  destruct (windows_facts G d w o us VG SG RG ltac:(lia) Ho HU) as (Eus & _ & _ & HdtG & HGu).
  fold wn in Ews, HG, Eus, HGu. assert (Hwn : (n < wn)%nat) by (unfold wn; lia).
  assert (Hnew : ws <> []).
  { destruct (valid_occurs F HV) as (i0 & Hi0).
    assert (Hin : In (firstn wn (skipn (0 * Z.to_nat o) (rows_of F i0))) ws).
    { rewrite Ews. apply in_flat_map. exists i0. split; [apply in_ids; exact Hi0|].
      apply in_full_windows; [lia|lia|]. exists 0%nat. split; [|reflexivity].
      specialize (Hlen i0 Hi0). unfold wn. lia. }
    intros ->. destruct Hin. }
  assert (HGc : forall X, In X cus -> GoodWindow (wn - n) d X).
  { intros X HX. apply in_map_iff in HX. destruct HX as (U & <- & HU0). apply control_window_good; auto. }
  assert (Hnec : cus <> []) by (unfold cus; destruct us; [congruence|discriminate]).
  destruct (equal_windows ws wn d Hnew HG ltac:(lia) Hd) as (s0 & Hs0 & _ & Eq1 & W1 & R1 & F1).
  destruct (equal_windows cus (wn - n) d Hnec HGc ltac:(lia) Hd) as (v0 & Hv0 & Ev0 & Eq2 & W2 & R2 & F2).
  destruct us as [|U us']; [congruence|].
  destruct (HGu U (or_introl eq_refl)) as (_ & u0 & Hu0 & Eu0).
  assert (EV : v0 = u0 + Z.of_nat (n - 1) * d).
  { unfold cus in Ev0. cbn [hd map] in Ev0. unfold control_window in Ev0.
    rewrite <- skipn_map, <- firstn_map, Eu0, equispaced_firstn, equispaced_skipn in Ev0 by lia.
    replace (wn - 1 - (n - 1))%nat with (wn - n)%nat in Ev0 by lia.
    destruct (wn - n)%nat as [|m] eqn:Em; [lia|]. rewrite !equispaced_S in Ev0. injection Ev0 as E _. lia. }
  exists s0, u0. split; [exact Hs0|]. split; [exact Hu0|]. split; [exact Eu0|]. split; [exact Hd|]. split; [exact Hsm|].
  split; [exact Hnew|]. cbv zeta. rewrite <- EV.
  split; [exact W1|]. split; [exact R1|]. split; [exact F1|]. split; [exact W2|]. split; [exact R2|]. split.
  { rewrite F2. unfold cus. rewrite map_length. reflexivity. }
  split; [exact HG|]. split; [exact HGc|].
  unfold window_reconstruct_controlled. replace (w <=? Z.of_nat n) with false by lia. fold wn.
  rewrite Hdt. cbn [bind]. rewrite (proj2 (min_timesteps_ok F wn (vr_nonempty _ HV))).
  2:{ intros i Hi. specialize (Hlen i Hi). unfold wn. lia. }
  cbn [bind]. rewrite HdtG. cbn [bind]. rewrite Z.eqb_refl. cbn [negb].
  rewrite (cut_windows_ok F d w o ws) by (try assumption; lia). cbn [bind].
  set (bs := wblocks ws) in *.
  assert (Wf : wfb bs) by (apply (wblocks_wfb ws wn d Hnew HG); lia).
  assert (HRB : RegBlocks bs wn d) by (apply wblocks_reg; exact HG).
  rewrite (proj2 (n_timesteps_blocks bs wn Wf)) by (intros b Hb; apply (reg_len bs wn d b HRB Hb)).
  rewrite Nat.eqb_refl. cbn [negb]. rewrite (tail_flatten _ bs (wf_nodup _ Wf)). rewrite Eq1. cbn [bind].
  rewrite (cut_control_ok G d w o n (U :: us')) by (try assumption; lia). cbn [bind]. fold wn. fold cus.
  rewrite Eq2. cbn [bind].
  replace (index (flatten (map (fun b => (fst b, skipn (length (snd b) - (wn - n + 1)) (snd b))) bs)))
    with (flat_map (fun b => index (series_rows (fst b) (skipn (n - 1) (snd b)))) bs); [reflexivity|].
  unfold flatten, index. rewrite flat_map_map, map_flat_map. apply flat_map_ext_in. intros b Hb.
  rewrite (reg_len bs wn d b HRB Hb). replace (wn - (wn - n + 1))%nat with (n - 1)%nat by lia. reflexivity.
Qed.

Lemma window_controlled_ok (F : frame) (G : list (row W)) d n w o ws us :
  ValidRows F -> SmallSteps F -> AllRegular F d -> ValidRows G -> SmallSteps G -> AllRegular G d ->
  (1 <= n)%nat -> Z.of_nat n < w -> 0 < o ->
  (forall i, Occurs F i -> w <= Z.of_nat (length (rows_of F i))) ->
  Windows F (Z.to_nat w) (Z.to_nat o) ws -> Windows G (Z.to_nat w) (Z.to_nat o) us ->
  length ws = length us -> hd 0 (map rtime (hd [] us)) = 0 ->
  window_reconstruct_controlled enc step out d F G n w o
  = Ok (flat_map (controlled_window enc step out n (Z.to_nat w)) (enumerate (combine ws us)),
        flat_map (fun p => labelled (fst p) (snd p)) (enumerate ws),
        flat_map (fun p => labelled (fst p) (control_window n (Z.to_nat w) (snd p))) (enumerate us)).
Proof.
  intros HV HSS HR VG SG RG Hn Hnw Ho Hlen HW HU HL H0.
  assert (Hne : us <> []).
  { destruct (windows_facts F d w o ws HV HSS HR ltac:(lia) Ho HW) as (Ews & _).
    destruct (valid_occurs F HV) as (i0 & Hi0).
    assert (Hin : In (firstn (Z.to_nat w) (skipn (0 * Z.to_nat o) (rows_of F i0))) ws).
    { rewrite Ews. apply in_flat_map. exists i0. split; [apply in_ids; exact Hi0|].
      apply in_full_windows; [lia|lia|]. exists 0%nat. split; [|reflexivity]. specialize (Hlen i0 Hi0). lia. }
    destruct us; [|discriminate]. destruct ws; [destruct Hin|discriminate]. }
  destruct (window_controlled_prefix F G d n w o ws us HV HSS HR VG SG RG Hn Hnw Ho Hlen HW HU Hne)
    as (s0 & u0 & Hs0 & Hu0 & Eu0 & Hd & Hsm & Hnew & HX). cbv zeta in HX.
  destruct HX as (W1 & R1 & F1 & W2 & R2 & F2 & HG & HGc & ->).
  set (wn := Z.to_nat w) in *. assert (Hwn : (n < wn)%nat) by (unfold wn; lia).
  assert (u0 = 0).
  { rewrite Eu0 in H0. destruct wn as [|m]; [lia|]. rewrite equispaced_S in H0. exact H0. }
  subst u0. set (r := 0 + Z.of_nat (n - 1) * d) in *.
  set (zs := enumerate (combine ws us)).
  set (t := equispaced s0 d wn) in *. set (v := equispaced r d (wn - n)) in *.
  set (bz := fun z : nat * (frame * list (row W)) => (Z.of_nat (fst z), pairs_window (fst (snd z)))).
  set (vz := fun z : nat * (frame * list (row W)) => (Z.of_nat (fst z), pairs_window (control_window n wn (snd (snd z))))).
  assert (Ebz : wblocks ws = map bz zs).
  { rewrite wblocks_enum, (enumerate_combine_l ws us HL), map_map. reflexivity. }
  assert (Evz : wblocks (map (control_window n wn) us) = map vz zs).
  { rewrite wblocks_enum. unfold enumerate. rewrite map_length. rewrite <- (map_id (seq 0 (length us))), combine_map_both.
    change (combine (seq 0 (length us)) us) with (enumerate us). rewrite (enumerate_combine_r ws us HL), !map_map. reflexivity. }
  assert (Hsr : StronglySorted Z.lt (map fst (map (retime t) (wblocks ws)))) by (rewrite F1; apply np_arange_sorted_lt).
  assert (Hsv : StronglySorted Z.lt (map fst (map (retime v) (wblocks (map (control_window n wn) us))))) by (rewrite F2; apply np_arange_sorted_lt).
  assert (SV : IdsSorted (flatten (map (retime v) (wblocks (map (control_window n wn) us))))) by (apply flatten_sorted; exact Hsv).
  rewrite (core_ok enc step out (map (retime t) (wblocks ws)) wn d n); auto.
  2:{ apply (reg_small _ wn d W1 R1 ltac:(lia) Hsm). }
  2:{ apply wfb_valid. exact W2. }
  2:{ rewrite ids_sorted_blocks by assumption. rewrite F1, F2, HL. reflexivity. }
  2:{ intros i Hi. apply (proj1 (occurs_block _ i W2)) in Hi. destruct Hi as (b & Hb & <-).
      unfold times_of. rewrite (rows_of_flatten _ b (wf_nodup _ W2) Hb).
      change (map rtime (brows b)) with (time_index (brows b)). rewrite times_brows.
      apply in_map_iff in Hb. destruct Hb as (c & <- & Hc). cbn [retime snd].
      rewrite map_combine_fst; [unfold v, r; f_equal; lia|].
      unfold v. rewrite equispaced_length, map_length. symmetry.
      apply (reg_len _ _ d c (wblocks_reg _ _ d HGc) Hc). }
  cbn [bind].
  rewrite (ids_sorted_blocks _ W1) by (apply flatten_sorted; exact Hsr). rewrite retime_fst.
  rewrite Ebz, Evz, !flat_map_map.
  (* lengths of the windows *)
  assert (Hz : forall z, In z zs -> In (fst (snd z)) ws /\ In (snd (snd z)) us).
  { intros [k [X U]] Hk. unfold zs, enumerate in Hk. apply in_combine_r in Hk. cbn. split; [apply in_combine_l in Hk|apply in_combine_r in Hk]; exact Hk. }
  assert (HLX : forall z, In z zs -> length (fst (snd z)) = wn).
  { intros z Hk. destruct (HG _ (proj1 (Hz z Hk))) as (_ & s & _ & E). apply (f_equal (@length Z)) in E.
    rewrite map_length, equispaced_length in E. exact E. }
  assert (HLU : forall z, In z zs -> length (control_window n wn (snd (snd z))) = (wn - n)%nat).
  { intros z Hk. destruct (HGc (control_window n wn (snd (snd z)))) as (_ & s & _ & E).
    - apply in_map. apply Hz. exact Hk.
    - apply (f_equal (@length Z)) in E. rewrite map_length, equispaced_length in E. exact E. }
  assert (ERX : forall z, In z zs -> rows_of (flatten (map (retime t) (map bz zs))) (fst (bz z)) = brows (retime t (bz z))).
  { intros z Hk. change (fst (bz z)) with (fst (retime t (bz z))). apply rows_of_flatten.
    - rewrite <- Ebz. apply (wf_nodup _ W1).
    - apply in_map, in_map. exact Hk. }
  assert (ERU : forall z, In z zs -> rows_of (flatten (map (retime v) (map vz zs))) (fst (bz z)) = brows (retime v (vz z))).
  { intros z Hk. change (fst (bz z)) with (fst (retime v (vz z))). apply rows_of_flatten.
    - rewrite <- Evz. apply (wf_nodup _ W2).
    - apply in_map, in_map. exact Hk. }
  assert (HVX : forall z, In z zs -> map rval (brows (retime t (bz z))) = map rval (fst (snd z))).
  { intros z Hk. change (map rval (brows (retime t (bz z)))) with (to_numpy (brows (retime t (bz z)))). rewrite vals_brows.
    cbn [retime bz snd]. rewrite map_combine_snd.
    - unfold pairs_window. rewrite map_map. reflexivity.
    - unfold t, pairs_window. rewrite equispaced_length, !map_length. symmetry. apply HLX. exact Hk. }
  assert (HVU : forall z, In z zs -> map rval (brows (retime v (vz z))) = map rval (control_window n wn (snd (snd z)))).
  { intros z Hk. change (map rval (brows (retime v (vz z)))) with (to_numpy (brows (retime v (vz z)))). rewrite vals_brows.
    cbn [retime vz snd]. rewrite map_combine_snd.
    - unfold pairs_window. rewrite map_map. reflexivity.
    - unfold v, pairs_window. rewrite equispaced_length, !map_length. symmetry. apply HLU. exact Hk. }
  assert (HTX : forall z, In z zs -> map rtime (brows (retime t (bz z))) = t).
  { intros z Hk. change (map rtime (brows (retime t (bz z)))) with (time_index (brows (retime t (bz z)))). rewrite times_brows.
    cbn [retime bz snd]. apply map_combine_fst. unfold t, pairs_window. rewrite equispaced_length, !map_length. symmetry. apply HLX. exact Hk. }
  rewrite (set_index_blocks _ _ zs (controlled_window enc step out n wn)).
  - assert (EV : flat_map (controlled_window enc step out n wn) zs
        = flatten (map (fun b : Z * list (Z * V) => series_block step out (fst b) (skipn (n - 1) (map fst (snd b)))
              (enc (map snd (firstn n (snd b)))) (map rval (rows_of (flatten (map (retime v) (map vz zs))) (fst b)))) (map bz zs))).
    { unfold flatten at 1. rewrite !flat_map_map. apply flat_map_ext_in. intros z Hk.
      rewrite (ERU z Hk), (HVU z Hk). unfold controlled_window, controlled_series. rewrite series_block_rows.
      f_equal. cbn [bz fst snd]. unfold pairs_window. rewrite <- !firstn_map, !map_map. reflexivity. }
    rewrite EV.
    match goal with |- context [tsc (flatten ?m)] => assert (WV : wfb m) end.
    { apply series_blocks_wfb.
      - rewrite <- Ebz. apply (wblocks_wfb ws wn d Hnew HG); lia.
      - intros b Hb. apply in_map_iff in Hb. destruct Hb as (z & <- & Hk).
        rewrite (ERU z Hk), (HVU z Hk). cbn [bz snd]. unfold pairs_window. rewrite map_map. cbn [fst].
        change (map (fun x => rtime x) (fst (snd z))) with (map rtime (fst (snd z))).
        destruct (HG _ (proj1 (Hz z Hk))) as (_ & s & Hs & E). rewrite E, equispaced_skipn by lia.
        rewrite map_length, (HLU z Hk), equispaced_length.
        replace (wn - (n - 1))%nat with (Datatypes.S (wn - n)) by lia.
        split; [rewrite equispaced_S; discriminate|]. split; [apply equispaced_sorted; exact Hd|]. split; [|reflexivity].
        intros x Hx. apply equispaced_in in Hx; [|exact Hd]. nia. }
    rewrite (proj2 (tsc_ok _ _) (conj (wfb_valid _ WV) eq_refl)). cbn [bind]. rewrite <- EV.
    f_equal. f_equal; [f_equal|].
    + rewrite <- Ebz. apply wblocks_labelled.
    + rewrite <- Evz, wblocks_labelled. unfold enumerate. rewrite map_length.
      rewrite <- (map_id (seq 0 (length us))) at 1. rewrite combine_map_both, flat_map_map. reflexivity.
  - intros z Hk. unfold controlled_reconstruction, controlled_series, times_of.
    rewrite (ERX z Hk), (ERU z Hk), (HVU z Hk), (HTX z Hk). rewrite map_length, combine_length, states_length, map_length, (HLU z Hk), skipn_length.
    unfold t. rewrite equispaced_length. unfold index, series_rows. rewrite !map_length, skipn_length. cbn [bz snd]. unfold pairs_window.
    rewrite map_length, (HLX z Hk). lia.
  - intros z Hk. unfold controlled_reconstruction, controlled_series, times_of, controlled_window, controlled_series.
    rewrite (ERX z Hk), (ERU z Hk), (HVU z Hk), (HTX z Hk).
    rewrite <- !firstn_map, (HVX z Hk). set (st := states _ _ _).
    assert (HST : length st = (wn - (n - 1))%nat).
    { unfold st. rewrite states_length, map_length, (HLU z Hk). lia. }
    assert (HT1 : length (skipn (n - 1) t) = (wn - (n - 1))%nat) by (rewrite skipn_length; unfold t; rewrite equispaced_length; lia).
    assert (HT2 : length (skipn (n - 1) (map rtime (fst (snd z)))) = (wn - (n - 1))%nat)
      by (rewrite skipn_length, map_length, (HLX z Hk); lia).
    assert (EIx : index (series_rows (fst (bz z)) (skipn (n - 1) (snd (bz z))))
                  = map (pair (Z.of_nat (fst z))) (skipn (n - 1) (map rtime (fst (snd z))))).
    { unfold index, series_rows. cbn [bz fst snd]. unfold pairs_window. rewrite !skipn_map, !map_map. reflexivity. }
    rewrite EIx. cbn [bz fst]. set (T := skipn (n - 1) t) in *. set (T2 := skipn (n - 1) (map rtime (fst (snd z)))) in *.
    clearbody st T T2. clear -HST HT1 HT2. revert st T T2 HST HT1 HT2. generalize (wn - (n - 1))%nat as m.
    induction m as [|m IH]; intros [|s st] [|a T] [|b T2] H1 H2 H3; cbn in *; try lia; [reflexivity|].
    f_equal. apply IH; lia.
Qed.

Lemma window_controlled_err (F : frame) (G : list (row W)) d n w o ws us :
  ValidRows F -> SmallSteps F -> AllRegular F d -> ValidRows G -> SmallSteps G -> AllRegular G d ->
  (1 <= n)%nat -> Z.of_nat n < w -> 0 < o ->
  (forall i, Occurs F i -> w <= Z.of_nat (length (rows_of F i))) ->
  Windows F (Z.to_nat w) (Z.to_nat o) ws -> Windows G (Z.to_nat w) (Z.to_nat o) us -> us <> [] ->
  length ws <> length us \/ hd 0 (map rtime (hd [] us)) <> 0 ->
  window_reconstruct_controlled enc step out d F G n w o = Err TSCException.
Proof.
  intros HV HSS HR VG SG RG Hn Hnw Ho Hlen HW HU Hne HE.
  destruct (window_controlled_prefix F G d n w o ws us HV HSS HR VG SG RG Hn Hnw Ho Hlen HW HU Hne)
    as (s0 & u0 & Hs0 & Hu0 & Eu0 & Hd & Hsm & Hnew & HX). cbv zeta in HX.
  destruct HX as (W1 & R1 & F1 & W2 & R2 & F2 & HG & HGc & ->).
  set (wn := Z.to_nat w) in *. assert (Hwn : (n < wn)%nat) by (unfold wn; lia).
  set (bs := map (retime (equispaced s0 d wn)) (wblocks ws)) in *.
  set (vs := map (retime _) (wblocks (map (control_window n wn) us))) in *.
  assert (SB : StronglySorted Z.lt (map fst bs)) by (rewrite F1; apply np_arange_sorted_lt).
  assert (SV : StronglySorted Z.lt (map fst vs)) by (rewrite F2; apply np_arange_sorted_lt).
  rewrite (core_err enc step out bs d n (flatten vs)); [reflexivity|exact W1|exact SB| | |exact Hn| | |].
  - apply (reg_small _ wn d W1 R1 ltac:(lia) Hsm).
  - apply (reg_regular bs wn d W1 R1). lia.
  - intros b Hb. rewrite (reg_len bs wn d b R1 Hb). lia.
  - apply wfb_valid. exact W2.
  - destruct HE as [HE|HE].
    + right. intros L E. rewrite (ids_sorted_blocks vs W2) in E by (apply flatten_sorted; exact SV). rewrite F2 in E.
      destruct (Nat.eq_dec wn L) as [<-|HLn].
      * rewrite filter_all_true in E.
        2:{ intros b Hb. rewrite (reg_len bs wn d b R1 Hb). apply Nat.eqb_refl. }
        rewrite F1 in E. apply (f_equal (@length Z)) in E. rewrite !np_arange_len in E. congruence.
      * assert (EN : filter (fun b : Z * list (Z * V) => (length (snd b) =? L)%nat) bs = []).
        { assert (HA : forall b, In b bs -> (length (snd b) =? L)%nat = false).
          { intros b Hb. rewrite (reg_len bs wn d b R1 Hb). apply Nat.eqb_neq. exact HLn. }
          clear -HA. induction bs as [|b l IH]; [reflexivity|]. cbn. rewrite (HA b (or_introl eq_refl)).
          apply IH. intros c Hc. apply HA. right; exact Hc. }
        rewrite EN in E. cbn in E. apply (f_equal (@length Z)) in E. rewrite np_arange_len in E. cbn in E.
        destruct us; [congruence|discriminate].
    + left. destruct us as [|U us']; [congruence|]. exists 0.
      assert (Hb : exists rest, vs = retime (equispaced (u0 + Z.of_nat (n - 1) * d) d (wn - n)) (Z.of_nat 0, pairs_window (control_window n wn U)) :: rest)
        by (unfold vs, wblocks, np_arange; cbn; eauto).
      destruct Hb as (rest & Evs).
      assert (Hin : In (retime (equispaced (u0 + Z.of_nat (n - 1) * d) d (wn - n)) (Z.of_nat 0, pairs_window (control_window n wn U))) vs)
        by (rewrite Evs; left; reflexivity).
      split; [apply (occurs_block vs 0 W2); eexists; split; [exact Hin|reflexivity]|].
      unfold times_of. change 0 with (fst (retime (equispaced (u0 + Z.of_nat (n - 1) * d) d (wn - n)) (Z.of_nat 0, pairs_window (control_window n wn U)))) at 2.
      rewrite (rows_of_flatten vs _ (wf_nodup _ W2) Hin).
      match goal with |- hd 0 (map rtime (brows ?b)) <> _ => change (map rtime (brows b)) with (time_index (brows b)) end.
      rewrite times_brows. cbn [retime snd]. rewrite map_combine_fst.
      * destruct (wn - n)%nat as [|m] eqn:Em; [lia|]. rewrite equispaced_S. cbn [hd].
        cbn [hd] in HE, Eu0. rewrite Eu0 in HE. destruct wn as [|w']; [lia|]. rewrite equispaced_S in HE. cbn [hd] in HE. lia.
      * rewrite equispaced_length. unfold pairs_window. rewrite !map_length.
        destruct (HGc (control_window n wn U)) as (_ & s & _ & E); [left; reflexivity|].
        apply (f_equal (@length Z)) in E. rewrite map_length, equispaced_length in E. symmetry. exact E.
Qed.

End Windows.

(** ** the number of windows *)

Lemma filter_length_le {A} (p q : A -> bool) l : (forall x, In x l -> p x = true -> q x = true) ->
  (length (filter p l) <= length (filter q l))%nat.
Proof.
  induction l as [|x l IH]; intros H; [cbn; lia|]. cbn.
  assert (IH' := IH (fun y Hy => H y (or_intror Hy))). specialize (H x (or_introl eq_refl)).
  destruct (p x); [rewrite (H eq_refl); cbn; lia|]. destruct (q x); cbn; lia.
Qed.

Lemma filter_length_lt {A} (p q : A -> bool) l x : (forall y, In y l -> p y = true -> q y = true) ->
  In x l -> p x = false -> q x = true -> (length (filter p l) < length (filter q l))%nat.
Proof.
  induction l as [|y l IH]; intros H Hx Hp Hq; [destruct Hx|]. cbn.
  assert (HL := filter_length_le p q l (fun z Hz => H z (or_intror Hz))).
  destruct Hx as [->|Hx].
  - rewrite Hp, Hq. cbn. lia.
  - specialize (IH (fun z Hz => H z (or_intror Hz)) Hx Hp Hq). specialize (H y (or_introl eq_refl)).
    destruct (p y); [rewrite (H eq_refl); cbn; lia|]. destruct (q y); cbn; lia.
Qed.

Lemma windows_count {A B} w o (l : list A) (m : list B) : length l = length m ->
  length (full_windows w o l) = length (full_windows w o m).
Proof. intros H. unfold full_windows. rewrite !map_length, H. reflexivity. Qed.

Lemma windows_count_less {A B} w o (l : list A) (m : list B) : (2 <= w)%nat -> (1 <= o)%nat ->
  length l = Datatypes.S (length m) ->
  (length (full_windows w o m) <= length (full_windows w o l))%nat /\
  ((exists j, j * o + w = length l)%nat -> (length (full_windows w o m) < length (full_windows w o l))%nat).
Proof.
  intros Hw Ho H. unfold full_windows. rewrite !map_length, H. rewrite seq_S, filter_app, app_length. split.
  - assert (HH := filter_length_le (fun j => (j * o + w <=? length m)%nat) (fun j => (j * o + w <=? Datatypes.S (length m))%nat)
      (seq 0 (length m))). specialize (HH ltac:(cbv beta; intros x _ Hx; apply Nat.leb_le; apply Nat.leb_le in Hx; lia)). lia.
  - intros (j & Hj).
    assert (HH := filter_length_lt (fun j => (j * o + w <=? length m)%nat) (fun j => (j * o + w <=? Datatypes.S (length m))%nat)
      (seq 0 (length m)) j). specialize (HH ltac:(cbv beta; intros x _ Hx; apply Nat.leb_le; apply Nat.leb_le in Hx; lia)).
    assert (Hjm : (j < length m)%nat) by nia.
    assert (HI : In j (seq 0 (length m))) by (apply in_seq; lia). specialize (HH HI). cbv beta in HH.
    replace (j * o + w <=? length m)%nat with false in HH by lia.
    replace (j * o + w <=? Datatypes.S (length m))%nat with true in HH by lia. specialize (HH eq_refl eq_refl). lia.
Qed.

Lemma flat_map_le {A B C} (f : A -> list B) (g : A -> list C) l : (forall x, In x l -> (length (f x) <= length (g x))%nat) ->
  (length (flat_map f l) <= length (flat_map g l))%nat.
Proof.
  induction l as [|x l IH]; intros H; [cbn; lia|]. cbn. rewrite !app_length.
  specialize (IH (fun y Hy => H y (or_intror Hy))). specialize (H x (or_introl eq_refl)). lia.
Qed.

Lemma flat_map_lt {A B C} (f : A -> list B) (g : A -> list C) l x : (forall y, In y l -> (length (f y) <= length (g y))%nat) ->
  In x l -> (length (f x) < length (g x))%nat -> (length (flat_map f l) < length (flat_map g l))%nat.
Proof.
  induction l as [|y l IH]; intros H Hx HL; [destruct Hx|]. cbn. rewrite !app_length.
  assert (H1 := flat_map_le f g l (fun z Hz => H z (or_intror Hz))).
  destruct Hx as [->|Hx]; [lia|]. specialize (IH (fun z Hz => H z (or_intror Hz)) Hx HL).
  specialize (H y (or_introl eq_refl)). lia.
Qed.

Lemma seq_windows {A} w o (l : list A) : (1 <= w)%nat -> (w <= length l)%nat ->
  exists rest, full_windows w o l = firstn w l :: rest.
Proof.
  intros Hw H. unfold full_windows. destruct l as [|x l]; [cbn in H; lia|]. cbn [length seq filter].
  replace (0 * o + w <=? Datatypes.S (length l))%nat with true by (cbn [length] in H; lia). cbn [map]. rewrite skipn_O. eauto.
Qed.

Section Users.
Context {V W S : Type}.
Variable enc : list V -> S.
Variable step : S -> W -> S.
Variable out : S -> V.
Notation frame := (list (row V)).

Lemma windows_list {A} (F : list (row A)) w o ws : Windows F w o ws ->
  ws = flat_map (fun i => full_windows w o (rows_of F i)) (ids F).
Proof.
  intros (is & Hs & Hin & ->). f_equal. apply sorted_lt_unique; [exact Hs|apply ids_sorted|].
  intros x. rewrite Hin. symmetry. apply in_ids.
Qed.

(** The start of the first window is the start of the series with the smallest ID. *)
Lemma first_window {A} (F : list (row A)) w o ws i : ValidRows F -> Windows F w o ws -> (1 <= w)%nat ->
  Occurs F i -> (forall j, Occurs F j -> i <= j) -> (w <= length (rows_of F i))%nat ->
  ws <> [] /\ hd 0 (map rtime (hd [] ws)) = hd 0 (times_of F i).
Proof.
  intros HV HW Hw Hi Hmin HL. apply windows_list in HW.
  assert (Hin : In i (ids F)) by (apply in_ids; exact Hi).
  assert (HS := ids_sorted F).
  destruct (ids F) as [|a l] eqn:E; [destruct Hin|].
  assert (a = i).
  { assert (Ha : Occurs F a) by (apply in_ids; rewrite E; left; reflexivity). specialize (Hmin a Ha).
    destruct Hin as [->|Hin]; [reflexivity|]. apply StronglySorted_inv in HS. destruct HS as [_ HS].
    rewrite Forall_forall in HS. specialize (HS i Hin). lia. }
  subst a. cbn [flat_map] in HW. destruct (seq_windows w o (rows_of F i) Hw HL) as (rest & ER). rewrite ER in HW.
  rewrite HW. split; [discriminate|]. cbn [app hd].
  unfold times_of. destruct (rows_of F i); [cbn in HL; lia|]. destruct w; [lia|]. reflexivity.
Qed.

Lemma times_len {A} (F : list (row A)) i : length (rows_of F i) = length (times_of F i).
Proof. unfold times_of. rewrite map_length. reflexivity. Qed.

Lemma regular_same {A B} (F : list (row A)) (G : list (row B)) d : ValidRows F -> ValidRows G -> AllRegular F d ->
  (forall i, Occurs G i <-> Occurs F i) -> (forall i, Occurs F i -> (2 <= length (times_of G i))%nat) ->
  (forall i, Occurs F i -> exists s m, times_of G i = equispaced s d m) -> SmallSteps F -> AllRegular G d /\ SmallSteps G.
Proof.
  intros HV VG HR HO HL HT HSS. destruct (valid_occurs F HV) as (i0 & Hi0).
  assert (Hd : 0 < d) by (apply (regular_pos F i0 d HV), HR, Hi0).
  assert (Hsm : d < 100000000000).
  { destruct (valid_blocks F HV) as (bs & EF & Wb).
    assert (Hb := Hi0). rewrite EF in Hb. apply (proj1 (occurs_block bs i0 Wb)) in Hb. destruct Hb as (b & Hb & Eb).
    apply (bdt_small bs b d Wb ltac:(rewrite <- EF; exact HSS) Hb).
    apply (proj2 (exact_regular bs b d Wb Hb)). rewrite <- EF, Eb. apply HR. exact Hi0. }
  assert (RG : AllRegular G d).
  { destruct (valid_blocks G VG) as (bs & EG & Wb). intros i Hi. assert (Hb := Hi). rewrite EG in Hb.
    apply (proj1 (occurs_block bs i Wb)) in Hb. destruct Hb as (b & Hb & <-).
    rewrite EG. apply (exact_regular bs b d Wb Hb). apply row_dt_exact_some.
    apply HO in Hi. destruct (HT _ Hi) as (s & m & E). specialize (HL _ Hi). rewrite E, equispaced_length in HL.
    unfold times_of in E. rewrite EG, (rows_of_flatten bs b (wf_nodup _ Wb) Hb) in E.
    change (map rtime (brows b)) with (time_index (brows b)) in E. rewrite times_brows in E. rewrite E.
    destruct m as [|[|m]]; [lia|lia|]. rewrite equispaced_diff. split; [discriminate|]. intros x Hx. apply repeat_spec in Hx. exact Hx. }
  split; [exact RG|]. intros a c Hn Eac.
  assert (Ho : Occurs G (rid a)).
  { destruct Hn as (l & r & ->). exists a. split; [apply in_or_app; right; left; reflexivity|reflexivity]. }
  destruct (RG _ Ho) as [_ HS]. rewrite (HS a c Hn eq_refl (eq_sym Eac)). exact Hsm.
Qed.

Lemma same_times_setup (F : frame) (G : list (row W)) d n w o ws us i0 :
  ValidRows F -> SmallSteps F -> AllRegular F d -> ValidRows G ->
  (forall i, Occurs G i <-> Occurs F i) -> (forall i, Occurs F i -> times_of G i = times_of F i) ->
  (1 <= n)%nat -> Z.of_nat n < w -> 0 < o ->
  (forall i, Occurs F i -> w <= Z.of_nat (length (rows_of F i))) ->
  Windows F (Z.to_nat w) (Z.to_nat o) ws -> Windows G (Z.to_nat w) (Z.to_nat o) us ->
  Occurs F i0 -> (forall j, Occurs F j -> i0 <= j) ->
  AllRegular G d /\ SmallSteps G /\ length ws = length us /\ us <> [] /\ hd 0 (map rtime (hd [] us)) = hd 0 (times_of F i0).
Proof.
  intros HV HSS HR VG HO HT Hn Hnw Ho Hlen HW HU Hi0 Hmin.
  assert (HLG : forall i, Occurs F i -> length (rows_of G i) = length (rows_of F i))
    by (intros i Hi; rewrite !times_len, (HT i Hi); reflexivity).
  destruct (regular_same F G d HV VG HR HO) as [RG SG]; auto.
  { intros i Hi. rewrite (HT i Hi), <- times_len. specialize (Hlen i Hi). lia. }
  { intros i Hi. rewrite (HT i Hi). eexists. eexists. apply (ReconProofs.regular_times F i d HV Hi (proj2 (HR i Hi))). }
  split; [exact RG|]. split; [exact SG|]. split.
  - rewrite (windows_list F _ _ ws HW), (windows_list G _ _ us HU), (same_ids F G HO).
    apply flat_map_length_eq. intros i Hi. apply windows_count. symmetry. apply HLG. apply in_ids. exact Hi.
  - destruct (first_window G (Z.to_nat w) (Z.to_nat o) us i0 VG HU) as [H1 H2]; auto.
    + lia.
    + apply HO; exact Hi0.
    + intros j Hj. apply Hmin, HO, Hj.
    + rewrite (HLG i0 Hi0). specialize (Hlen i0 Hi0). lia.
    + split; [exact H1|]. rewrite H2, (HT i0 Hi0). reflexivity.
Qed.

Lemma window_same_times (F : frame) (G : list (row W)) d n w o ws us i0 :
  ValidRows F -> SmallSteps F -> AllRegular F d -> ValidRows G ->
  (forall i, Occurs G i <-> Occurs F i) -> (forall i, Occurs F i -> times_of G i = times_of F i) ->
  (1 <= n)%nat -> Z.of_nat n < w -> 0 < o ->
  (forall i, Occurs F i -> w <= Z.of_nat (length (rows_of F i))) ->
  Windows F (Z.to_nat w) (Z.to_nat o) ws -> Windows G (Z.to_nat w) (Z.to_nat o) us ->
  Occurs F i0 -> (forall j, Occurs F j -> i0 <= j) ->
  (hd 0 (times_of F i0) = 0 ->
   window_reconstruct_controlled enc step out d F G n w o
   = Ok (flat_map (controlled_window enc step out n (Z.to_nat w)) (enumerate (combine ws us)),
         flat_map (fun p => labelled (fst p) (snd p)) (enumerate ws),
         flat_map (fun p => labelled (fst p) (control_window n (Z.to_nat w) (snd p))) (enumerate us))) /\
  (hd 0 (times_of F i0) <> 0 -> window_reconstruct_controlled enc step out d F G n w o = Err TSCException).
Proof.
  intros HV HSS HR VG HO HT Hn Hnw Ho Hlen HW HU Hi0 Hmin.
  destruct (same_times_setup F G d n w o ws us i0 HV HSS HR VG HO HT Hn Hnw Ho Hlen HW HU Hi0 Hmin)
    as (RG & SG & HL & Hne & Hst).
  split; intros H.
  - apply (window_controlled_ok enc step out F G d n w o ws us); auto. rewrite Hst. exact H.
  - apply (window_controlled_err enc step out F G d n w o ws us); auto. right. rewrite Hst. exact H.
Qed.

Lemma window_matching_err (F : frame) (G : list (row W)) d n w o i :
  ValidRows F -> SmallSteps F -> AllRegular F d -> ValidRows G ->
  (forall i, Occurs G i <-> Occurs F i) -> (forall i, Occurs F i -> times_of G i = removelast (times_of F i)) ->
  (1 <= n)%nat -> Z.of_nat n < w -> 0 < o ->
  (forall i, Occurs F i -> w < Z.of_nat (length (rows_of F i))) ->
  Occurs F i -> (exists k, Z.of_nat k * o + w = Z.of_nat (length (rows_of F i))) ->
  window_reconstruct_controlled enc step out d F G n w o = Err TSCException.
Proof.
  intros HV HSS HR VG HO HT Hn Hnw Ho Hlen Hi (k & Hk).
  set (ws := flat_map (fun i => full_windows (Z.to_nat w) (Z.to_nat o) (rows_of F i)) (ids F)).
  set (us := flat_map (fun i => full_windows (Z.to_nat w) (Z.to_nat o) (rows_of G i)) (ids G)).
  assert (HW : Windows F (Z.to_nat w) (Z.to_nat o) ws).
  { exists (ids F). split; [apply ids_sorted|]. split; [|reflexivity]. intros j. apply in_ids. }
  assert (HU : Windows G (Z.to_nat w) (Z.to_nat o) us).
  { exists (ids G). split; [apply ids_sorted|]. split; [|reflexivity]. intros j. apply in_ids. }
  assert (HLG : forall i, Occurs F i -> length (rows_of F i) = Datatypes.S (length (rows_of G i))).
  { intros j Hj. rewrite (times_len G), (HT j Hj), (times_len F). specialize (Hlen j Hj). rewrite times_len in Hlen.
    assert (Hne : times_of F j <> []) by (intros E; rewrite E in Hlen; cbn in Hlen; lia).
    rewrite (app_removelast_last 0 Hne) at 1. rewrite app_length. cbn. lia. }
  destruct (regular_same F G d HV VG HR HO) as [RG SG]; auto.
  { intros j Hj. rewrite <- times_len. specialize (Hlen j Hj). rewrite (HLG j Hj) in Hlen. lia. }
  { intros j Hj. rewrite (HT j Hj). rewrite (ReconProofs.regular_times F j d HV Hj (proj2 (HR j Hj))), (HLG j Hj), removelast_equispaced.
    eexists. eexists. reflexivity. }
  assert (HLT : (length us < length ws)%nat).
  { unfold us, ws. rewrite (same_ids F G HO). apply (flat_map_lt _ _ _ i).
    - intros j Hj. apply in_ids in Hj. apply windows_count_less; [lia|lia|apply HLG; exact Hj].
    - apply in_ids. exact Hi.
    - apply windows_count_less; [lia|lia|apply HLG; exact Hi|]. exists k. nia. }
  apply (window_controlled_err enc step out F G d n w o ws us); auto.
  - intros j Hj. specialize (Hlen j Hj). lia.
  - destruct (valid_occurs G VG) as (j & Hj).
    assert (Hin : In (firstn (Z.to_nat w) (skipn (0 * Z.to_nat o) (rows_of G j))) us).
    { apply in_flat_map. exists j. split; [apply in_ids; exact Hj|]. apply in_full_windows; [lia|lia|]. exists 0%nat. split; [|reflexivity].
      apply HO in Hj. specialize (Hlen j Hj). rewrite (HLG j Hj) in Hlen. lia. }
    intros E. rewrite E in Hin. destruct Hin.
  - left. lia.
Qed.

(** For [ControlFor]: the control in the times of the data. *)
Lemma control_for_start (F : frame) (G : list (row W)) d n i :
  ValidRows F -> AllRegular F d -> (1 <= n)%nat -> (forall i, Occurs F i -> (n < length (rows_of F i))%nat) ->
  ControlFor F G n -> Occurs F i -> hd 0 (times_of G i) = hd 0 (times_of F i) + Z.of_nat (n - 1) * d.
Proof.
  intros HV HR Hn HL [_ HT] Hi. rewrite (HT i Hi). set (s := hd 0 (times_of F i)).
  rewrite (ReconProofs.regular_times F i d HV Hi (proj2 (HR i Hi))). fold s. specialize (HL i Hi).
  rewrite equispaced_skipn by lia.
  destruct (length (rows_of F i) - (n - 1))%nat as [|[|m]] eqn:E; [lia|lia|].
  rewrite removelast_equispaced, equispaced_S. reflexivity.
Qed.

Lemma controlled_zero (F : frame) (G : list (row W)) d n :
  ValidRows F -> IdsSorted F -> SmallSteps F -> AllRegular F d -> SameTimes F ->
  (forall i, Occurs F i -> hd 0 (times_of F i) = 0) ->
  (1 <= n)%nat -> (forall i, Occurs F i -> (n < length (rows_of F i))%nat) ->
  ValidRows G -> IdsSorted G -> ControlFor F G n ->
  edmd_reconstruct_controlled enc step out d F G n
  = Ok (flat_map (controlled_reconstruction enc step out F G n) (ids F)).
Proof.
  intros HV HS HSS HR HT H0 Hn HL VG SG [HC1 HC2]. apply edmd_controlled_ok; auto.
  - intros i j Hi Hj. rewrite !times_len, (HT i j Hi Hj). reflexivity.
  - split; [exact HC1|]. intros i Hi. rewrite (HC2 i Hi). f_equal. f_equal. unfold elapsed_times. rewrite (H0 i Hi).
    rewrite <- (map_id (times_of F i)) at 1. apply map_ext. intros t. lia.
Qed.

Lemma controlled_late (F : frame) (G : list (row W)) d n i :
  ValidRows F -> IdsSorted F -> SmallSteps F -> AllRegular F d ->
  (1 <= n)%nat -> (forall i, Occurs F i -> (n < length (rows_of F i))%nat) -> ValidRows G ->
  ControlFor F G n -> Occurs F i -> hd 0 (times_of F i) <> 0 ->
  edmd_reconstruct_controlled enc step out d F G n = Err TSCException.
Proof.
  intros HV HS HSS HR Hn HL VG HC Hi Ht. apply edmd_controlled_err; auto. left. exists i.
  split; [apply HC; exact Hi|]. rewrite (control_for_start F G d n i HV HR Hn HL HC Hi). lia.
Qed.

Lemma controlled_lengths (F : frame) (G : list (row W)) d n i j :
  ValidRows F -> IdsSorted F -> SmallSteps F -> AllRegular F d ->
  (1 <= n)%nat -> (forall i, Occurs F i -> (n < length (rows_of F i))%nat) -> ValidRows G ->
  (forall i, Occurs F i -> Occurs G i) ->
  Occurs F i -> Occurs F j -> length (rows_of F i) <> length (rows_of F j) ->
  edmd_reconstruct_controlled enc step out d F G n = Err TSCException.
Proof.
  intros HV HS HSS HR Hn HL VG HC Hi Hj Hne. apply edmd_controlled_err; auto. right. split; [|exact HC].
  intros H. apply Hne. apply H; assumption.
Qed.

End Users.
