(** * Proofs: windowed reconstruction. *)

From Coq Require Import List ZArith Bool Arith Lia Sorted Permutation.
From Coq Require Import ZifyBool ZifyNat.
Import ListNotations.
From Verif Require Import Np NpFacts TscModel TscSpec TscBlocks TscProofs TscDt TscOps TscBuild TscShift TscRegular.
From Verif Require Import PredModel PredSpec PredProofs PredControl ReconModel ReconSpec ReconProofs ReconEdmd DerList.
From Verif Require Import CvModel CvWindow AccSpec AccProofs ChkModel ChkSpec ChkProofs BldModel BldSpec BldProofs BldBuild.
From Verif Require Import WinModel WinSpec.
Close Scope nat_scope.
Open Scope Z_scope.

Lemma equispaced_skipn k : forall s d n, (k <= n)%nat ->
  skipn k (equispaced s d n) = equispaced (s + Z.of_nat k * d) d (n - k).
Proof.
  induction k as [|k IH]; intros s d n H.
  - rewrite skipn_O, Nat.sub_0_r. f_equal. lia.
  - destruct n as [|n]; [lia|]. rewrite equispaced_S. cbn [skipn]. rewrite IH by lia.
    f_equal. lia.
Qed.

Lemma equispaced_firstn k : forall s d n, (k <= n)%nat -> firstn k (equispaced s d n) = equispaced s d k.
Proof.
  induction k as [|k IH]; intros s d n H; [reflexivity|].
  destruct n as [|n]; [lia|]. rewrite !equispaced_S. cbn [firstn]. rewrite IH by lia. reflexivity.
Qed.

Lemma equispaced_window s d n j w : (j + w <= n)%nat ->
  firstn w (skipn j (equispaced s d n)) = equispaced (s + Z.of_nat j * d) d w.
Proof. intros H. rewrite equispaced_skipn by lia. apply equispaced_firstn. lia. Qed.

Lemma equispaced_diff s d n : np_diff (equispaced s d (S n)) = repeat d n.
Proof.
  revert s. induction n as [|n IH]; intros s; [reflexivity|].
  transitivity ((s + d - s) :: np_diff (equispaced (s + d) d (S n))).
  - rewrite equispaced_S, equispaced_S. reflexivity.
  - rewrite IH. cbn [repeat]. f_equal. lia.
Qed.

Lemma equispaced_sorted s d n : 0 < d -> StronglySorted Z.lt (equispaced s d n).
Proof.
  intros Hd. revert s. induction n as [|n IH]; intros s; [constructor|].
  rewrite equispaced_S. constructor; [apply IH|]. apply Forall_forall. intros x Hx.
  unfold equispaced in Hx. apply in_map_iff in Hx. destruct Hx as (j & <- & _). nia.
Qed.

Lemma map_combine_fst {A B} (l : list A) (m : list B) : length l = length m -> map fst (combine l m) = l.
Proof. revert m. induction l as [|x l IH]; intros [|y m] H; cbn in *; try congruence. f_equal. apply IH. lia. Qed.

Lemma map_combine_snd {A B} (l : list A) (m : list B) : length l = length m -> map snd (combine l m) = m.
Proof. revert m. induction l as [|x l IH]; intros [|y m] H; cbn in *; try congruence. f_equal. apply IH. lia. Qed.

Lemma pair_eqb_eq p q : pair_eqb p q = true <-> p = q.
Proof.
  unfold pair_eqb. destruct p as [a b], q as [c d]. cbn [fst snd]. split.
  - intros H. f_equal; lia.
  - intros [= -> ->]. lia.
Qed.

Section Win.
Context {V : Type}.
Notation frame := (list (row V)).
Notation block := (Z * list (Z * V))%type.

(** ** collections of equally long regular series *)

(** Every block has the length [w] and regular times. *)
Definition RegBlocks (bs : list block) (w : nat) (d : Z) : Prop :=
  forall b, In b bs -> exists s, 0 <= s /\ map fst (snd b) = equispaced s d w.

Lemma reg_wfb (bs : list block) w d : bs <> [] -> StronglySorted Z.lt (map fst bs) ->
  (forall b, In b bs -> 0 <= fst b) -> RegBlocks bs w d -> (1 <= w)%nat -> 0 < d -> wfb bs.
Proof.
  intros Hne Hs Hpos HR Hw Hd. split; [exact Hne|apply sorted_lt_NoDup; exact Hs|].
  intros b Hb. destruct (HR b Hb) as (s & H0 & E). split; [|split; [|split]].
  - intros E0. rewrite E0 in E. destruct w; [lia|]. rewrite equispaced_S in E. discriminate.
  - apply Hpos; exact Hb.
  - intros p Hp. apply (in_map fst) in Hp. rewrite E in Hp. unfold equispaced in Hp.
    apply in_map_iff in Hp. destruct Hp as (j & <- & _). nia.
  - rewrite E. apply equispaced_sorted. exact Hd.
Qed.

Lemma reg_len (bs : list block) w d b : RegBlocks bs w d -> In b bs -> length (snd b) = w.
Proof.
  intros HR Hb. destruct (HR b Hb) as (s & _ & E). apply (f_equal (@length Z)) in E.
  rewrite map_length, equispaced_length in E. exact E.
Qed.

Lemma reg_regular (bs : list block) w d : wfb bs -> RegBlocks bs w d -> (2 <= w)%nat ->
  forall i, Occurs (flatten bs) i -> Regular (flatten bs) i d.
Proof.
  intros W HR Hw i Hi. apply (proj1 (occurs_block bs i W)) in Hi. destruct Hi as (b & Hb & <-).
  apply (exact_regular bs b d W Hb). apply row_dt_exact_some.
  destruct (HR b Hb) as (s & _ & E). rewrite E. destruct w as [|[|w]]; [lia|lia|].
  rewrite equispaced_diff. split; [discriminate|]. intros x Hx. apply repeat_spec in Hx. exact Hx.
Qed.

Lemma reg_small (bs : list block) w d : wfb bs -> RegBlocks bs w d -> (2 <= w)%nat ->
  d < 100000000000 -> SmallSteps (flatten bs).
Proof.
  intros W HR Hw Hd a c Hn Eac.
  assert (Ho : Occurs (flatten bs) (rid a)).
  { destruct Hn as (l & r & ->). exists a. split; [apply in_or_app; right; left; reflexivity|reflexivity]. }
  destruct (reg_regular bs w d W HR Hw (rid a) Ho) as [_ HS].
  rewrite (HS a c Hn eq_refl (eq_sym Eac)). exact Hd.
Qed.

(** The same blocks with other times. *)
Definition retime (t : list Z) (b : block) : block := (fst b, combine t (map snd (snd b))).

Lemma retime_reg (bs : list block) w d s : RegBlocks bs w d -> 0 <= s ->
  RegBlocks (map (retime (equispaced s d w)) bs) w d.
Proof.
  intros HR H0 b Hb. apply in_map_iff in Hb. destruct Hb as (c & <- & Hc). exists s. split; [exact H0|].
  cbn [retime snd]. apply map_combine_fst. rewrite map_length, equispaced_length.
  symmetry. apply (reg_len bs w d c HR Hc).
Qed.

Lemma retime_fst t (bs : list block) : map fst (map (retime t) bs) = map fst bs.
Proof. rewrite map_map. reflexivity. Qed.

Lemma map_combine_pair (t : list Z) (i : Z) : forall s : list (Z * V), length s = length t ->
  map (fun p : row V * (Z * Z) => mkRow (fst (snd p)) (snd (snd p)) (rval (fst p)))
      (combine (series_rows i s) (map (pair i) t))
  = series_rows i (combine t (map snd s)).
Proof.
  induction t as [|x t IH]; intros [|p s] H; cbn in *; try congruence. f_equal. apply IH. lia.
Qed.

Lemma equalize_blocks (bs : list block) w d b0 rest s0 : bs = b0 :: rest ->
  wfb bs -> IdsSorted (flatten bs) -> RegBlocks bs w d -> (1 <= w)%nat -> 0 < d -> 0 <= s0 ->
  map fst (snd b0) = equispaced s0 d w ->
  equalize_times (flatten bs) = Ok (flatten (map (retime (equispaced s0 d w)) bs)).
Proof.
  intros Ebs W Hs HR Hw Hd H0 E0. unfold equalize_times, set_index.
  assert (Eids : ids (flatten bs) = map fst bs) by (apply ids_sorted_blocks; assumption).
  rewrite Eids.
  assert (Et : time_index (group (flatten bs) (hd 0 (map fst bs))) = equispaced s0 d w).
  { rewrite Ebs at 2. cbn [map hd]. change (group (flatten bs) (fst b0)) with (rows_of (flatten bs) (fst b0)).
    rewrite (rows_of_flatten bs b0 (wf_nodup _ W)) by (rewrite Ebs; left; reflexivity).
    rewrite times_brows. exact E0. }
  rewrite Et. set (t := equispaced s0 d w).
  assert (HL : forall b, In b bs -> length (brows b) = length (map (pair (fst b)) t)).
  { intros b Hb. rewrite brows_length, map_length, (reg_len bs w d b HR Hb). unfold t.
    rewrite equispaced_length. reflexivity. }
  rewrite flat_map_map.
  unfold flatten at 1. rewrite (flat_map_length_eq _ _ _ HL), Nat.eqb_refl.
  apply tsc_ok.
  match goal with |- ValidRows ?m /\ _ => assert (EM : m = flatten (map (retime t) bs)) end.
  { unfold flatten at 1. rewrite combine_flat_map by exact HL. rewrite map_flat_map. unfold flatten.
    rewrite flat_map_map. apply flat_map_ext_in. intros b Hb. unfold brows, retime. cbn [fst snd].
    apply map_combine_pair. unfold t. rewrite equispaced_length. apply (reg_len bs w d b HR Hb). }
  rewrite EM. split; [|reflexivity]. apply wfb_valid.
  apply (reg_wfb _ w d); [rewrite Ebs; discriminate|rewrite retime_fst, <- Eids; apply ids_sorted| |
     apply retime_reg; assumption|lia|exact Hd].
  intros b Hb. apply in_map_iff in Hb. destruct Hb as (c & <- & Hc). apply (wf_blocks _ W c Hc).
Qed.

(** ** the windows *)

Definition pairs_window (W : frame) : list (Z * V) := map (fun r => (rtime r, rval r)) W.

Lemma split_windows (ws : list frame) :
  (forall W, In W ws -> exists i, forall r, In r W -> rid r = i) ->
  flat_map split_item (map Collection ws) = map pairs_window ws.
Proof.
  intros H. induction ws as [|W ws IH]; [reflexivity|]. cbn [map flat_map]. rewrite IH.
  2:{ intros X HX. apply H. right; exact HX. }
  assert (E : split_item (Collection W) = [pairs_window W]).
  { unfold split_item. destruct (H W (or_introl eq_refl)) as (i & Hi).
    replace (1 <? length (ids W))%nat with false; [reflexivity|]. symmetry. apply Nat.ltb_ge.
    destruct (ids W) as [|a [|b l]] eqn:E; cbn; try lia. exfalso.
    assert (Ha : Occurs W a) by (apply in_ids; rewrite E; left; reflexivity).
    assert (Hb : Occurs W b) by (apply in_ids; rewrite E; right; left; reflexivity).
    destruct Ha as (ra & Ha & <-), Hb as (rb & Hb & <-). rewrite (Hi _ Ha), (Hi _ Hb) in E.
    assert (HS := ids_sorted W). rewrite E in HS. apply StronglySorted_inv in HS. destruct HS as [_ HS].
    apply Forall_inv in HS. lia. }
  rewrite E. reflexivity.
Qed.

(** What is known about one window. *)
Definition GoodWindow (w : nat) (d : Z) (W : frame) : Prop :=
  (exists i, forall r, In r W -> rid r = i) /\ exists s, 0 <= s /\ map rtime W = equispaced s d w.

Lemma windows_good (F : frame) w o d i W : ValidRows F -> Occurs F i -> Regular F i d ->
  (1 <= w)%nat -> (1 <= o)%nat -> In W (full_windows w o (rows_of F i)) -> GoodWindow w d W.
Proof.
  intros HV Ho HR Hw Hoo HW. apply in_full_windows in HW; [|lia|lia].
  destruct HW as (j & Hj & ->). split.
  - exists i. intros r Hr. apply (rid_rows_of F i). apply in_skipn with (n := (j * o)%nat).
    apply in_firstn in Hr. exact Hr.
  - assert (E := ReconProofs.regular_times F i d HV Ho (proj2 HR)).
    exists (hd 0 (times_of F i) + Z.of_nat (j * o) * d). split.
    + assert (0 < d) by (apply (regular_pos F i d HV HR)).
      assert (0 <= hd 0 (times_of F i)); [|nia].
      apply rows_of_nonempty in Ho. unfold times_of. destruct (rows_of F i) as [|r l] eqn:Er; [congruence|].
      cbn. apply (vr_times _ HV). assert (In r (rows_of F i)) by (rewrite Er; left; reflexivity).
      apply filter_In in H0. apply H0.
    + rewrite <- firstn_map, <- skipn_map. fold (times_of F i). set (s := hd 0 (times_of F i)) in *. rewrite E. apply equispaced_window.
      lia.
Qed.

Definition wblocks (ws : list frame) : list block := combine (np_arange (length ws)) (map pairs_window ws).

Lemma wblocks_in ws b : In b (wblocks ws) -> 0 <= fst b /\ exists W, In W ws /\ snd b = pairs_window W.
Proof.
  intros Hb. destruct b as [k s]. split.
  - apply (np_arange_nonneg (length ws)). apply in_combine_l in Hb. exact Hb.
  - apply in_combine_r in Hb. apply in_map_iff in Hb. destruct Hb as (W & <- & HW). exists W. auto.
Qed.

Lemma wblocks_fst ws : map fst (wblocks ws) = np_arange (length ws).
Proof. unfold wblocks. apply map_combine_fst. rewrite np_arange_len, map_length. reflexivity. Qed.

Lemma wblocks_reg ws w d : (forall W, In W ws -> GoodWindow w d W) -> RegBlocks (wblocks ws) w d.
Proof.
  intros H b Hb. apply wblocks_in in Hb. destruct Hb as (_ & W & HW & ->).
  destruct (H W HW) as (_ & s & H0 & E). exists s. split; [exact H0|].
  unfold pairs_window. rewrite map_map. exact E.
Qed.

Lemma wblocks_wfb ws w d : ws <> [] -> (forall W, In W ws -> GoodWindow w d W) -> (1 <= w)%nat -> 0 < d ->
  wfb (wblocks ws).
Proof.
  intros Hne H Hw Hd. apply (reg_wfb _ w d); [|rewrite wblocks_fst; apply np_arange_sorted_lt|
    |apply wblocks_reg; exact H|exact Hw|exact Hd].
  - intros E. apply (f_equal (map fst)) in E. rewrite wblocks_fst in E. destruct ws; [congruence|].
    cbn in E. discriminate.
  - intros b Hb. apply wblocks_in in Hb. apply Hb.
Qed.

Lemma cut_windows_ok (F : frame) d w o ws : ValidRows F -> 0 < w -> 0 < o ->
  check_const_time_delta KInt F = Ok d ->
  ws = flat_map (fun i => full_windows (Z.to_nat w) (Z.to_nat o) (rows_of F i)) (ids F) ->
  ws <> [] -> (forall W, In W ws -> GoodWindow (Z.to_nat w) d W) -> 0 < d ->
  cut_windows KInt F w o = Ok (flatten (wblocks ws)).
Proof.
  intros HV Hw Ho Hd Ews Hne HG Hdp. unfold cut_windows.
  rewrite (iter_windows_per_series F w o KInt HV Hw Ho d Hd), <- Ews. cbn [bind].
  assert (EF : from_items (map Collection ws) None = from_frame_list (map pairs_window ws) None).
  { unfold from_items. rewrite split_windows.
    - destruct ws; [congruence|reflexivity].
    - intros W HW. apply HG. exact HW. }
  rewrite EF. apply from_frames_spec; [destruct ws; [congruence|discriminate]|].
  cbn [opt_ids]. rewrite map_length. split; [apply np_arange_len|].
  split; [apply sorted_lt_NoDup, np_arange_sorted_lt|]. split; [|reflexivity].
  intros p Hp. assert (W := wblocks_wfb ws (Z.to_nat w) d Hne HG ltac:(lia) Hdp).
  destruct (wf_blocks _ W p Hp) as (H1 & H2 & H3 & H4). split; [exact H2|]. split; [exact H1|]. split; assumption.
Qed.

Lemma combine_map_both {A B C D} (f : A -> C) (g : B -> D) (l : list A) (m : list B) :
  combine (map f l) (map g m) = map (fun p => (f (fst p), g (snd p))) (combine l m).
Proof. revert m. induction l as [|x l IH]; intros [|y m]; cbn; [reflexivity..|]. f_equal. apply IH. Qed.

Lemma wblocks_enum (ws : list frame) :
  wblocks ws = map (fun p => (Z.of_nat (fst p), pairs_window (snd p))) (enumerate ws).
Proof. unfold wblocks, np_arange, enumerate. apply combine_map_both. Qed.

Lemma wblocks_labelled (ws : list frame) :
  flatten (wblocks ws) = flat_map (fun p => labelled (fst p) (snd p)) (enumerate ws).
Proof.
  rewrite wblocks_enum. unfold flatten. rewrite flat_map_map. apply flat_map_ext. intros p.
  unfold brows, labelled, series_rows, pairs_window. cbn [fst snd]. rewrite map_map. reflexivity.
Qed.

Lemma set_index_blocks {A} (f : A -> frame) (g : A -> list (Z * Z)) (l : list A) (h : A -> frame) :
  (forall x, In x l -> length (f x) = length (g x)) ->
  (forall x, In x l -> map (fun p => mkRow (fst (snd p)) (snd (snd p)) (rval (fst p))) (combine (f x) (g x)) = h x) ->
  set_index (flat_map f l) (flat_map g l) = tsc (flat_map h l).
Proof.
  intros HL HE. unfold set_index. rewrite (flat_map_length_eq _ _ _ HL), Nat.eqb_refl. f_equal.
  rewrite combine_flat_map by exact HL. rewrite map_flat_map. apply flat_map_ext_in. exact HE.
Qed.

Variable pred : list V -> Z -> V.

(** The reconstruction of a block whose times were replaced. *)
Lemma block_reconstruction (bs : list block) w d s0 s1 n b :
  wfb (map (retime (equispaced s0 d w)) bs) -> In b bs ->
  map fst (snd b) = equispaced s1 d w -> (1 <= n)%nat -> (n < w)%nat ->
  map (fun p : row V * (Z * Z) => mkRow (fst (snd p)) (snd (snd p)) (rval (fst p)))
    (combine (reconstruction pred (flatten (map (retime (equispaced s0 d w)) bs)) n (fst b))
             (index (series_rows (fst b) (skipn (n - 1) (snd b)))))
  = map (fun r => mkRow (fst b) (rtime r)
                  (pred (map rval (firstn n (brows b))) (rtime r - nth (n - 1) (map rtime (brows b)) 0)))
        (skipn (n - 1) (brows b)).
Proof.
  intros W Hb Et Hn Hnw.
  assert (Hl : length (snd b) = w).
  { apply (f_equal (@length Z)) in Et. rewrite map_length, equispaced_length in Et. exact Et. }
  set (b' := retime (equispaced s0 d w) b).
  assert (ER : rows_of (flatten (map (retime (equispaced s0 d w)) bs)) (fst b) = brows b').
  { change (fst b) with (fst b'). apply rows_of_flatten; [exact (wf_nodup _ W)|]. apply in_map. exact Hb. }
  unfold reconstruction, times_of. rewrite ER.
  assert (E1 : map rtime (brows b') = equispaced s0 d w).
  { change (map rtime (brows b')) with (time_index (brows b')). rewrite times_brows. cbn [b' retime snd].
    apply map_combine_fst. rewrite map_length, equispaced_length. lia. }
  assert (E2 : map rval (brows b') = map snd (snd b)).
  { unfold brows, series_rows. rewrite map_map. cbn [rval]. cbn [b' retime fst snd].
    apply map_combine_snd. rewrite map_length, equispaced_length. lia. }
  assert (E3 : map rval (brows b) = map snd (snd b)).
  { unfold brows, series_rows. rewrite map_map. reflexivity. }
  assert (E4 : map rtime (brows b) = equispaced s1 d w).
  { change (map rtime (brows b)) with (time_index (brows b)). rewrite times_brows. exact Et. }
  rewrite <- firstn_map, E2, E1, E4. rewrite <- (firstn_map rval), E3.
  set (f := firstn n (map snd (snd b))).
  assert (N0 : forall s, nth (n - 1) (equispaced s d w) 0 = s + Z.of_nat (n - 1) * d).
  { intros s. unfold equispaced. rewrite (nth_indep _ 0 (s + Z.of_nat 0 * d)) by (rewrite map_length, seq_length; lia).
    rewrite (map_nth (fun j => s + Z.of_nat j * d)), seq_nth by lia. reflexivity. }
  rewrite !N0.
  (* both sides as functions of the times *)
  transitivity (map (fun p => mkRow (fst b) (snd p) (pred f (fst p - (s0 + Z.of_nat (n - 1) * d))))
                 (combine (skipn (n - 1) (equispaced s0 d w)) (skipn (n - 1) (equispaced s1 d w)))).
  - rewrite <- E1 at 1. rewrite <- Et. rewrite (skipn_map rtime). rewrite (skipn_map fst).
    unfold index, series_rows. rewrite !map_map. cbn [rid rtime].
    rewrite combine_map_both, (combine_map_both rtime fst), !map_map. cbn [fst snd rval]. reflexivity.
  - rewrite !equispaced_skipn by lia.
    transitivity (map (fun t => mkRow (fst b) t (pred f (t - (s1 + Z.of_nat (n - 1) * d))))
                   (skipn (n - 1) (map rtime (brows b)))).
    + rewrite E4, equispaced_skipn by lia. unfold equispaced. rewrite combine_maps, !map_map. cbn [fst snd].
      apply map_ext. intros j. f_equal. f_equal. lia.
    + rewrite skipn_map, map_map. reflexivity.
Qed.

Lemma window_reconstruct_ok (F : frame) d n w o ws :
  ValidRows F -> SmallSteps F -> AllRegular F d -> (1 <= n)%nat -> Z.of_nat n < w -> 0 < o ->
  (forall i, Occurs F i -> w <= Z.of_nat (length (rows_of F i))) ->
  Windows F (Z.to_nat w) (Z.to_nat o) ws ->
  window_reconstruct pred KInt F n w o
  = Ok (flat_map (fun p => window_prediction pred n (fst p) (snd p)) (enumerate ws),
        flat_map (fun p => labelled (fst p) (snd p)) (enumerate ws)).
Proof.
  intros HV HSS HR Hn Hnw Ho Hlen HW.
  assert (Ews : ws = flat_map (fun i => full_windows (Z.to_nat w) (Z.to_nat o) (rows_of F i)) (ids F)).
  { destruct HW as (is & Hs & Hin & ->). f_equal. apply sorted_lt_unique; [exact Hs|apply ids_sorted|].
    intros x. rewrite Hin. symmetry. apply in_ids. }
  clear HW. set (wn := Z.to_nat w) in *.
  assert (Hwn : (n < wn)%nat) by (unfold wn; lia).
  destruct (valid_occurs F HV) as (i0 & Hi0).
  assert (Hd : 0 < d) by (apply (regular_pos F i0 d HV), HR, Hi0).
  assert (Hdt : check_const_time_delta KInt F = Ok d) by (apply (const_dt_ok F d HV HSS); exact HR).
  assert (HG : forall W, In W ws -> GoodWindow wn d W).
  { intros W HW. rewrite Ews in HW. apply in_flat_map in HW. destruct HW as (i & Hi & HW).
    apply in_ids in Hi. apply (windows_good F wn (Z.to_nat o) d i W HV Hi (HR i Hi)); [lia|lia|exact HW]. }
  assert (Hne : ws <> []).
  { assert (Hin : In (firstn wn (skipn (0 * Z.to_nat o) (rows_of F i0))) ws).
    { rewrite Ews. apply in_flat_map. exists i0. split; [apply in_ids; exact Hi0|].
      apply in_full_windows; [lia|lia|]. exists 0%nat. split; [|reflexivity].
      specialize (Hlen i0 Hi0). unfold wn. lia. }
    intros ->. destruct Hin. }
  assert (Hsmall : d < 100000000000).
  { destruct (HR i0 Hi0) as [Hl HS]. destruct (valid_blocks F HV) as (bs & EF & Wb).
    assert (Hb := Hi0). rewrite EF in Hb. apply (proj1 (occurs_block bs i0 Wb)) in Hb. destruct Hb as (b & Hb & Eb).
    apply (bdt_small bs b d Wb ltac:(rewrite <- EF; exact HSS) Hb).
    apply (proj2 (exact_regular bs b d Wb Hb)). rewrite <- EF, Eb. apply HR. exact Hi0. }
  unfold window_reconstruct. replace (w <=? Z.of_nat n) with false by lia. fold wn.
  rewrite Hdt. cbn [bind].
  rewrite (proj2 (min_timesteps_ok F wn (vr_nonempty _ HV))).
  2:{ intros i Hi. specialize (Hlen i Hi). unfold wn. lia. }
  cbn [bind].
  rewrite (cut_windows_ok F d w o ws HV) by (try assumption; lia).
  cbn [bind]. set (bs := wblocks ws) in *.
  assert (W : wfb bs) by (apply (wblocks_wfb ws wn d Hne HG); lia).
  assert (HRB : RegBlocks bs wn d) by (apply wblocks_reg; exact HG).
  assert (Hsorted : StronglySorted Z.lt (map fst bs)) by (unfold bs; rewrite wblocks_fst; apply np_arange_sorted_lt).
  assert (HS : IdsSorted (flatten bs)) by (apply flatten_sorted; exact Hsorted).
  rewrite (proj2 (n_timesteps_blocks bs wn W)) by (intros b Hb; apply (reg_len bs wn d b HRB Hb)).
  rewrite Nat.eqb_refl. cbn [negb].
  rewrite (tail_flatten _ bs (wf_nodup _ W)).
  assert (Hb0 : exists b0 rest, bs = b0 :: rest).
  { destruct bs as [|b0 rest]; [destruct (wf_ne _ W); reflexivity|eauto]. }
  destruct Hb0 as (b0 & rest & Ebs).
  destruct (HRB b0) as (s0 & Hs0 & E0); [rewrite Ebs; left; reflexivity|].
  rewrite (equalize_blocks bs wn d b0 rest s0 Ebs W HS HRB ltac:(lia) Hd Hs0 E0). cbn [bind].
  set (bs' := map (retime (equispaced s0 d wn)) bs).
  assert (HRB' : RegBlocks bs' wn d) by (apply retime_reg; assumption).
  assert (W' : wfb bs').
  { apply (reg_wfb bs' wn d); [unfold bs'; rewrite Ebs; discriminate|unfold bs'; rewrite retime_fst; exact Hsorted| |
     exact HRB'|lia|exact Hd].
    intros b Hb. apply in_map_iff in Hb. destruct Hb as (c & <- & Hc). apply (wf_blocks _ W c Hc). }
  assert (HS' : IdsSorted (flatten bs')) by (apply flatten_sorted; unfold bs'; rewrite retime_fst; exact Hsorted).
  assert (HLen' : forall i, Occurs (flatten bs') i -> length (rows_of (flatten bs') i) = wn).
  { intros i Hi. apply (proj1 (occurs_block bs' i W')) in Hi. destruct Hi as (b & Hb & <-).
    rewrite (rows_of_flatten bs' b (wf_nodup _ W') Hb), brows_length. apply (reg_len bs' wn d b HRB' Hb). }
  rewrite (edmd_reconstruct_spec pred (flatten bs') d n (wfb_valid _ W') HS'
             (reg_small bs' wn d W' HRB' ltac:(lia) Hsmall) Hn).
  3:{ intros i j Hi Hj _. rewrite !HLen' by assumption. lia. }
  2:{ intros i Hi. split; [apply (reg_regular bs' wn d W' HRB' ltac:(lia)); exact Hi|]. rewrite HLen' by exact Hi. lia. }
  cbn [bind].
  assert (Eids : ids (flatten bs') = map fst bs).
  { rewrite ids_sorted_blocks by assumption. apply retime_fst. }
  rewrite Eids, flat_map_map.
  assert (EI : index (flatten (map (fun b => (fst b, skipn (length (snd b) - (wn - n + 1)) (snd b))) bs))
               = flat_map (fun b => index (series_rows (fst b) (skipn (n - 1) (snd b)))) bs).
  { unfold flatten, index. rewrite flat_map_map, map_flat_map. apply flat_map_ext_in. intros b Hb.
    rewrite (reg_len bs wn d b HRB Hb). replace (wn - (wn - n + 1))%nat with (n - 1)%nat by lia. reflexivity. }
  rewrite EI.
  rewrite (set_index_blocks _ _ bs (fun b => map (fun r => mkRow (fst b) (rtime r)
                  (pred (map rval (firstn n (brows b))) (rtime r - nth (n - 1) (map rtime (brows b)) 0)))
        (skipn (n - 1) (brows b)))).
  2:{ intros b Hb. unfold reconstruction, index, series_rows. rewrite !map_length, !skipn_length.
      rewrite (reg_len bs wn d b HRB Hb).
      change (fst b) with (fst (retime (equispaced s0 d wn) b)).
      rewrite (rows_of_flatten bs' (retime (equispaced s0 d wn) b) (wf_nodup _ W')) by (apply in_map; exact Hb).
      rewrite brows_length. rewrite (reg_len bs' wn d _ HRB') by (apply in_map; exact Hb). reflexivity. }
  2:{ intros b Hb. destruct (HRB b Hb) as (s1 & _ & E1).
      apply (block_reconstruction bs wn d s0 s1 n b W' Hb E1 Hn). lia. }
  match goal with |- context [tsc ?m] => set (R := m) end.
  assert (ER : R = flat_map (fun p => window_prediction pred n (fst p) (snd p)) (enumerate ws)).
  { unfold R, bs. rewrite wblocks_enum, flat_map_map. apply flat_map_ext. intros [k X]. cbn [fst snd].
    unfold window_prediction, brows, series_rows, pairs_window. cbn [fst snd].
    rewrite !map_map. cbn [rtime rval].
    rewrite skipn_map, firstn_map, !map_map. reflexivity. }
  assert (HVR : ValidRows R).
  { assert (E : R = flatten (map (fun b => (fst b, combine (skipn (n - 1) (map fst (snd b)))
       (map (fun r => pred (map rval (firstn n (brows b))) (rtime r - nth (n - 1) (map rtime (brows b)) 0)) (skipn (n - 1) (brows b))))) bs)).
    { unfold R, flatten. rewrite flat_map_map. apply flat_map_ext. intros b. cbv beta.
      set (f := map rval (firstn n (brows b))). set (z := nth (n - 1) (map rtime (brows b)) 0). clearbody f z.
      unfold brows, series_rows. cbn [fst snd]. rewrite !skipn_map. rewrite !map_map, combine_maps, map_map. reflexivity. }
    rewrite E. apply wfb_valid. apply (reg_wfb _ (wn - (n - 1)) d).
    - rewrite Ebs. discriminate.
    - rewrite map_map. exact Hsorted.
    - intros b Hb. apply in_map_iff in Hb. destruct Hb as (c & <- & Hc). apply (wf_blocks _ W c Hc).
    - intros b Hb. apply in_map_iff in Hb. destruct Hb as (c & <- & Hc). cbn [snd].
      destruct (HRB c Hc) as (s1 & H1 & E1). exists (s1 + Z.of_nat (n - 1) * d). split; [nia|].
      rewrite map_combine_fst.
      + rewrite E1. apply equispaced_skipn. lia.
      + rewrite !map_length, !skipn_length, map_length, brows_length. reflexivity.
    - lia.
    - exact Hd. }
  rewrite (proj2 (tsc_ok R R) (conj HVR eq_refl)). cbn [bind]. rewrite ER, <- wblocks_labelled. reflexivity.
Qed.

Lemma find_row (X : frame) r : NoDup (index X) -> In r X ->
  find (fun q => pair_eqb (rid q, rtime q) (rid r, rtime r)) X = Some r.
Proof.
  intros Hnd Hr. induction X as [|q X IH]; [destruct Hr|]. cbn [find].
  cbn in Hnd. apply NoDup_cons_iff in Hnd. destruct Hnd as [Hni Hnd].
  destruct (pair_eqb (rid q, rtime q) (rid r, rtime r)) eqn:E.
  - apply pair_eqb_eq in E. destruct Hr as [->|Hr]; [reflexivity|]. exfalso. apply Hni.
    rewrite E. apply (in_map (fun a : row V => (rid a, rtime a))). exact Hr.
  - destruct Hr as [->|Hr]; [|apply IH; assumption].
    rewrite (proj2 (pair_eqb_eq _ _) eq_refl) in E. discriminate.
Qed.

Lemma loc_index_ok (X Y : frame) : ValidRows X -> incl Y X -> loc_index X (index Y) = Ok Y.
Proof.
  intros HV HI. assert (Hnd := valid_index_nodup X HV). unfold loc_index. revert HI.
  induction Y as [|r Y IH]; intros HI; [reflexivity|].
  cbn [index map map_result]. rewrite (find_row X r Hnd) by (apply HI; left; reflexivity).
  fold (index Y). rewrite IH; [reflexivity|]. intros x Hx. apply HI. right; exact Hx.
Qed.

Lemma window_score_ok (F : frame) d n w o ws :
  ValidRows F -> SmallSteps F -> AllRegular F d -> (1 <= n)%nat -> Z.of_nat n < w -> 0 < o ->
  (forall i, Occurs F i -> w <= Z.of_nat (length (rows_of F i))) ->
  Windows F (Z.to_nat w) (Z.to_nat o) ws ->
  window_score_data pred KInt F n w o false
  = Ok (flat_map (fun p => labelled (fst p) (skipn (n - 1) (snd p))) (enumerate ws),
        flat_map (fun p => window_prediction pred n (fst p) (snd p)) (enumerate ws)).
Proof.
  intros HV HSS HR Hn Hnw Ho Hlen HW.
  assert (E := window_reconstruct_ok F d n w o ws HV HSS HR Hn Hnw Ho Hlen HW).
  unfold window_score_data. replace (w <=? Z.of_nat n) with false by lia. rewrite E. cbn [bind fst snd].
  assert (EI : index (flat_map (fun p => window_prediction pred n (fst p) (snd p)) (enumerate ws))
             = index (flat_map (fun p => labelled (fst p) (skipn (n - 1) (snd p))) (enumerate ws))).
  { unfold index. rewrite !map_flat_map. apply flat_map_ext. intros p. unfold window_prediction, labelled.
    rewrite !map_map. reflexivity. }
  rewrite EI, loc_index_ok; [reflexivity| |].
  - unfold window_reconstruct in E. replace (w <=? Z.of_nat n) with false in E by lia.
    apply bind_ok in E. destruct E as (? & _ & E). apply bind_ok in E. destruct E as (? & _ & E).
    apply bind_ok in E. destruct E as (X & HX & E). destruct (n_timesteps X); [|discriminate].
    destruct (negb _); [discriminate|]. apply bind_ok in E. destruct E as (? & _ & E).
    apply bind_ok in E. destruct E as (? & _ & E). apply bind_ok in E. destruct E as (? & _ & E).
    apply (f_equal (fun r => match r with Ok p => snd p | Err _ => [] end)) in E. cbn in E.
    rewrite <- E. unfold cut_windows in HX. apply bind_ok in HX. destruct HX as (wl & _ & HX).
    unfold from_items in HX. destruct (map Collection wl) as [|c cs]; [discriminate|].
    unfold from_frame_list in HX. destruct (flat_map split_item (c :: cs)); [discriminate|].
    destruct (_ || _); [discriminate|]. destruct (map_result _ _) as [parts|]; [|discriminate].
    apply tsc_ok in HX. destruct HX as [HX ->]. exact HX.
  - intros r Hr. apply in_flat_map in Hr. destruct Hr as (p & Hp & Hr). apply in_flat_map. exists p.
    split; [exact Hp|]. unfold labelled in *. apply in_map_iff in Hr. destruct Hr as (q & <- & Hq).
    apply in_map_iff. exists q. split; [reflexivity|]. apply (in_skipn _ _ _ Hq).
Qed.

Lemma window_reconstruct_errors (F : frame) n w o :
  ValidRows F -> SmallSteps F -> (1 <= n)%nat ->
  (w <= Z.of_nat n -> window_reconstruct pred KInt F n w o = Err ValueError) /\
  (Z.of_nat n < w ->
   ~ ((exists d, AllRegular F d) /\ forall i, Occurs F i -> w <= Z.of_nat (length (rows_of F i))) ->
   window_reconstruct pred KInt F n w o = Err TSCException) /\
  (Z.of_nat n < w -> o <= 0 ->
   (exists d, AllRegular F d) -> (forall i, Occurs F i -> w <= Z.of_nat (length (rows_of F i))) ->
   window_reconstruct pred KInt F n w o = Err ValueError).
Proof.
  intros HV HSS Hn. unfold window_reconstruct. split; [|split].
  - intros H. replace (w <=? Z.of_nat n) with true by lia. reflexivity.
  - intros H HN. replace (w <=? Z.of_nat n) with false by lia.
    destruct (const_decides F HV HSS) as [[H1 H2]|[H1 H2]].
    + destruct (check_const_time_delta KInt F) as [d|e] eqn:E; [|discriminate]. cbn [bind].
      unfold check_required_min_timesteps.
      destruct (existsb _ _) eqn:EM; [reflexivity|]. exfalso. apply HN. split; [exact H1|].
      assert (HM : check_required_min_timesteps F (Z.to_nat w) = Ok tt) by (unfold check_required_min_timesteps; rewrite EM; reflexivity).
      rewrite (min_timesteps_ok F _ (vr_nonempty _ HV)) in HM.
      intros i Hi. specialize (HM i Hi). lia.
    + destruct (check_const_time_delta KInt F) as [d|e] eqn:E; [discriminate|]. cbn in H2.
      injection H2 as ->. reflexivity.
  - intros H Ho (d & Hd) Hl. replace (w <=? Z.of_nat n) with false by lia.
    assert (Hdt : check_const_time_delta KInt F = Ok d) by (apply (const_dt_ok F d HV HSS); exact Hd).
    rewrite Hdt. cbn [bind].
    rewrite (proj2 (min_timesteps_ok F _ (vr_nonempty _ HV))) by (intros i Hi; specialize (Hl i Hi); lia).
    cbn [bind]. unfold cut_windows. rewrite (iter_windows_rejects F w o KInt true ltac:(lia) d Hdt). reflexivity.
Qed.

End Win.
