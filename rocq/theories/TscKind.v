(** * The sampling interval for floating point and datetime values (C03). *)

From Coq Require Import List ZArith Bool Arith Lia Sorted.
Import ListNotations.
From Verif Require Import Np NpFacts TscModel TscSpec TscBlocks TscProofs TscDt TscKindSpec.
Local Open Scope Z_scope.

Lemma list_min_le x r y : In y (x :: r) -> list_min (x :: r) <= y.
Proof.
  unfold list_min. revert x y. induction r as [|z r IH]; intros x y Hy; simpl in *.
  - destruct Hy as [->|[]]. lia.
  - assert (H0 : fold_left Z.min r (Z.min x z) <= Z.min x z) by (apply IH; left; reflexivity).
    destruct Hy as [->|[->|Hy]]; try lia. apply IH. right; exact Hy.
Qed.

Lemma list_min_mem x r : In (list_min (x :: r)) (x :: r).
Proof. apply list_min_in. Qed.

(** One row of the equal-length path. *)
Lemma row_dt_float_some d x : (2 <= length d)%nat -> (forall y, In y d -> 0 < y < 100000000000) ->
  row_dt_float d = Some x <-> x <= hd 0 d /\ (forall y, In y (tl d) -> y = x).
Proof.
  intros Hl Hs. destruct d as [|a [|b r]]; simpl in Hl; try lia.
  unfold row_dt_float. set (m := list_min (a :: b :: r)).
  assert (Hm : In m (a :: b :: r)) by apply list_min_mem.
  assert (Hms := Hs m Hm).
  assert (Hle : forall y, In y (a :: b :: r) -> m <= y) by (intros y Hy; apply list_min_le; exact Hy).
  cbn [tl hd].
  destruct (forallb (fun y => y =? m) (b :: r)) eqn:E1; cbn [orb].
  - rewrite forallb_forall in E1. split.
    + intros H. injection H as <-. split; [apply Hle; left; reflexivity|].
      intros y Hy. specialize (E1 y Hy). lia.
    + intros [H1 H2]. f_equal. assert (Eb := E1 b (or_introl eq_refl)).
      specialize (H2 b (or_introl eq_refl)). lia.
  - destruct (forallb (fun y => Z.abs (y - m) * 1000000000000 <? 3 * m) (b :: r)) eqn:E2.
    + exfalso. rewrite forallb_forall in E2. apply forallb_false_exists in E1.
      destruct E1 as (y & Hy & Hf). specialize (E2 y Hy). apply Z.ltb_lt in E2.
      assert (Z.abs (y - m) = 0) by nia. lia.
    + split; [discriminate|]. intros [H1 H2]. exfalso.
      assert (m = x).
      { destruct Hm as [Hm|Hm]; [|apply H2; exact Hm].
        assert (Hb := H2 b (or_introl eq_refl)). specialize (Hle b (or_intror (or_introl eq_refl))). lia. }
      apply forallb_false_exists in E2. destruct E2 as (y & Hy & Hf).
      specialize (H2 y Hy). apply Z.ltb_ge in Hf. lia.
Qed.

(** One series of the unequal-length path. *)
Definition sdf (d : list Z) : option Z :=
  match d with [] => None | x :: _ => if forallb (close (list_min d)) d then Some x else None end.

Lemma sdf_some d x : (forall y, In y d -> 0 < y < 100000000000) ->
  sdf d = Some x <-> d <> [] /\ (forall y, In y d -> y = x).
Proof.
  intros Hs. destruct d as [|a r].
  - simpl. split; [discriminate|]. intros [H _]; congruence.
  - unfold sdf. set (m := list_min (a :: r)).
    destruct (forallb (close m) (a :: r)) eqn:E.
    + rewrite forallb_forall in E.
      assert (H : forall y, In y (a :: r) -> y = m).
      { intros y Hy. symmetry. apply close_small; [|apply E; exact Hy]. specialize (Hs y Hy). lia. }
      assert (Ha := H a (or_introl eq_refl)). split.
      * intros Hx. injection Hx as <-. split; [discriminate|]. intros y Hy. rewrite (H y Hy). congruence.
      * intros [_ Hx]. f_equal. apply Hx. left; reflexivity.
    + split; [discriminate|]. intros [_ Hx]. exfalso.
      assert (Hm : m = x) by (apply Hx, list_min_mem).
      apply forallb_false_exists in E. destruct E as (y & Hy & Hf).
      rewrite (Hx y Hy), Hm, close_refl in Hf. discriminate.
Qed.

(** The comparison of the table entries. *)
Lemma global_scalar k (vals : list (option Z)) d :
  k <> KDatetime -> vals <> [] -> (forall x, In (Some x) vals -> 0 <= x < 100000000000) ->
  ((length vals =? 1)%nat || is_global_unique k vals = true /\ hd None vals = Some d) <->
  (forall o, In o vals -> o = Some d).
Proof.
  intros Hk Hne Hs. destruct vals as [|v r]; [congruence|]. clear Hne. cbn [hd]. split.
  - intros [E Hv]. subst v. apply orb_true_iff in E. destruct E as [E|E].
    + apply Nat.eqb_eq in E. destruct r; simpl in E; [|lia]. intros o [<-|[]]. reflexivity.
    + unfold is_global_unique in E.
      cbn [forallb is_none andb] in E.
      assert (E' : forallb (fun o => match o with None => false
                   | Some x => close (list_min (get_some (Some d :: r))) x end) (Some d :: r) = true)
        by (destruct k; [exact E|exact E|congruence]).
      rewrite forallb_forall in E'.
      assert (H : forall o, In o (Some d :: r) -> o = Some (list_min (get_some (Some d :: r)))).
      { intros [x|] Ho; specialize (E' _ Ho); [|discriminate]. cbn beta iota in E'.
        f_equal. symmetry. apply close_small; [apply Hs; exact Ho|exact E']. }
      intros o Ho. rewrite (H o Ho). symmetry. apply H. left; reflexivity.
  - intros H. assert (Ev := H v (or_introl eq_refl)). split; [|exact Ev].
    apply orb_true_iff. right. unfold is_global_unique. rewrite Ev. cbn [forallb is_none andb].
    assert (Hmin : list_min (get_some (v :: r)) = d).
    { assert (Hin : forall x, In x (get_some (v :: r)) -> x = d).
      { intros x Hx. apply get_some_in in Hx. specialize (H _ Hx). congruence. }
      rewrite Ev in *. cbn [get_some flat_map app] in *. apply Hin. apply list_min_mem. }
    rewrite Ev in Hmin. rewrite Hmin.
    assert (Hf : forallb (fun o => match o with None => false | Some x => close d x end) (v :: r) = true).
    { apply forallb_forall. intros o Ho. rewrite (H o Ho). apply close_refl. }
    rewrite Ev in Hf. destruct k; [exact Hf|exact Hf|congruence].
Qed.

Section Kinds.
Variable V : Type.
Notation frame := (list (row V)).

Definition bdiff (b : Z * list (Z * V)) : list Z := np_diff (map fst (snd b)).

Lemma bdiff_length (b : Z * list (Z * V)) : length (bdiff b) = (length (snd b) - 1)%nat.
Proof. unfold bdiff. rewrite np_diff_length, map_length. reflexivity. Qed.

Lemma times_of_flatten (bs : list (Z * list (Z * V))) b :
  wfb bs -> In b bs -> times_of (flatten bs) (fst b) = map fst (snd b).
Proof.
  intros W Hb. unfold times_of. rewrite rows_of_flatten by (auto; apply (wf_nodup _ W)).
  apply times_brows.
Qed.

Lemma bdiff_small (bs : list (Z * list (Z * V))) b y :
  wfb bs -> SmallSteps (flatten bs) -> In b bs -> In y (bdiff b) -> 0 < y < 100000000000.
Proof.
  intros W Hs Hb Hin. unfold bdiff in Hin.
  apply (next_block bs b) in Hin; [|apply (wf_nodup _ W)|exact Hb].
  destruct Hin as (a & c & Hn & Ha & Hc & ->).
  split.
  - assert (HV := wfb_valid bs W). destruct Hn as (l & q & El).
    assert (rtime a < rtime c); [|lia]. apply (vr_inc _ HV); [|congruence].
    exists l, [], q. exact El.
  - apply Hs; [exact Hn|congruence].
Qed.

(** Equal lengths, any kind of time values. *)
Lemma dt_table_equal_kind k (bs : list (Z * list (Z * V))) n :
  wfb bs -> n_timesteps (flatten bs) = NInt n ->
  dt_table k (flatten bs) = Ok (combine (ids (flatten bs)) (map (fun b => row_dt k (bdiff b)) bs)).
Proof.
  intros W En. unfold dt_table. rewrite En.
  rewrite (n_timesteps_blocks bs n W) in En.
  assert (Hn := equal_len_pos bs n W En).
  destruct (n =? 1)%nat eqn:E1.
  - apply Nat.eqb_eq in E1. subst n. f_equal.
    assert (Hl : length (ids (flatten bs)) = length bs) by (apply n_timeseries_blocks; exact W).
    assert (Hall : forall b, In b bs -> row_dt k (bdiff b) = None).
    { intros b Hb. specialize (En b Hb). unfold bdiff.
      destruct (snd b) as [|? [|? ?]]; simpl in En; try lia. reflexivity. }
    clear - Hl Hall. revert Hl. generalize (ids (flatten bs)) as il. intros il Hl. revert bs Hl Hall.
    induction il as [|i l IH]; intros bs Hl Hall.
    + reflexivity.
    + destruct bs as [|b bs]; [discriminate|]. simpl. rewrite (Hall b) by (left; reflexivity).
      f_equal. apply IH; [simpl in Hl; lia|]. intros c Hc. apply Hall. right; exact Hc.
  - rewrite n_timeseries_blocks by exact W.
    rewrite equal_diffs; [|apply (wf_ne _ W)|exact Hn|exact En].
    rewrite reshape_flat_map.
    + f_equal. f_equal. rewrite map_map. reflexivity.
    + intros b Hb. rewrite np_diff_length, map_length, (En b Hb). reflexivity.
Qed.

Lemma series_dt_float (bs : list (Z * list (Z * V))) b :
  NoDup (map fst bs) -> In b bs ->
  series_dt KFloat (flatten bs) (fst b) =
  match bdiff b with [] => Err ValueError | _ => Ok (sdf (bdiff b)) end.
Proof.
  intros Hnd Hb. unfold series_dt. rewrite series_diffs by auto. fold (bdiff b).
  destruct (bdiff b) as [|x r]; [reflexivity|]. unfold sdf.
  destruct (forallb (close (list_min (x :: r))) (x :: r)); reflexivity.
Qed.

(** ** floating point time values *)
Lemma equal_late (bs : list (Z * list (Z * V))) b d :
  wfb bs -> SmallSteps (flatten bs) -> In b bs -> (3 <= length (snd b))%nat ->
  row_dt KFloat (bdiff b) = Some d <-> RegularAfterFirst (flatten bs) (fst b) d.
Proof.
  intros W Hs Hb Hl.
  assert (E : row_dt KFloat (bdiff b) = row_dt_float (bdiff b)).
  { assert (Hl' := bdiff_length b). destruct (bdiff b) as [|? [|? ?]]; simpl in Hl'; try lia. reflexivity. }
  rewrite E, row_dt_float_some by
    (try (rewrite bdiff_length; lia); intros y Hy; apply (bdiff_small bs b y W Hs Hb Hy)).
  unfold RegularAfterFirst. rewrite times_of_flatten by assumption. cbv zeta.
  set (ts := map fst (snd b)). assert (Hts : length ts = length (snd b)) by apply map_length.
  assert (Hhd : hd 0 (bdiff b) = nth 1 ts 0 - nth 0 ts 0).
  { transitivity (nth 0 (bdiff b) 0); [destruct (bdiff b); reflexivity|].
    unfold bdiff. apply np_diff_nth. fold ts. lia. }
  assert (Htl : forall y, In y (tl (bdiff b)) <->
                exists k, (1 <= k)%nat /\ (S k < length ts)%nat /\ y = nth (S k) ts 0 - nth k ts 0).
  { intros y. assert (Hlb := bdiff_length b).
    assert (Enth : forall k, nth k (tl (bdiff b)) 0 = nth (S k) (bdiff b) 0)
      by (intros k; destruct (bdiff b); [destruct k; reflexivity|reflexivity]).
    assert (Etl : length (tl (bdiff b)) = (length (bdiff b) - 1)%nat)
      by (destruct (bdiff b); simpl; lia).
    split.
    - intros Hy. apply (In_nth _ _ 0) in Hy. destruct Hy as (k & Hk & <-).
      exists (S k). split; [lia|]. split; [lia|]. rewrite Enth. unfold bdiff. fold ts.
      apply np_diff_nth. lia.
    - intros (k & Hk1 & Hk2 & ->). destruct k as [|k]; [lia|].
      rewrite <- np_diff_nth by exact Hk2. fold (bdiff b). change (np_diff ts) with (bdiff b).
      rewrite <- Enth. apply nth_In. lia. }
  rewrite Hhd. split.
  - intros [H1 H2]. split; [lia|]. split; [exact H1|]. intros k Hk1 Hk2. apply H2, Htl. eauto.
  - intros (_ & H1 & H2). split; [exact H1|]. intros y Hy. apply Htl in Hy.
    destruct Hy as (k & Hk1 & Hk2 & ->). auto.
Qed.

Lemma single_step (bs : list (Z * list (Z * V))) b d :
  wfb bs -> In b bs -> (length (snd b) <= 2)%nat ->
  row_dt KFloat (bdiff b) = Some d <-> Regular (flatten bs) (fst b) d.
Proof.
  intros W Hb Hl. rewrite <- (exact_regular bs b d W Hb). fold (bdiff b).
  assert (H := bdiff_length b). destruct (bdiff b) as [|x [|y r]]; simpl in H; try lia; reflexivity.
Qed.

Lemma unequal_regular (bs : list (Z * list (Z * V))) b d :
  wfb bs -> SmallSteps (flatten bs) -> In b bs ->
  sdf (bdiff b) = Some d <-> Regular (flatten bs) (fst b) d.
Proof.
  intros W Hs Hb. rewrite sdf_some by (intros y Hy; apply (bdiff_small bs b y W Hs Hb Hy)).
  rewrite <- (exact_regular bs b d W Hb). rewrite row_dt_exact_some. reflexivity.
Qed.

Lemma regular_late (F : frame) i d : ValidRows F -> Regular F i d -> RegularAfterFirst F i d.
Proof.
  intros HV [Hl Hr]. destruct (valid_blocks F HV) as (bs & -> & W).
  destruct (rows_of (flatten bs) i) as [|r0 rs] eqn:E; [simpl in Hl; lia|].
  assert (Ho : Occurs (flatten bs) i).
  { assert (Hin : In r0 (rows_of (flatten bs) i)) by (rewrite E; left; reflexivity).
    unfold rows_of in Hin. apply filter_In in Hin. destruct Hin as [H1 H2].
    exists r0. split; [exact H1|lia]. }
  apply (occurs_block bs i W) in Ho. destruct Ho as (b & Hb & <-).
  assert (Hlen : length (snd b) = length (times_of (flatten bs) (fst b)))
    by (rewrite times_of_flatten by assumption; symmetry; apply map_length).
  assert (Hl2 : (2 <= length (times_of (flatten bs) (fst b)))%nat)
    by (unfold times_of; rewrite map_length, E; exact Hl).
  unfold RegularAfterFirst. cbv zeta.
  assert (Hstep : forall k, (S k < length (times_of (flatten bs) (fst b)))%nat ->
     nth (S k) (times_of (flatten bs) (fst b)) 0 - nth k (times_of (flatten bs) (fst b)) 0 = d).
  { intros k Hk. rewrite times_of_flatten in * by assumption.
    rewrite <- np_diff_nth by exact Hk.
    assert (Hin : In (nth k (np_diff (map fst (snd b))) 0) (np_diff (map fst (snd b)))).
    { apply nth_In. rewrite np_diff_length. lia. }
    apply (next_block bs b) in Hin; [|apply (wf_nodup _ W)|exact Hb].
    destruct Hin as (a & c & Hn & Ha & Hc & ->). apply Hr; assumption. }
  split; [exact Hl2|]. split.
  - rewrite Hstep by lia. lia.
  - intros k _ Hk. apply Hstep. exact Hk.
Qed.

Lemma map_result_err {A B} (f : A -> result B) l e :
  map_result f l = Err e -> exists x, In x l /\ f x = Err e.
Proof.
  induction l as [|x r IH]; simpl; [discriminate|].
  destruct (f x) as [y|e'] eqn:E.
  - destruct (map_result f r) as [ys|e'] eqn:E2; [discriminate|].
    intros H. injection H as ->. destruct (IH eq_refl) as (z & Hz & Ez). eauto.
  - intros H. injection H as ->. eauto.
Qed.

Lemma map_result_some_err {A B} (f : A -> result B) l x :
  In x l -> (exists e, f x = Err e) -> exists e, map_result f l = Err e.
Proof.
  induction l as [|y r IH]; intros Hx He; [destruct Hx|]. simpl.
  destruct (f y) as [z|e'] eqn:E; [|eauto].
  destruct Hx as [->|Hx]; [destruct He as (e & He); congruence|].
  destruct (IH Hx He) as (e & ->). eauto.
Qed.

Lemma unequal_table_float (bs : list (Z * list (Z * V))) l :
  wfb bs -> n_timesteps (flatten bs) = NSeries l ->
  (forall b, In b bs -> bdiff b <> []) ->
  dt_table KFloat (flatten bs) =
  Ok (map (fun i => (i, sdf (np_diff (map fst (find_block bs i))))) (ids (flatten bs))).
Proof.
  intros W En Hnd. unfold dt_table. rewrite En. apply map_result_ok.
  intros i Hi. rewrite ids_flatten in Hi by (intros b Hb; apply (wf_blocks _ W b Hb)).
  rewrite in_np_unique in Hi. apply in_map_iff in Hi. destruct Hi as (b & <- & Hb).
  rewrite series_dt_float by (auto; apply (wf_nodup _ W)).
  rewrite find_block_in by (auto; apply (wf_nodup _ W)).
  specialize (Hnd b Hb). unfold bdiff in *. destruct (np_diff (map fst (snd b))); [congruence|reflexivity].
Qed.

Lemma in_ids_block (bs : list (Z * list (Z * V))) i :
  wfb bs -> In i (ids (flatten bs)) <-> exists b, In b bs /\ fst b = i.
Proof. intros W. rewrite in_ids. apply occurs_block. exact W. Qed.

Lemma rows_of_length (bs : list (Z * list (Z * V))) b :
  wfb bs -> In b bs -> length (rows_of (flatten bs) (fst b)) = length (snd b).
Proof.
  intros W Hb. rewrite rows_of_flatten by (auto; apply (wf_nodup _ W)). apply brows_length.
Qed.

Lemma series_not_equal_length (F : frame) l : n_timesteps F = NSeries l -> is_equal_length F = false.
Proof.
  unfold is_equal_length, n_timesteps. destruct (_ || _) eqn:E; [discriminate|].
  intros _. apply orb_false_iff in E. destruct E as [_ E]. cbn [nsteps_values].
  rewrite map_snd_combine; [exact E|]. unfold counts. rewrite map_length. reflexivity.
Qed.

Lemma int_equal_length (F : frame) n : n_timesteps F = NInt n -> is_equal_length F = true.
Proof. unfold is_equal_length. intros ->. reflexivity. Qed.

Theorem delta_time_float_error (F : frame) e :
  ValidRows F ->
  delta_time KFloat F = Err e <->
  e = ValueError /\ is_equal_length F = false /\ exists i, Occurs F i /\ length (rows_of F i) = 1%nat.
Proof.
  intros HV. destruct (valid_blocks F HV) as (bs & -> & W). clear HV.
  unfold delta_time.
  destruct (n_timesteps (flatten bs)) as [n|l] eqn:En;
    [rewrite (int_equal_length _ n En)|rewrite (series_not_equal_length _ l En)].
  - rewrite (dt_table_equal_kind KFloat bs n W En).
    split.
    + destruct (_ || _); discriminate.
    + intros (_ & H & _). discriminate.
  - split.
    + intros H. destruct (dt_table KFloat (flatten bs)) as [t|e'] eqn:Et.
      { destruct (_ || _); discriminate. }
      injection H as ->. unfold dt_table in Et. rewrite En in Et.
      apply map_result_err in Et. destruct Et as (i & Hi & Ei).
      apply (in_ids_block bs i W) in Hi. destruct Hi as (b & Hb & <-).
      rewrite series_dt_float in Ei by (auto; apply (wf_nodup _ W)).
      destruct (bdiff b) as [|x r] eqn:Eb; [|discriminate].
      split; [congruence|]. split; [reflexivity|].
      exists (fst b). split; [apply occurs_block; eauto|].
      rewrite rows_of_length by assumption.
      assert (Hl := bdiff_length b). rewrite Eb in Hl. simpl in Hl.
      destruct (wf_blocks _ W b Hb) as (Hne & _). destruct (snd b) as [|p q]; [congruence|]. simpl in *. lia.
    + intros (-> & _ & i & Hi & Hl). apply (occurs_block bs i W) in Hi. destruct Hi as (b & Hb & <-).
      rewrite rows_of_length in Hl by assumption.
      assert (Herr : exists e, dt_table KFloat (flatten bs) = Err e).
      { unfold dt_table. rewrite En. apply (map_result_some_err _ _ (fst b)).
        - apply in_ids_block; eauto.
        - rewrite series_dt_float by (auto; apply (wf_nodup _ W)).
          assert (Hl2 := bdiff_length b). rewrite Hl in Hl2. destruct (bdiff b); [eauto|simpl in Hl2; lia]. }
      destruct Herr as (e & He). rewrite He. f_equal.
      unfold dt_table in He. rewrite En in He. apply map_result_err in He.
      destruct He as (i & Hi & Ei). apply (in_ids_block bs i W) in Hi. destruct Hi as (c & Hc & <-).
      rewrite series_dt_float in Ei by (auto; apply (wf_nodup _ W)).
      destruct (bdiff c); [congruence|discriminate].
Qed.

Theorem delta_time_float_scalar (F : frame) d :
  ValidRows F -> SmallSteps F ->
  delta_time KFloat F = Ok (DtScalar (Some d)) <->
  (forall i, Occurs F i -> Regular F i d) \/
  (exists n, (3 <= n)%nat /\ forall i, Occurs F i -> length (rows_of F i) = n /\ RegularAfterFirst F i d).
Proof.
  intros HV Hs. destruct (valid_blocks F HV) as (bs & -> & W).
  assert (Hne := wf_ne _ W).
  destruct (n_timesteps (flatten bs)) as [n|l] eqn:En.
  - (* equal lengths *)
    assert (Et := dt_table_equal_kind KFloat bs n W En).
    assert (Hlen : length (ids (flatten bs)) = length bs) by (apply n_timeseries_blocks; exact W).
    rewrite (n_timesteps_blocks bs n W) in En.
    set (vals := map (fun b => row_dt KFloat (bdiff b)) bs) in *.
    assert (Hl : length vals = length bs) by apply map_length.
    assert (Hiff : delta_time KFloat (flatten bs) = Ok (DtScalar (Some d)) <->
                   forall b, In b bs -> row_dt KFloat (bdiff b) = Some d).
    { unfold delta_time. rewrite Et. rewrite n_timeseries_blocks by exact W.
      rewrite map_snd_combine by lia. rewrite <- Hl.
      assert (Hg := global_scalar KFloat vals d).
      assert (Hall : (forall o, In o vals -> o = Some d) <-> forall b, In b bs -> row_dt KFloat (bdiff b) = Some d).
      { unfold vals. split.
        - intros H b Hb. apply H. apply in_map_iff. eauto.
        - intros H o Ho. apply in_map_iff in Ho. destruct Ho as (b & <- & Hb). auto. }
      rewrite <- Hall, <- Hg.
      - destruct ((length vals =? 1)%nat || is_global_unique KFloat vals) eqn:Eo.
        + split; [intros H; injection H as H; auto|intros [_ H]; rewrite H; reflexivity].
        + split; [discriminate|]. intros [H _]. discriminate.
      - discriminate.
      - unfold vals. destruct bs; [congruence|discriminate].
      - intros x Hx. unfold vals in Hx. apply in_map_iff in Hx. destruct Hx as (b & Hx & Hb).
        assert (Hin : In x (bdiff b)).
        { destruct (bdiff b) as [|y [|z r]] eqn:Eb; [discriminate| |].
          - simpl in Hx. injection Hx as ->. left; reflexivity.
          - cbn [row_dt] in Hx. unfold row_dt_float in Hx. cbv zeta in Hx.
            match type of Hx with (if ?c then _ else _) = _ => destruct c end; [|discriminate]. injection Hx as <-. apply (list_min_mem y (z :: r)). }
        assert (H := bdiff_small bs b x W Hs Hb Hin). lia. }
    rewrite Hiff. clear Hiff Et.
    destruct (le_lt_dec 3 n) as [Hn|Hn].
    + split.
      * intros H. right. exists n. split; [exact Hn|]. intros i Hi.
        apply (occurs_block bs i W) in Hi. destruct Hi as (b & Hb & <-).
        rewrite rows_of_length by assumption. split; [auto|].
        apply (equal_late bs b d W Hs Hb); [rewrite En by exact Hb; exact Hn|auto].
      * intros H b Hb. apply (equal_late bs b d W Hs Hb); [rewrite En by exact Hb; exact Hn|].
        assert (Ho : Occurs (flatten bs) (fst b)) by (apply occurs_block; eauto).
        destruct H as [H|(m & _ & H)].
        -- apply regular_late; [exact HV|auto].
        -- apply H. exact Ho.
    + split.
      * intros H. left. intros i Hi. apply (occurs_block bs i W) in Hi. destruct Hi as (b & Hb & <-).
        apply (single_step bs b d W Hb); [rewrite En by exact Hb; lia|auto].
      * intros H b Hb. apply (single_step bs b d W Hb); [rewrite En by exact Hb; lia|].
        assert (Ho : Occurs (flatten bs) (fst b)) by (apply occurs_block; eauto).
        destruct H as [H|(m & Hm & H)]; [auto|].
        destruct (H _ Ho) as [Hr _]. rewrite rows_of_length, En in Hr by assumption. lia.
  - (* unequal lengths *)
    assert (Hno : ~ exists n, forall i, Occurs (flatten bs) i -> length (rows_of (flatten bs) i) = n).
    { intros (n & H). assert (E : n_timesteps (flatten bs) = NInt n); [|congruence].
      apply n_timesteps_blocks; [exact W|]. intros b Hb. rewrite <- rows_of_length with (bs := bs) by assumption.
      apply H. apply occurs_block; eauto. }
    split.
    + intros H. left. intros i Hi. apply (occurs_block bs i W) in Hi. destruct Hi as (b & Hb & <-).
      assert (Hdeg : forall c, In c bs -> bdiff c <> []).
      { intros c Hc Ec.
        assert (He : delta_time KFloat (flatten bs) = Err ValueError); [|congruence].
        apply delta_time_float_error; [exact HV|]. split; [reflexivity|].
        split; [apply (series_not_equal_length _ l En)|].
        exists (fst c). split; [apply occurs_block; eauto|]. rewrite rows_of_length by assumption.
        assert (Hl := bdiff_length c). rewrite Ec in Hl. simpl in Hl.
        destruct (wf_blocks _ W c Hc) as (Hce & _). destruct (snd c) as [|p q]; [congruence|]. simpl in *. lia. }
      unfold delta_time in H. rewrite (unequal_table_float bs l W En Hdeg) in H.
      rewrite map_map in H. cbn [snd] in H.
      set (vals := map (fun i => sdf (np_diff (map fst (find_block bs i)))) (ids (flatten bs))) in *.
      assert (Hvl : n_timeseries (flatten bs) = length vals)
        by (unfold vals, n_timeseries; rewrite map_length; reflexivity).
      rewrite Hvl in H.
      assert (Hin : forall c, In c bs -> In (sdf (bdiff c)) vals).
      { intros c Hc. unfold vals. apply in_map_iff. exists (fst c). split.
        - rewrite find_block_in by (auto; apply (wf_nodup _ W)). reflexivity.
        - apply in_ids_block; eauto. }
      apply (unequal_regular bs b d W Hs Hb).
      apply (proj1 (global_scalar KFloat vals d ltac:(discriminate)
                      ltac:(intros E; specialize (Hin b Hb); rewrite E in Hin; destruct Hin)
                      ltac:(idtac; intros x Hx; unfold vals in Hx; apply in_map_iff in Hx;
                            destruct Hx as (i & Hx & Hi); apply (in_ids_block bs i W) in Hi;
                            destruct Hi as (c & Hc & <-);
                            rewrite find_block_in in Hx by (auto; apply (wf_nodup _ W));
                            fold (bdiff c) in Hx; assert (Hc2 : In x (bdiff c))
                            by (destruct (bdiff c) as [|y r]; [discriminate|];
                                unfold sdf in Hx; destruct (forallb _ _); [|discriminate];
                                injection Hx as ->; left; reflexivity);
                            assert (Hb2 := bdiff_small bs c x W Hs Hc Hc2); lia))).
      * destruct (_ || _); [|discriminate]. injection H as H. auto.
      * apply Hin. exact Hb.
    + intros [H|(n & _ & H)].
      2:{ exfalso. apply Hno. exists n. intros i Hi. apply H. exact Hi. }
      assert (Hall : forall b, In b bs -> sdf (bdiff b) = Some d).
      { intros b Hb. apply (unequal_regular bs b d W Hs Hb). apply H. apply occurs_block; eauto. }
      assert (Hdeg : forall c, In c bs -> bdiff c <> []).
      { intros c Hc Ec. specialize (Hall c Hc). rewrite Ec in Hall. discriminate. }
      unfold delta_time. rewrite (unequal_table_float bs l W En Hdeg).
      rewrite map_map. cbn [snd].
      assert (Evals : map (fun i => sdf (np_diff (map fst (find_block bs i)))) (ids (flatten bs))
              = map (fun _ => Some d) (ids (flatten bs))).
      { apply map_ext_in. intros i Hi. apply (in_ids_block bs i W) in Hi. destruct Hi as (c & Hc & <-).
        rewrite find_block_in by (auto; apply (wf_nodup _ W)). apply Hall. exact Hc. }
      rewrite Evals.
      assert (Hids : ids (flatten bs) <> []).
      { intros E. destruct bs as [|b bs]; [congruence|].
        assert (Hi : In (fst b) (ids (flatten (b :: bs)))) by (apply in_ids_block; [exact W|]; exists b; split; [left; reflexivity|reflexivity]).
        rewrite E in Hi. destruct Hi. }
      assert (Hd : 0 <= d < 100000000000).
      { destruct bs as [|b bs]; [congruence|]. assert (Hb := Hall b (or_introl eq_refl)).
        apply sdf_some in Hb; [|intros y Hy; apply (bdiff_small (b :: bs) b y W Hs (or_introl eq_refl) Hy)].
        destruct Hb as [Hb1 Hb2]. destruct (bdiff b) as [|y r] eqn:Eb; [congruence|].
        assert (y = d) by (apply Hb2; left; reflexivity). subst y.
        assert (Hin : In d (bdiff b)) by (rewrite Eb; left; reflexivity).
        assert (X := bdiff_small (b :: bs) b d W Hs (or_introl eq_refl) Hin). lia. }
      set (vals := map (fun _ => Some d) (ids (flatten bs))).
      assert (Hvl : n_timeseries (flatten bs) = length vals)
        by (unfold vals, n_timeseries; rewrite map_length; reflexivity).
      rewrite Hvl.
      assert (Hv : forall o, In o vals -> o = Some d).
      { intros o Ho. apply in_map_iff in Ho. destruct Ho as (? & <- & _). reflexivity. }
      assert (Hvne : vals <> []) by (unfold vals; destruct (ids (flatten bs)); [congruence|discriminate]).
      apply (global_scalar KFloat vals d) in Hv; [|discriminate|exact Hvne|].
      * destruct Hv as [E1 E2]. rewrite E1, E2. reflexivity.
      * intros x Hx. apply Hv in Hx. injection Hx as ->. exact Hd.
Qed.

(** ** datetime values *)
Lemma row_dt_datetime d : row_dt KDatetime d = row_dt_exact d.
Proof. destruct d as [|x [|y r]]; reflexivity. Qed.

Lemma series_dt_datetime (F : frame) i : series_dt KDatetime F i = series_dt KInt F i.
Proof. reflexivity. Qed.

Lemma dt_table_datetime (F : frame) : ValidRows F -> dt_table KDatetime F = dt_table KInt F.
Proof.
  intros HV. destruct (valid_blocks F HV) as (bs & -> & W).
  destruct (n_timesteps (flatten bs)) as [n|l] eqn:En.
  - rewrite (dt_table_equal_kind KDatetime bs n W En), (dt_table_equal_kind KInt bs n W En).
    apply f_equal, f_equal. apply map_ext. intros b. rewrite row_dt_datetime, row_dt_int. reflexivity.
  - unfold dt_table. rewrite En. reflexivity.
Qed.

(** A single value whatever the series are: that of the series stored first when all are equally
    long, that of the smallest ID otherwise. *)
Theorem delta_time_datetime (F : frame) :
  ValidRows F ->
  exists o, delta_time KDatetime F = Ok (DtScalar o) /\
    forall i d, Occurs F i ->
      (if is_equal_length F then exists r G, F = r :: G /\ rid r = i else forall j, Occurs F j -> i <= j) ->
      (o = Some d <-> Regular F i d).
Proof.
  intros HV. assert (Ht := dt_table_datetime F HV).
  destruct (valid_blocks F HV) as (bs & -> & W).
  destruct (dt_table_total bs W) as (t & Et).
  unfold delta_time. rewrite Ht, Et.
  assert (Eu : is_global_unique KDatetime (map snd t) = true)
    by (unfold is_global_unique; destruct (forallb _ _); reflexivity).
  rewrite Eu, orb_true_r. exists (hd None (map snd t)). split; [reflexivity|].
  intros i d Hi Hfirst.
  destruct (n_timesteps (flatten bs)) as [n|l] eqn:En;
    [rewrite (int_equal_length _ n En) in Hfirst|rewrite (series_not_equal_length _ l En) in Hfirst].
  - rewrite (dt_table_equal bs n W En) in Et. injection Et as <-.
    rewrite map_snd_combine.
    2:{ rewrite map_length. apply n_timeseries_blocks. exact W. }
    destruct bs as [|b bs]; [destruct (wf_ne _ W eq_refl)|]. cbn [map hd].
    destruct Hfirst as (r & G & EF & Hr).
    assert (Eb : i = fst b).
    { rewrite flatten_cons in EF. destruct (wf_blocks _ W b (or_introl eq_refl)) as (Hne & _).
      unfold brows in EF. destruct (snd b) as [|p q]; [congruence|]. cbn [map app] in EF.
      injection EF as EF _. subst r. rewrite <- Hr. reflexivity. }
    rewrite Eb. apply (exact_regular (b :: bs) b d W). left; reflexivity.
  - rewrite (dt_table_unequal bs l W En) in Et. injection Et as <-.
    rewrite map_map. cbn [snd].
    assert (Hh : exists rest, ids (flatten bs) = i :: rest).
    { assert (Hin : In i (ids (flatten bs))) by (apply in_ids; exact Hi).
      assert (Hst : StronglySorted Z.lt (ids (flatten bs))) by apply np_unique_sorted.
      assert (Hmem : forall j, In j (ids (flatten bs)) -> i <= j) by (intros j Hj; apply Hfirst, in_ids, Hj).
      destruct (ids (flatten bs)) as [|j r]; [destruct Hin|].
      exists r. f_equal. destruct Hin as [Hin|Hin]; [exact Hin|].
      inversion Hst as [|? ? _ Hf]; subst. rewrite Forall_forall in Hf. specialize (Hf _ Hin).
      specialize (Hmem j (or_introl eq_refl)). lia. }
    destruct Hh as (rest & ->). cbn [map hd].
    apply (occurs_block bs i W) in Hi. destruct Hi as (b & Hb & <-).
    rewrite find_block_in by (auto; apply (wf_nodup _ W)).
    apply (exact_regular bs b d W Hb).
Qed.

End Kinds.
