(** * Proofs about delta_time. *)

From Coq Require Import List ZArith Bool Arith Lia Sorted Permutation.
From Coq Require Import ZifyBool ZifyNat.
Import ListNotations.
From Verif Require Import Np NpFacts TscModel TscSpec TscBlocks TscProofs.
Open Scope Z_scope.

Section Dt.
Context {V : Type}.
Notation frame := (list (row V)).

(** ** np_diff and neighbours *)

Lemma in_np_diff l x :
  In x (np_diff l) <-> exists p a b q, l = p ++ a :: b :: q /\ x = b - a.
Proof.
  induction l as [|y [|z r] IH].
  - split; [intros []|]. intros (p & a & b & q & E & _). destruct p; discriminate.
  - split; [intros []|]. intros (p & a & b & q & E & _).
    destruct p as [|? p]; [discriminate|]. injection E as _ E. destruct p; discriminate.
  - rewrite np_diff_cons2. split.
    + intros [<-|H].
      * exists [], y, z, r. auto.
      * apply IH in H. destruct H as (p & a & b & q & E & ->).
        exists (y :: p), a, b, q. rewrite E. auto.
    + intros (p & a & b & q & E & ->). destruct p as [|? p].
      * injection E as -> -> ->. left; reflexivity.
      * injection E as -> E. right. apply IH. eauto 6.
Qed.

Lemma map_split_mid {A B} (f : A -> B) l p a b q :
  map f l = p ++ a :: b :: q ->
  exists p' a' b' q', l = p' ++ a' :: b' :: q' /\ f a' = a /\ f b' = b.
Proof.
  intros E. apply map_eq_app in E. destruct E as (p' & s & -> & _ & E).
  destruct s as [|a' [|b' q']]; try discriminate.
  injection E as Ea Eb _. eauto 8.
Qed.

(** neighbours of one block are neighbours of the frame and vice versa *)
Lemma next_block (bs : list (Z * list (Z * V))) b x :
  NoDup (map fst bs) -> In b bs ->
  In x (np_diff (map fst (snd b))) <->
  exists a c, Next (flatten bs) a c /\ rid a = fst b /\ rid c = fst b /\ x = rtime c - rtime a.
Proof.
  intros Hnd Hb. rewrite in_np_diff. split.
  - intros (p & s & t & q & E & ->).
    apply map_split_mid in E. destruct E as (p' & a' & b' & q' & E & <- & <-).
    destruct (in_flatten_block bs b Hb) as (l & r & Efl).
    exists (mkRow (fst b) (fst a') (snd a')), (mkRow (fst b) (fst b') (snd b')).
    simpl. repeat split; auto.
    exists (l ++ series_rows (fst b) p'), (series_rows (fst b) q' ++ r).
    rewrite Efl. unfold brows, series_rows. rewrite E, map_app. simpl.
    rewrite <- !app_assoc. reflexivity.
  - intros (a & c & (l & r & E) & Ea & Ec & ->).
    clear - Hnd Hb E Ea Ec.
    revert l E. induction bs as [|b0 bs IH]; intros l E; [destruct Hb|].
    simpl map in Hnd. inversion Hnd as [|? ? Hni Hnd']; subst.
    rewrite flatten_cons in E.
    destruct (app_split_cons _ _ _ _ _ E) as [(q & E1 & E2)|(p' & -> & E2)].
    + (* a in block b0 *)
      assert (Ha : In a (brows b0)) by (rewrite E1; apply in_or_app; right; left; reflexivity).
      apply rid_brows in Ha.
      assert (b0 = b).
      { destruct Hb as [->|Hb]; [reflexivity|]. exfalso. apply Hni.
        rewrite <- Ha, Ea. apply in_map. exact Hb. }
      subst b0.
      destruct q as [|c' q].
      * exfalso. apply Hni. rewrite <- Ec. apply in_flatten_id. simpl in E2. rewrite <- E2.
        left; reflexivity.
      * simpl in E2. injection E2 as <- E2.
        unfold brows, series_rows in E1. apply map_split_mid in E1.
        destruct E1 as (p' & a' & b' & q' & E1 & <- & <-).
        exists (map fst p'), (fst a'), (fst b'), (map fst q'). simpl.
        rewrite E1, map_app. auto.
    + destruct Hb as [->|Hb].
      * exfalso. apply Hni. rewrite <- Ea. apply in_flatten_id. rewrite E2.
        apply in_or_app. right; left; reflexivity.
      * apply (IH Hnd' Hb p' E2).
Qed.

(** ** the exact per-series rule *)

Lemma row_dt_exact_some d x :
  row_dt_exact d = Some x <-> d <> [] /\ forall y, In y d -> y = x.
Proof.
  destruct d as [|z r]; simpl.
  - split; [discriminate|]. intros [H _]. congruence.
  - destruct (forallb (Z.eqb z) r) eqn:E.
    + rewrite forallb_forall in E. split.
      * intros H. injection H as ->. split; [discriminate|].
        intros y [<-|Hy]; [reflexivity|]. specialize (E y Hy). lia.
      * intros [_ H]. f_equal. apply H. left; reflexivity.
    + split; [discriminate|]. intros [_ H]. exfalso.
      apply forallb_false_exists in E. destruct E as (y & Hy & Hf).
      assert (z = x) by (apply H; left; reflexivity).
      assert (y = x) by (apply H; right; exact Hy). lia.
Qed.

Lemma row_dt_int d : row_dt KInt d = row_dt_exact d.
Proof. destruct d as [|x [|y r]]; reflexivity. Qed.

Lemma exact_regular (bs : list (Z * list (Z * V))) b d :
  wfb bs -> In b bs ->
  row_dt_exact (np_diff (map fst (snd b))) = Some d <-> Regular (flatten bs) (fst b) d.
Proof.
  intros W Hb. assert (Hnd := wf_nodup _ W).
  rewrite row_dt_exact_some. unfold Regular.
  rewrite rows_of_flatten by auto. rewrite brows_length.
  assert (Hlen : np_diff (map fst (snd b)) <> [] <-> (2 <= length (snd b))%nat).
  { assert (length (np_diff (map fst (snd b))) = (length (snd b) - 1)%nat) as E
      by (rewrite np_diff_length, map_length; reflexivity).
    destruct (np_diff (map fst (snd b))); simpl in E; split; intros; try lia; try congruence. }
  rewrite Hlen. split; intros [H1 H2]; split; auto.
  - intros a c Hn Ha Hc. apply H2. apply (next_block bs b); eauto 8.
  - intros y Hy. apply (next_block bs b) in Hy; auto.
    destruct Hy as (a & c & Hn & Ha & Hc & ->). apply H2; auto.
Qed.

(** ** equal-length path *)

Lemma np_diff_app_ne l1 l2 x y :
  np_diff ((l1 ++ [x]) ++ y :: l2) = np_diff (l1 ++ [x]) ++ (y - x) :: np_diff (y :: l2).
Proof. rewrite <- app_assoc. simpl. apply np_diff_app. Qed.

Lemma removelast_app_ne {A} (l1 l2 : list A) : l2 <> [] -> removelast (l1 ++ l2) = l1 ++ removelast l2.
Proof. apply removelast_app. Qed.

Lemma equal_diffs (bs : list (Z * list (Z * V))) n :
  bs <> [] -> (1 <= n)%nat -> (forall b, In b bs -> length (snd b) = n) ->
  mask_select (removelast (np_tile (repeat true (n - 1) ++ [false]) (length bs)))
              (np_diff (time_index (flatten bs)))
  = flat_map (fun b => np_diff (map fst (snd b))) bs.
Proof.
  intros Hne Hn. induction bs as [|b bs IH]; intros Hl; [congruence|].
  assert (Hb : length (snd b) = n) by (apply Hl; left; reflexivity).
  rewrite flatten_cons, time_index_app, times_brows.
  destruct bs as [|c bs].
  - simpl. rewrite !app_nil_r, removelast_last. rewrite mask_select_true; [reflexivity|].
    rewrite np_diff_length, map_length. lia.
  - specialize (IH ltac:(discriminate) (fun b' H' => Hl b' (or_intror H'))).
    remember (c :: bs) as cs eqn:Ecs.
    assert (Hcs : time_index (flatten cs) <> []).
    { subst cs. rewrite flatten_cons, time_index_app, times_brows.
      assert (length (snd c) = n) by (apply Hl; right; left; reflexivity).
      destruct (snd c); [simpl in *; lia|discriminate]. }
    destruct (time_index (flatten cs)) as [|y ty] eqn:Et; [congruence|].
    assert (Htb : map fst (snd b) <> []).
    { destruct (snd b); [simpl in *; lia|discriminate]. }
    destruct (exists_last Htb) as (tb & x & Etb). rewrite Etb.
    rewrite np_diff_app_ne. rewrite <- Etb.
    change (np_tile (repeat true (n - 1) ++ [false]) (length (b :: cs)))
      with ((repeat true (n - 1) ++ [false]) ++ np_tile (repeat true (n - 1) ++ [false]) (length cs)).
    rewrite removelast_app.
    2:{ subst cs. simpl. intros E. apply (f_equal (@length _)) in E.
        rewrite !app_length in E. simpl in E. lia. }
    rewrite <- app_assoc. cbn [flat_map].
    rewrite mask_select_app.
    2:{ rewrite repeat_length, np_diff_length, map_length. lia. }
    rewrite mask_select_true.
    2:{ rewrite np_diff_length, map_length. lia. }
    f_equal.
    change ([false] ++ removelast (np_tile (repeat true (n - 1) ++ [false]) (length cs)))
      with (false :: removelast (np_tile (repeat true (n - 1) ++ [false]) (length cs))).
    unfold mask_select. cbn [combine filter map fst]. exact IH.
Qed.

Lemma reshape_flat_map {A B} (f : A -> list B) l k :
  (forall x, In x l -> length (f x) = k) -> reshape (length l) k (flat_map f l) = map f l.
Proof.
  induction l as [|x r IH]; intros H; [reflexivity|].
  simpl. rewrite firstn_app, skipn_app.
  assert (E : length (f x) = k) by (apply H; left; reflexivity).
  rewrite E, Nat.sub_diag. rewrite firstn_all2, skipn_all2 by lia. simpl.
  rewrite app_nil_r. f_equal. apply IH. intros y Hy. apply H. right; exact Hy.
Qed.

(** ** unequal-length path *)

Lemma positions_from_none (F : frame) i : forall s,
  (forall r, In r F -> rid r <> i) ->
  map fst (filter (fun p => rid (snd p) =? i) (combine (seq s (length F)) F)) = [].
Proof.
  induction F as [|r F IH]; intros s H; [reflexivity|].
  simpl. assert (rid r <> i) by (apply H; left; reflexivity).
  replace (rid r =? i) with false by lia. apply IH. intros x Hx. apply H. right; exact Hx.
Qed.

Lemma positions_from_all (F : frame) i : forall s,
  (forall r, In r F -> rid r = i) ->
  map fst (filter (fun p => rid (snd p) =? i) (combine (seq s (length F)) F)) = seq s (length F).
Proof.
  induction F as [|r F IH]; intros s H; [reflexivity|].
  simpl. assert (rid r = i) by (apply H; left; reflexivity).
  replace (rid r =? i) with true by lia. simpl. f_equal. apply IH.
  intros x Hx. apply H. right; exact Hx.
Qed.

Lemma combine_app {A B} (l1 l2 : list A) (m1 m2 : list B) :
  length l1 = length m1 -> combine (l1 ++ l2) (m1 ++ m2) = combine l1 m1 ++ combine l2 m2.
Proof.
  revert m1. induction l1 as [|x l1 IH]; intros [|y m1] H; simpl in *; try lia; [reflexivity|].
  f_equal. apply IH. lia.
Qed.

Lemma positions_mid (l m r : frame) i :
  (forall x, In x l -> rid x <> i) -> (forall x, In x m -> rid x = i) ->
  (forall x, In x r -> rid x <> i) ->
  positions (l ++ m ++ r) i = seq (length l) (length m).
Proof.
  intros Hl Hm Hr. unfold positions, enumerate. rewrite !app_length, !seq_app.
  rewrite combine_app by (rewrite seq_length; reflexivity).
  rewrite combine_app by (rewrite seq_length; reflexivity).
  rewrite !filter_app, !map_app.
  rewrite positions_from_none by exact Hl.
  rewrite positions_from_all by exact Hm.
  rewrite positions_from_none by exact Hr.
  simpl. rewrite app_nil_r. reflexivity.
Qed.

Lemma nodup_split_block (bs : list (Z * list (Z * V))) b :
  NoDup (map fst bs) -> In b bs ->
  exists l r, flatten bs = flatten l ++ brows b ++ flatten r /\ bs = l ++ b :: r /\
    (forall x, In x (flatten l) -> rid x <> fst b) /\ (forall x, In x (flatten r) -> rid x <> fst b).
Proof.
  intros Hnd Hb. apply in_split in Hb. destruct Hb as (l & r & ->).
  exists l, r. rewrite flatten_app, flatten_cons. rewrite map_app in Hnd. simpl in Hnd.
  apply NoDup_remove_2 in Hnd. repeat split; auto.
  - intros x Hx E. apply Hnd. apply in_or_app. left. rewrite <- E. apply in_flatten_id, Hx.
  - intros x Hx E. apply Hnd. apply in_or_app. right. rewrite <- E. apply in_flatten_id, Hx.
Qed.

Lemma removelast_seq s n : removelast (seq s n) = seq s (n - 1).
Proof.
  revert s. induction n as [|n IH]; intros s; [reflexivity|].
  simpl. rewrite Nat.sub_0_r. destruct n as [|n]; [reflexivity|].
  change (s :: removelast (seq (S s) (S n)) = seq s (S n)).
  rewrite IH. simpl. rewrite Nat.sub_0_r. reflexivity.
Qed.

Lemma nth_app_mid (l m r : list Z) j d :
  (j < length m)%nat -> nth (length l + j) (l ++ m ++ r) d = nth j m d.
Proof.
  intros H. rewrite app_nth2 by lia. rewrite app_nth1 by lia. f_equal. lia.
Qed.

Lemma series_diffs (bs : list (Z * list (Z * V))) b :
  NoDup (map fst bs) -> In b bs ->
  map (fun p => nth p (np_diff (time_index (flatten bs))) 0)
      (removelast (positions (flatten bs) (fst b)))
  = np_diff (map fst (snd b)).
Proof.
  intros Hnd Hb. destruct (nodup_split_block bs b Hnd Hb) as (l & r & E & _ & Hl & Hr).
  rewrite E. rewrite positions_mid; auto using rid_brows.
  rewrite removelast_seq, brows_length.
  rewrite !time_index_app, times_brows.
  set (tl := time_index (flatten l)). set (tb := map fst (snd b)).
  set (tr := time_index (flatten r)).
  assert (Elen : length (flatten l) = length tl) by (unfold tl, time_index; rewrite map_length; reflexivity).
  assert (Eb : length (snd b) = length tb) by (unfold tb; rewrite map_length; reflexivity).
  rewrite Elen, Eb.
  apply (nth_ext _ _ 0 0).
  - rewrite map_length, seq_length, np_diff_length. reflexivity.
  - intros j Hj. rewrite map_length, seq_length in Hj.
    rewrite (nth_indep _ 0 (nth 0%nat (np_diff (tl ++ tb ++ tr)) 0)).
    2:{ rewrite map_length, seq_length. exact Hj. }
    rewrite (map_nth (fun p => nth p (np_diff (tl ++ tb ++ tr)) 0)).
    rewrite seq_nth by exact Hj.
    rewrite np_diff_nth by (rewrite !app_length; lia).
    rewrite np_diff_nth by lia.
    replace (S (length tl + j)) with (length tl + S j)%nat by lia.
    rewrite !nth_app_mid by lia. reflexivity.
Qed.

(** ** the table for integer times *)

Lemma series_dt_int (bs : list (Z * list (Z * V))) b :
  NoDup (map fst bs) -> In b bs ->
  series_dt KInt (flatten bs) (fst b) = Ok (row_dt_exact (np_diff (map fst (snd b)))).
Proof.
  intros Hnd Hb. unfold series_dt. rewrite series_diffs by auto.
  set (d := np_diff (map fst (snd b))).
  destruct (length (np_unique d) =? 1)%nat eqn:E.
  - apply Nat.eqb_eq, np_unique_length_one in E. destruct E as (x & Hx & Hall).
    f_equal. symmetry. apply row_dt_exact_some. split.
    + intros Ed. rewrite Ed in Hx. destruct Hx.
    + intros y Hy. rewrite (Hall y Hy). destruct d as [|z r]; [destruct Hx|].
      simpl. symmetry. apply Hall. left; reflexivity.
  - destruct (row_dt_exact d) as [x|] eqn:Er; [|reflexivity].
    apply row_dt_exact_some in Er. destruct Er as [Hne Hall].
    apply Nat.eqb_neq in E. exfalso. apply E. apply np_unique_length_one.
    exists x. split; [|exact Hall]. destruct d as [|z r]; [congruence|].
    left. apply Hall. left; reflexivity.
Qed.

Lemma map_result_ok {A B} (f : A -> result B) (g : A -> B) l :
  (forall x, In x l -> f x = Ok (g x)) -> map_result f l = Ok (map g l).
Proof.
  induction l as [|x r IH]; intros H; [reflexivity|].
  simpl. rewrite (H x) by (left; reflexivity). rewrite IH; [reflexivity|].
  intros y Hy. apply H. right; exact Hy.
Qed.

Lemma n_timesteps_blocks (bs : list (Z * list (Z * V))) n :
  wfb bs -> n_timesteps (flatten bs) = NInt n <-> (forall b, In b bs -> length (snd b) = n).
Proof.
  intros W. assert (HV := wfb_valid bs W).
  rewrite (n_timesteps_int _ n (vr_nonempty _ HV)).
  rewrite ids_flatten by (intros b Hb; apply (wf_blocks _ W b Hb)).
  split.
  - intros H b Hb. rewrite <- brows_length, <- (rows_of_flatten bs b (wf_nodup _ W) Hb).
    apply H. apply in_np_unique. apply in_map. exact Hb.
  - intros H i Hi. rewrite in_np_unique in Hi. apply in_map_iff in Hi.
    destruct Hi as (b & <- & Hb). rewrite rows_of_flatten, brows_length; auto. apply (wf_nodup _ W).
Qed.

Lemma n_timeseries_blocks (bs : list (Z * list (Z * V))) :
  wfb bs -> n_timeseries (flatten bs) = length bs.
Proof.
  intros W. unfold n_timeseries.
  rewrite ids_flatten by (intros b Hb; apply (wf_blocks _ W b Hb)).
  rewrite (proj2 (np_unique_length_NoDup (map fst bs)) (wf_nodup _ W)), map_length. reflexivity.
Qed.

Definition bdt (b : (Z * list (Z * V))%type) : option Z := row_dt_exact (np_diff (map fst (snd b))).

Lemma equal_len_pos (bs : list (Z * list (Z * V))) n :
  wfb bs -> (forall b, In b bs -> length (snd b) = n) -> (1 <= n)%nat.
Proof.
  intros W H. destruct bs as [|b bs]; [destruct (wf_ne _ W eq_refl)|].
  specialize (H b (or_introl eq_refl)).
  destruct (wf_blocks _ W b (or_introl eq_refl)) as (Hne & _).
  destruct (snd b); simpl in *; [congruence|lia].
Qed.

Lemma dt_table_equal (bs : list (Z * list (Z * V))) n :
  wfb bs -> n_timesteps (flatten bs) = NInt n ->
  dt_table KInt (flatten bs) = Ok (combine (ids (flatten bs)) (map bdt bs)).
Proof.
  intros W En. unfold dt_table. rewrite En.
  rewrite (n_timesteps_blocks bs n W) in En.
  assert (Hn := equal_len_pos bs n W En).
  destruct (n =? 1)%nat eqn:E1.
  - apply Nat.eqb_eq in E1. subst n. f_equal.
    assert (Hl : length (ids (flatten bs)) = length bs) by (apply n_timeseries_blocks; exact W).
    assert (Hall : forall b, In b bs -> bdt b = None).
    { intros b Hb. specialize (En b Hb). unfold bdt.
      destruct (snd b) as [|? [|? ?]]; simpl in En; try lia. reflexivity. }
    clear - Hl Hall. revert Hl. generalize (ids (flatten bs)) as il. intros il Hl. revert bs Hl Hall.
    induction il as [|i l IH]; intros bs Hl Hall.
    + reflexivity.
    + destruct bs as [|b bs]; [discriminate|]. simpl. rewrite (Hall b) by (left; reflexivity).
      f_equal. apply IH; [simpl in Hl; lia|]. intros c Hc. apply Hall. right; exact Hc.
  - rewrite n_timeseries_blocks by exact W.
    rewrite equal_diffs; [|apply (wf_ne _ W)|exact Hn|exact En].
    rewrite reshape_flat_map.
    + f_equal. f_equal. rewrite map_map. apply map_ext. intros b. apply row_dt_int.
    + intros b Hb. rewrite np_diff_length, map_length, (En b Hb). reflexivity.
Qed.

(** block of an ID *)
Definition find_block (bs : list (Z * list (Z * V))) (i : Z) : list (Z * V) :=
  match find (fun b => fst b =? i) bs with Some b => snd b | None => [] end.

Lemma find_block_in (bs : list (Z * list (Z * V))) b :
  NoDup (map fst bs) -> In b bs -> find_block bs (fst b) = snd b.
Proof.
  unfold find_block. induction bs as [|c bs IH]; intros Hnd Hb; [destruct Hb|].
  simpl map in Hnd. inversion Hnd as [|? ? Hni Hnd']; subst. simpl.
  destruct Hb as [->|Hb].
  - rewrite Z.eqb_refl. reflexivity.
  - destruct (fst c =? fst b) eqn:E.
    + exfalso. apply Hni. replace (fst c) with (fst b) by lia. apply in_map. exact Hb.
    + apply IH; auto.
Qed.

Lemma dt_table_unequal (bs : list (Z * list (Z * V))) l :
  wfb bs -> n_timesteps (flatten bs) = NSeries l ->
  dt_table KInt (flatten bs) =
  Ok (map (fun i => (i, row_dt_exact (np_diff (map fst (find_block bs i))))) (ids (flatten bs))).
Proof.
  intros W En. unfold dt_table. rewrite En. apply map_result_ok.
  intros i Hi. rewrite ids_flatten in Hi by (intros b Hb; apply (wf_blocks _ W b Hb)).
  rewrite in_np_unique in Hi. apply in_map_iff in Hi. destruct Hi as (b & <- & Hb).
  rewrite series_dt_int by (auto; apply (wf_nodup _ W)).
  rewrite find_block_in by (auto; apply (wf_nodup _ W)). reflexivity.
Qed.

(** ** global result *)
Lemma close_small a b : 0 <= b < 100000000000 -> close a b = true -> a = b.
Proof.
  unfold close. intros H1 H2. apply Z.leb_le in H2. rewrite (Z.abs_eq b) in H2 by lia.
  assert (Z.abs (a - b) = 0) by nia. lia.
Qed.

Lemma close_refl a : close a a = true.
Proof. unfold close. apply Z.leb_le. rewrite Z.sub_diag. change (Z.abs 0) with 0. lia. Qed.

Lemma get_some_in l x : In x (get_some l) <-> In (Some x) l.
Proof.
  unfold get_some. rewrite in_flat_map. split.
  - intros ([y|] & Hy & Hx); [destruct Hx as [->|[]]; exact Hy|destruct Hx].
  - intros H. exists (Some x). split; [exact H|left; reflexivity].
Qed.

Lemma map_fst_combine {A B} (i : list A) : forall v : list B,
  length i = length v -> map fst (combine i v) = i.
Proof.
  induction i as [|x i IH]; intros [|y v] H; simpl in *; try lia; auto. f_equal. apply IH. lia.
Qed.

Lemma map_snd_combine {A B} (i : list A) : forall v : list B,
  length i = length v -> map snd (combine i v) = v.
Proof.
  induction i as [|x i IH]; intros [|y v] H; simpl in *; try lia; auto. f_equal. apply IH. lia.
Qed.

(** content of the table: the set of pairs (positional for equal lengths) *)
Lemma dt_table_values (bs : list (Z * list (Z * V))) t :
  wfb bs -> dt_table KInt (flatten bs) = Ok t ->
  map fst t = ids (flatten bs) /\ length t = length bs /\
  (forall o, In o (map snd t) <-> exists b, In b bs /\ o = bdt b).
Proof.
  intros W Ht. assert (Hl := n_timeseries_blocks bs W). unfold n_timeseries in Hl.
  destruct (n_timesteps (flatten bs)) as [n|l] eqn:En.
  - rewrite (dt_table_equal bs n W En) in Ht. injection Ht as <-.
    assert (Hm : length (map bdt bs) = length bs) by apply map_length.
    repeat split.
    + apply map_fst_combine. lia.
    + rewrite combine_length, Hl, Hm. lia.
    + rewrite map_snd_combine by lia. intros Ho.
      apply in_map_iff in Ho. destruct Ho as (b & <- & Hb). eauto.
    + rewrite map_snd_combine by lia. intros (b & Hb & ->). apply in_map. exact Hb.
  - rewrite (dt_table_unequal bs l W En) in Ht. injection Ht as <-.
    assert (Hids : forall i, In i (ids (flatten bs)) <-> In i (map fst bs)).
    { intros i. rewrite ids_flatten by (intros b Hb; apply (wf_blocks _ W b Hb)). apply in_np_unique. }
    repeat split.
    + rewrite map_map. simpl. apply map_id.
    + rewrite map_length. exact Hl.
    + intros Ho. rewrite map_map in Ho. simpl in Ho. apply in_map_iff in Ho.
      destruct Ho as (i & <- & Hi). apply Hids in Hi. apply in_map_iff in Hi.
      destruct Hi as (b & <- & Hb). exists b. split; [exact Hb|].
      rewrite find_block_in by (auto; apply (wf_nodup _ W)). reflexivity.
    + intros (b & Hb & ->). rewrite map_map. simpl. apply in_map_iff. exists (fst b).
      rewrite find_block_in by (auto; apply (wf_nodup _ W)). split; [reflexivity|].
      apply Hids. apply in_map. exact Hb.
Qed.

Lemma dt_table_total (bs : list (Z * list (Z * V))) :
  wfb bs -> exists t, dt_table KInt (flatten bs) = Ok t.
Proof.
  intros W. destruct (n_timesteps (flatten bs)) as [n|l] eqn:En.
  - rewrite (dt_table_equal bs n W En). eauto.
  - rewrite (dt_table_unequal bs l W En). eauto.
Qed.

Lemma occurs_block (bs : list (Z * list (Z * V))) i :
  wfb bs -> Occurs (flatten bs) i <-> exists b, In b bs /\ fst b = i.
Proof.
  intros W. rewrite <- in_ids.
  rewrite ids_flatten by (intros b Hb; apply (wf_blocks _ W b Hb)).
  rewrite in_np_unique, in_map_iff. split; intros (b & H1 & H2); eauto.
Qed.

Lemma bdt_small (bs : list (Z * list (Z * V))) b d :
  wfb bs -> SmallSteps (flatten bs) -> In b bs -> bdt b = Some d -> 0 <= d < 100000000000.
Proof.
  intros W Hs Hb Hd. unfold bdt in Hd. apply row_dt_exact_some in Hd.
  destruct Hd as [Hne Hall]. destruct (np_diff (map fst (snd b))) as [|x r] eqn:E; [congruence|].
  assert (x = d) by (apply Hall; left; reflexivity). subst x.
  assert (Hin : In d (np_diff (map fst (snd b)))) by (rewrite E; left; reflexivity).
  apply (next_block bs b) in Hin; [|apply (wf_nodup _ W)|exact Hb].
  destruct Hin as (a & c & Hn & Ha & Hc & ->).
  split.
  - assert (HV := wfb_valid bs W). destruct Hn as (l & q & El).
    assert (rtime a < rtime c); [|lia]. apply (vr_inc _ HV); [|congruence].
    exists l, [], q. exact El.
  - apply Hs; [exact Hn|congruence].
Qed.

(** the scalar cases *)
Lemma delta_time_scalar_some (F : frame) d :
  ValidRows F -> SmallSteps F ->
  delta_time KInt F = Ok (DtScalar (Some d)) <-> (forall i, Occurs F i -> Regular F i d).
Proof.
  intros HV Hs. destruct (valid_blocks F HV) as (bs & -> & W). clear HV.
  destruct (dt_table_total bs W) as (t & Ht).
  destruct (dt_table_values bs t W Ht) as (Hfst & Hlen & Hvals).
  unfold delta_time. rewrite Ht. rewrite n_timeseries_blocks by exact W.
  assert (Hhd : exists b, In b bs /\ hd None (map snd t) = bdt b).
  { apply Hvals. destruct t as [|x t]; [|left; reflexivity].
    simpl in Hlen. destruct bs; [destruct (wf_ne _ W eq_refl)|discriminate]. }
  destruct Hhd as (b0 & Hb0 & Ehd).
  split.
  - intros H i Hi. apply (occurs_block bs i W) in Hi. destruct Hi as (b & Hb & <-).
    destruct ((length bs =? 1)%nat || is_global_unique KInt (map snd t)) eqn:Eg; [|discriminate].
    injection H as H. apply (exact_regular bs b d W Hb).
    change (bdt b = Some d). rewrite Ehd in H.
    apply orb_true_iff in Eg. destruct Eg as [E1|Eg].
    + apply Nat.eqb_eq in E1. destruct bs as [|c [|? ?]]; simpl in E1; try lia.
      destruct Hb0 as [<-|[]], Hb as [<-|[]]. exact H.
    + unfold is_global_unique in Eg. destruct (forallb is_none (map snd t)) eqn:En.
      * rewrite forallb_forall in En. assert (Hin : In (bdt b0) (map snd t)) by (apply Hvals; eauto).
        specialize (En _ Hin). rewrite H in En. discriminate.
      * rewrite forallb_forall in Eg.
        assert (Hclose : forall b, In b bs -> exists x, bdt b = Some x /\ x = list_min (get_some (map snd t))).
        { intros c Hc. assert (Hin : In (bdt c) (map snd t)) by (apply Hvals; eauto).
          specialize (Eg _ Hin). destruct (bdt c) as [x|] eqn:Ec; [|discriminate].
          exists x. split; [reflexivity|]. symmetry. apply close_small; [|exact Eg].
          eapply (bdt_small bs c); eauto. }
        destruct (Hclose b Hb) as (x & Ex & Hx). destruct (Hclose b0 Hb0) as (y & Ey & Hy).
        rewrite Ex. rewrite Ey in H. congruence.
  - intros H.
    assert (Hall : forall b, In b bs -> bdt b = Some d).
    { intros b Hb. apply (exact_regular bs b d W Hb). apply H. apply (occurs_block bs _ W). eauto. }
    assert (Eg : is_global_unique KInt (map snd t) = true).
    { unfold is_global_unique. destruct (forallb is_none (map snd t)); [reflexivity|].
      apply forallb_forall. intros o Ho. apply Hvals in Ho. destruct Ho as (b & Hb & ->).
      rewrite (Hall b Hb).
      assert (Hmin : list_min (get_some (map snd t)) = d).
      { assert (Hin : forall x, In x (get_some (map snd t)) -> x = d).
        { intros x Hx. apply get_some_in in Hx. apply Hvals in Hx. destruct Hx as (c & Hc & Ec).
          rewrite (Hall c Hc) in Ec. congruence. }
        assert (Hd : In d (get_some (map snd t))).
        { apply get_some_in. apply Hvals. exists b. split; [exact Hb|]. symmetry. auto. }
        destruct (get_some (map snd t)) as [|x r]; [destruct Hd|].
        unfold list_min. apply Hin. apply list_min_in. }
      rewrite Hmin. apply close_refl. }
    rewrite Eg, orb_true_r, Ehd, (Hall b0 Hb0). reflexivity.
Qed.

Lemma delta_time_scalar_none (F : frame) :
  ValidRows F ->
  delta_time KInt F = Ok (DtScalar None) <-> (forall i d, Occurs F i -> ~ Regular F i d).
Proof.
  intros HV. destruct (valid_blocks F HV) as (bs & -> & W). clear HV.
  destruct (dt_table_total bs W) as (t & Ht).
  destruct (dt_table_values bs t W Ht) as (Hfst & Hlen & Hvals).
  unfold delta_time. rewrite Ht. rewrite n_timeseries_blocks by exact W.
  assert (Hhd : exists b, In b bs /\ hd None (map snd t) = bdt b).
  { apply Hvals. destruct t as [|x t]; [|left; reflexivity].
    simpl in Hlen. destruct bs; [destruct (wf_ne _ W eq_refl)|discriminate]. }
  destruct Hhd as (b0 & Hb0 & Ehd).
  split.
  - intros H i d Hi Hr. apply (occurs_block bs i W) in Hi. destruct Hi as (b & Hb & <-).
    apply (exact_regular bs b d W Hb) in Hr. change (bdt b = Some d) in Hr.
    destruct ((length bs =? 1)%nat || is_global_unique KInt (map snd t)) eqn:Eg; [|discriminate].
    injection H as H. rewrite Ehd in H.
    apply orb_true_iff in Eg. destruct Eg as [E1|Eg].
    + apply Nat.eqb_eq in E1. destruct bs as [|c [|? ?]]; simpl in E1; try lia.
      destruct Hb0 as [<-|[]], Hb as [<-|[]]. congruence.
    + unfold is_global_unique in Eg. destruct (forallb is_none (map snd t)) eqn:En.
      * rewrite forallb_forall in En. assert (Hin : In (bdt b) (map snd t)) by (apply Hvals; eauto).
        specialize (En _ Hin). rewrite Hr in En. discriminate.
      * rewrite forallb_forall in Eg. assert (Hin : In (bdt b0) (map snd t)) by (apply Hvals; eauto).
        specialize (Eg _ Hin). rewrite H in Eg. discriminate.
  - intros H.
    assert (Hall : forall b, In b bs -> bdt b = None).
    { intros b Hb. destruct (bdt b) as [d|] eqn:E; [|reflexivity]. exfalso.
      apply (H (fst b) d); [apply (occurs_block bs _ W); eauto|].
      apply (exact_regular bs b d W Hb). exact E. }
    assert (Eg : is_global_unique KInt (map snd t) = true).
    { unfold is_global_unique.
      assert (forallb is_none (map snd t) = true) as ->; [|reflexivity].
      apply forallb_forall. intros o Ho. apply Hvals in Ho. destruct Ho as (b & Hb & ->).
      rewrite (Hall b Hb). reflexivity. }
    rewrite Eg, orb_true_r, Ehd, (Hall b0 Hb0). reflexivity.
Qed.

(** IDs stored in increasing order *)
Lemma ids_sorted_blocks (bs : list (Z * list (Z * V))) :
  wfb bs -> IdsSorted (flatten bs) -> ids (flatten bs) = map fst bs.
Proof.
  intros W Hs. rewrite ids_flatten by (intros b Hb; apply (wf_blocks _ W b Hb)).
  apply np_unique_of_sorted. apply adj_sorted. intros p x y q E.
  apply map_split_mid in E. destruct E as (p' & b & c & q' & -> & <- & <-).
  assert (Hnd := wf_nodup _ W). rewrite map_app in Hnd. simpl in Hnd.
  apply NoDup_remove_2 in Hnd.
  destruct (wf_blocks _ W b) as (Hbne & _). { apply in_or_app; right; left; reflexivity. }
  destruct (wf_blocks _ W c) as (Hcne & _). { apply in_or_app; right; right; left; reflexivity. }
  destruct (snd b) as [|pb sb] eqn:Eb; [congruence|].
  destruct (snd c) as [|pc sc] eqn:Ec; [congruence|].
  assert (fst b <= fst c).
  { change (rid (mkRow (fst b) (fst pb) (snd pb)) <= rid (mkRow (fst c) (fst pc) (snd pc))).
    apply Hs. exists (flatten p'), (series_rows (fst b) sb), (series_rows (fst c) sc ++ flatten q').
    rewrite flatten_app, !flatten_cons. unfold brows. rewrite Eb, Ec. unfold series_rows. simpl.
    reflexivity. }
  assert (fst b <> fst c); [|lia]. intros Ex. apply Hnd. apply in_or_app. right.
  left. auto.
Qed.

Lemma delta_time_series (F : frame) l :
  ValidRows F -> (IdsSorted F \/ is_equal_length F = false) ->
  delta_time KInt F = Ok (DtSeries l) ->
  map fst l = ids F /\
  (forall i o, In (i, o) l -> forall d, o = Some d <-> Regular F i d).
Proof.
  intros HV Hcase H. destruct (valid_blocks F HV) as (bs & -> & W). clear HV.
  unfold delta_time in H. destruct (dt_table KInt (flatten bs)) as [t|] eqn:Ht; [|discriminate].
  destruct (dt_table_values bs t W Ht) as (Hfst & Hlen & Hvals).
  destruct (_ || _); [discriminate|]. injection H as <-.
  split; [exact Hfst|]. intros i o Hio d.
  destruct (n_timesteps (flatten bs)) as [n|ln] eqn:En.
  - destruct Hcase as [Hs|Hs].
    + rewrite (dt_table_equal bs n W En) in Ht. injection Ht as <-.
      rewrite (ids_sorted_blocks bs W Hs) in Hio.
      assert (Hx : exists b, In b bs /\ i = fst b /\ o = bdt b).
      { clear - Hio. induction bs as [|c bs IH]; [destruct Hio|].
        destruct Hio as [E|Hio].
        - injection E as <- <-. exists c. simpl; auto.
        - destruct (IH Hio) as (b & Hb & E). exists b. simpl; auto. }
      destruct Hx as (b & Hb & -> & ->). apply exact_regular; auto.
    + exfalso. unfold is_equal_length in Hs. rewrite En in Hs. discriminate.
  - rewrite (dt_table_unequal bs ln W En) in Ht. injection Ht as <-.
    apply in_map_iff in Hio. destruct Hio as (j & E & Hj). injection E as -> <-.
    rewrite in_ids in Hj. apply (occurs_block bs _ W) in Hj. destruct Hj as (b & Hb & <-).
    rewrite find_block_in by (auto; apply (wf_nodup _ W)). apply exact_regular; auto.
Qed.

Lemma delta_time_int_total (F : frame) : ValidRows F -> exists r, delta_time KInt F = Ok r.
Proof.
  intros HV. destruct (valid_blocks F HV) as (bs & -> & W).
  destruct (dt_table_total bs W) as (t & Ht). unfold delta_time. rewrite Ht.
  destruct (_ || _); eauto.
Qed.

Lemma const_dt_ok (F : frame) d :
  ValidRows F -> SmallSteps F ->
  check_const_time_delta KInt F = Ok d <-> (forall i, Occurs F i -> Regular F i d).
Proof.
  intros HV Hs. rewrite <- (delta_time_scalar_some F d HV Hs).
  unfold check_const_time_delta.
  destruct (delta_time KInt F) as [[[x|]|l]|e]; split; intros H; try discriminate; congruence.
Qed.

End Dt.
