(** * Proofs about shift_matrices and the constructors. *)

From Coq Require Import List ZArith Bool Arith Lia Sorted Permutation.
From Coq Require Import ZifyBool ZifyNat.
Import ListNotations.
From Verif Require Import Np NpFacts TscModel TscSpec TscBlocks TscProofs TscDt.
Ltac Zify.zify_post_hook ::= Z.div_mod_to_equations.
Close Scope Z_scope.
Open Scope nat_scope.

Section Shift.
Context {V : Type}.
Notation frame := (list (row V)).
Notation block := (Z * list (Z * V))%type.

Definition bvals (b : block) : list V := map snd (snd b).

Lemma to_numpy_flatten (bs : list block) : to_numpy (flatten bs) = flat_map bvals bs.
Proof.
  induction bs as [|b bs IH]; [reflexivity|].
  rewrite flatten_cons, to_numpy_app, vals_brows, IH. reflexivity.
Qed.

(** ** snapshot pairs of blocks *)

Lemma combine_removelast_tl (l : list V) x :
  combine (removelast (x :: l)) (tl (x :: l)) = combine (x :: l) l.
Proof.
  revert x. induction l as [|y l IH]; intros x; [reflexivity|].
  change (removelast (x :: y :: l)) with (x :: removelast (y :: l)).
  simpl. f_equal. specialize (IH y). simpl in IH. exact IH.
Qed.

Lemma pairs_brows_app (b : block) (G : frame) :
  snd b <> [] -> (forall r, In r G -> rid r <> fst b) ->
  snapshot_pairs (brows b ++ G) = combine (removelast (bvals b)) (tl (bvals b)) ++ snapshot_pairs G.
Proof.
  intros Hne HG. unfold brows, series_rows, bvals.
  destruct b as [i s]. simpl in *. destruct s as [|p s]; [congruence|]. clear Hne.
  revert p. induction s as [|q s IH]; intros p.
  - simpl. destruct G as [|g G]; [reflexivity|].
    assert (rid g <> i) by (apply HG; left; reflexivity).
    replace (i =? rid g)%Z with false by lia. reflexivity.
  - specialize (IH q). cbn [map app snapshot_pairs rid rval] in *.
    rewrite Z.eqb_refl. rewrite IH.
    change (removelast (snd p :: snd q :: map snd s)) with (snd p :: removelast (snd q :: map snd s)).
    reflexivity.
Qed.

Lemma pairs_flatten (bs : list block) :
  NoDup (map fst bs) -> (forall b, In b bs -> snd b <> []) ->
  snapshot_pairs (flatten bs) =
  flat_map (fun b => combine (removelast (bvals b)) (tl (bvals b))) bs.
Proof.
  induction bs as [|b bs IH]; intros Hnd Hne; [reflexivity|].
  simpl map in Hnd. inversion Hnd as [|? ? Hni Hnd']; subst.
  rewrite flatten_cons, pairs_brows_app.
  - cbn [flat_map]. rewrite IH; auto. intros c Hc. apply Hne. right; exact Hc.
  - apply Hne. left; reflexivity.
  - intros r Hr E. apply Hni. rewrite <- E. apply in_flatten_id. exact Hr.
Qed.

Lemma combine_flat_map {A B C} (f : A -> list B) (g : A -> list C) l :
  (forall x, In x l -> length (f x) = length (g x)) ->
  combine (flat_map f l) (flat_map g l) = flat_map (fun x => combine (f x) (g x)) l.
Proof.
  induction l as [|x l IH]; intros H; [reflexivity|].
  simpl. rewrite combine_app by (apply H; left; reflexivity). f_equal.
  apply IH. intros y Hy. apply H. right; exact Hy.
Qed.

Lemma flat_map_length_eq {A B C} (f : A -> list B) (g : A -> list C) l :
  (forall x, In x l -> length (f x) = length (g x)) ->
  length (flat_map f l) = length (flat_map g l).
Proof.
  induction l as [|x l IH]; intros H; [reflexivity|].
  simpl. rewrite !app_length. rewrite (H x) by (left; reflexivity). f_equal.
  apply IH. intros y Hy. apply H. right; exact Hy.
Qed.

Lemma tl_length {A} (l : list A) : length (tl l) = length l - 1.
Proof. destruct l; simpl; lia. Qed.

(** ** removing the last / first entry of every block by position *)

Lemma pick_drop_last {A} P (l : list A) : forall s,
  l <> [] -> (forall i, s <= i < s + length l -> P i = negb (i =? s + length l - 1)) ->
  pick_from P s l = removelast l.
Proof.
  induction l as [|x [|y r] IH]; intros s Hne HP; [congruence| |].
  - rewrite pick_from_cons, HP by (simpl; lia). simpl.
    replace (s =? s + 1 - 1) with true by lia. reflexivity.
  - rewrite pick_from_cons, HP by (simpl; lia).
    replace (s =? s + length (x :: y :: r) - 1) with false by (simpl; lia). cbn [negb].
    change (removelast (x :: y :: r)) with (x :: removelast (y :: r)). f_equal.
    apply IH; [discriminate|]. intros i Hi. rewrite HP by (simpl in *; lia).
    f_equal. simpl in *. lia.
Qed.

Lemma pick_drop_first {A} P (l : list A) s :
  l <> [] -> (forall i, s <= i < s + length l -> P i = negb (i =? s)) ->
  pick_from P s l = tl l.
Proof.
  intros Hne HP. destruct l as [|x r]; [congruence|].
  rewrite pick_from_cons, HP by (simpl; lia). rewrite Nat.eqb_refl. simpl.
  apply pick_from_all. intros i Hi. rewrite HP by (simpl; lia). lia.
Qed.

Lemma slice_idx s n m i : 1 <= n -> i < m ->
  existsb (Nat.eqb i) (slice_step s n (seq 0 m)) = (s <=? i) && ((i - s) mod n =? 0).
Proof.
  intros Hn Hi. unfold slice_step. rewrite pick_is_pick_from.
  apply eq_true_iff_eq. rewrite existsb_exists. split.
  - intros (x & Hx & E). apply Nat.eqb_eq in E. subst x.
    apply in_pick_from in Hx. destruct Hx as (j & HP & Hj).
    assert (j = i).
    { assert (j < length (seq 0 m)) as Hjm by (apply nth_error_Some; congruence).
      rewrite seq_length in Hjm.
      rewrite (nth_error_nth' _ 0) in Hj by (rewrite seq_length; lia).
      rewrite seq_nth in Hj by lia. injection Hj as Hj. lia. }
    subst j. exact HP.
  - intros HP. exists i. split; [|apply Nat.eqb_refl].
    apply in_pick_from. exists i. split; [exact HP|].
    rewrite (nth_error_nth' _ 0) by (rewrite seq_length; lia). rewrite seq_nth by lia. reflexivity.
Qed.

Lemma mod_block n k j : j < n -> (k * n + j) mod n = j.
Proof. intros H. rewrite Nat.add_comm, Nat.mod_add by lia. apply Nat.mod_small. exact H. Qed.

Lemma last_in_block n k j : 1 <= n -> j < n ->
  ((n - 1 <=? k * n + j) && ((k * n + j - (n - 1)) mod n =? 0)) = (j =? n - 1).
Proof.
  intros Hn Hj. destruct (j =? n - 1) eqn:E.
  - apply Nat.eqb_eq in E. subst j.
    replace (k * n + (n - 1) - (n - 1)) with (k * n) by lia.
    rewrite Nat.mod_mul by lia. rewrite Nat.eqb_refl, andb_true_r. apply Nat.leb_le. lia.
  - apply Nat.eqb_neq in E. destruct k as [|k].
    + simpl. replace (n - 1 <=? j) with false by lia. reflexivity.
    + replace (S k * n + j - (n - 1)) with (k * n + (j + 1)) by (simpl; lia).
      rewrite mod_block by lia. replace (j + 1 =? 0) with false by lia. apply andb_false_r.
Qed.

Lemma first_in_block n k j : 1 <= n -> j < n ->
  ((0 <=? k * n + j) && ((k * n + j - 0) mod n =? 0)) = (j =? 0).
Proof. intros Hn Hj. rewrite Nat.sub_0_r, mod_block by lia. reflexivity. Qed.

(** picking by position inside blocks of equal length *)
Lemma pick_blocks_last (bs : list block) n P :
  (forall b, In b bs -> length (snd b) = n) -> 1 <= n ->
  forall k, (forall k' j, j < n -> k' < k + length bs -> P (k' * n + j) = negb (j =? n - 1)) ->
  pick_from P (k * n) (flat_map bvals bs) = flat_map (fun b => removelast (bvals b)) bs.
Proof.
  intros Hl Hn. induction bs as [|b bs IH]; intros k HP; [reflexivity|].
  assert (Hb : length (bvals b) = n) by (unfold bvals; rewrite map_length; apply Hl; left; reflexivity).
  cbn [flat_map]. rewrite pick_from_app, Hb. f_equal.
  - apply pick_drop_last.
    + intros E. rewrite E in Hb. simpl in Hb. lia.
    + intros i Hi. rewrite Hb in *. replace i with (k * n + (i - k * n)) by lia.
      rewrite HP by (simpl; lia). f_equal. lia.
  - replace (k * n + n) with (S k * n) by (simpl; lia). apply IH.
    + intros c Hc. apply Hl. right; exact Hc.
    + intros k' j Hj Hk. apply HP; [exact Hj|]. simpl. lia.
Qed.

Lemma pick_blocks_first (bs : list block) n P :
  (forall b, In b bs -> length (snd b) = n) -> 1 <= n ->
  forall k, (forall k' j, j < n -> k' < k + length bs -> P (k' * n + j) = negb (j =? 0)) ->
  pick_from P (k * n) (flat_map bvals bs) = flat_map (fun b => tl (bvals b)) bs.
Proof.
  intros Hl Hn. induction bs as [|b bs IH]; intros k HP; [reflexivity|].
  assert (Hb : length (bvals b) = n) by (unfold bvals; rewrite map_length; apply Hl; left; reflexivity).
  cbn [flat_map]. rewrite pick_from_app, Hb. f_equal.
  - apply pick_drop_first.
    + intros E. rewrite E in Hb. simpl in Hb. lia.
    + intros i Hi. rewrite Hb in *. replace i with (k * n + (i - k * n)) by lia.
      rewrite HP by (simpl; lia). f_equal. lia.
  - replace (k * n + n) with (S k * n) by (simpl; lia). apply IH.
    + intros c Hc. apply Hl. right; exact Hc.
    + intros k' j Hj Hk. apply HP; [exact Hj|]. simpl. lia.
Qed.

Lemma flat_map_length_const (bs : list block) n :
  (forall b, In b bs -> length (snd b) = n) -> length (flat_map bvals bs) = length bs * n.
Proof.
  induction bs as [|b bs IH]; intros H; [reflexivity|].
  simpl. rewrite app_length, IH by (intros c Hc; apply H; right; exact Hc).
  unfold bvals. rewrite map_length, H by (left; reflexivity). reflexivity.
Qed.

Definition lefts (bs : list block) : list V := flat_map (fun b => removelast (bvals b)) bs.
Definition rights (bs : list block) : list V := flat_map (fun b => tl (bvals b)) bs.

Lemma shift_equal (bs : list block) n :
  wfb bs -> (forall b, In b bs -> length (snd b) = n) -> shift_raw (flatten bs) = (lefts bs, rights bs).
Proof.
  intros W Hl. assert (Hn := equal_len_pos bs n W Hl).
  unfold shift_raw. rewrite n_timeseries_blocks by exact W.
  rewrite (proj2 (n_timesteps_blocks bs n W) Hl). rewrite to_numpy_flatten.
  destruct (length bs =? 1) eqn:E1.
  - apply Nat.eqb_eq in E1. destruct bs as [|b [|? ?]]; simpl in E1; try lia.
    unfold lefts, rights. simpl. rewrite !app_nil_r. reflexivity.
  - destruct (n =? 2) eqn:E2.
    + apply Nat.eqb_eq in E2. subst n. unfold slice_step, lefts, rights. rewrite !pick_is_pick_from.
      f_equal.
      * apply (pick_blocks_last bs 2 _ Hl Hn 0). intros k' j Hj Hk. lia.
      * apply (pick_blocks_first bs 2 _ Hl Hn 0). intros k' j Hj Hk. lia.
    + unfold np_delete, lefts, rights. rewrite !pick_is_pick_from.
      assert (Hlen := flat_map_length_const bs n Hl). f_equal.
      * apply (pick_blocks_last bs n _ Hl Hn 0). intros k' j Hj Hk.
        rewrite slice_idx; [rewrite last_in_block by lia; reflexivity|exact Hn|].
        rewrite Hlen. nia.
      * apply (pick_blocks_first bs n _ Hl Hn 0). intros k' j Hj Hk.
        rewrite slice_idx; [rewrite first_in_block by lia; reflexivity|exact Hn|].
        rewrite Hlen. nia.
Qed.

(** cumulated counts: unequal lengths, IDs in storage order *)
Definition lens (bs : list block) : list nat := map (fun b => length (snd b)) bs.

Lemma existsb_eqb_in i (l : list nat) : existsb (Nat.eqb i) l = true <-> In i l.
Proof.
  rewrite existsb_exists. split.
  - intros (x & Hx & E). apply Nat.eqb_eq in E. subst x. exact Hx.
  - intros H. exists i. split; [exact H|apply Nat.eqb_refl].
Qed.

Lemma existsb_eqb_notin i (l : list nat) : existsb (Nat.eqb i) l = false <-> ~ In i l.
Proof. rewrite <- existsb_eqb_in. destruct (existsb (Nat.eqb i) l); split; congruence. Qed.

Definition ends (o : nat) (bs : list block) : list nat :=
  map (fun i => i - 1) (cumsum_from o (lens bs)).
Fixpoint begins (o : nat) (bs : list block) : list nat :=
  match bs with [] => [] | b :: r => o :: begins (o + length (snd b)) r end.

Lemma ends_ge bs : forall o i, (forall b, In b bs -> snd b <> []) -> In i (ends o bs) -> o <= i.
Proof.
  induction bs as [|b bs IH]; intros o i Hne Hi; [destruct Hi|].
  unfold ends in *. simpl in Hi.
  assert (1 <= length (snd b)).
  { specialize (Hne b (or_introl eq_refl)). destruct (snd b); simpl; [congruence|lia]. }
  destruct Hi as [<-|Hi]; [lia|].
  apply IH in Hi; [lia|]. intros c Hc. apply Hne. right; exact Hc.
Qed.

Lemma begins_ge bs : forall o i, In i (begins o bs) -> o <= i.
Proof.
  induction bs as [|b bs IH]; intros o i Hi; [destruct Hi|].
  destruct Hi as [<-|Hi]; [lia|]. apply IH in Hi. lia.
Qed.

Lemma pick_ends (bs : list block) : forall o P,
  (forall b, In b bs -> snd b <> []) ->
  (forall i, o <= i -> P i = negb (existsb (Nat.eqb i) (ends o bs))) ->
  pick_from P o (flat_map bvals bs) = lefts bs.
Proof.
  induction bs as [|b bs IH]; intros o P Hne HP; [reflexivity|].
  assert (Hb : 1 <= length (snd b)).
  { specialize (Hne b (or_introl eq_refl)). destruct (snd b); simpl; [congruence|lia]. }
  assert (Hbl : length (bvals b) = length (snd b)) by (unfold bvals; apply map_length).
  assert (Hne' : forall c, In c bs -> snd c <> []) by (intros c Hc; apply Hne; right; exact Hc).
  unfold lefts. cbn [flat_map]. rewrite pick_from_app, Hbl. f_equal.
  - apply pick_drop_last.
    + intros E. rewrite E in Hbl. simpl in Hbl. lia.
    + intros i Hi. rewrite Hbl in *. rewrite HP by lia. f_equal.
      change (ends o (b :: bs)) with ((o + length (snd b) - 1) :: ends (o + length (snd b)) bs).
      cbn [existsb]. replace (existsb (Nat.eqb i) (ends (o + length (snd b)) bs)) with false.
      * apply orb_false_r.
      * symmetry. apply existsb_eqb_notin. intros Hin. apply ends_ge in Hin; [lia|exact Hne'].
  - apply IH; [exact Hne'|]. intros i Hi. rewrite HP by lia. f_equal.
    change (ends o (b :: bs)) with ((o + length (snd b) - 1) :: ends (o + length (snd b)) bs).
    cbn [existsb]. replace (i =? o + length (snd b) - 1) with false by lia. reflexivity.
Qed.

Lemma pick_begins (bs : list block) : forall o P,
  (forall b, In b bs -> snd b <> []) ->
  (forall i, o <= i -> P i = negb (existsb (Nat.eqb i) (begins o bs))) ->
  pick_from P o (flat_map bvals bs) = rights bs.
Proof.
  induction bs as [|b bs IH]; intros o P Hne HP; [reflexivity|].
  assert (Hb : 1 <= length (snd b)).
  { specialize (Hne b (or_introl eq_refl)). destruct (snd b); simpl; [congruence|lia]. }
  assert (Hbl : length (bvals b) = length (snd b)) by (unfold bvals; apply map_length).
  assert (Hne' : forall c, In c bs -> snd c <> []) by (intros c Hc; apply Hne; right; exact Hc).
  unfold rights. cbn [flat_map]. rewrite pick_from_app, Hbl. f_equal.
  - apply pick_drop_first.
    + intros E. rewrite E in Hbl. simpl in Hbl. lia.
    + intros i Hi. rewrite Hbl in *. rewrite HP by lia. f_equal.
      cbn [begins existsb].
      replace (existsb (Nat.eqb i) (begins (o + length (snd b)) bs)) with false.
      * apply orb_false_r.
      * symmetry. apply existsb_eqb_notin. intros Hin. apply begins_ge in Hin. lia.
  - apply IH; [exact Hne'|]. intros i Hi. rewrite HP by lia. f_equal.
    cbn [begins existsb]. replace (i =? o) with false by lia. reflexivity.
Qed.

Lemma begins_cumsum (bs : list block) : forall o,
  removelast (o :: cumsum_from o (lens bs)) = begins o bs.
Proof.
  induction bs as [|b bs IH]; intros o; [reflexivity|].
  cbn [begins]. change (lens (b :: bs)) with (length (snd b) :: lens bs). cbn [cumsum_from].
  change (removelast (o :: o + length (snd b) :: cumsum_from (o + length (snd b)) (lens bs)))
    with (o :: removelast (o + length (snd b) :: cumsum_from (o + length (snd b)) (lens bs))).
  rewrite IH. reflexivity.
Qed.

Lemma shift_unequal (bs : list block) l :
  wfb bs -> IdsSorted (flatten bs) -> n_timesteps (flatten bs) = NSeries l ->
  shift_raw (flatten bs) = (lefts bs, rights bs).
Proof.
  intros W Hs En. unfold shift_raw. rewrite n_timeseries_blocks by exact W. rewrite En.
  assert (Hne : forall b, In b bs -> snd b <> []) by (intros b Hb; apply (wf_blocks _ W b Hb)).
  destruct (length bs =? 1) eqn:E1.
  { exfalso. unfold n_timesteps in En. rewrite n_timeseries_blocks, E1 in En by exact W. discriminate. }
  apply n_timesteps_series in En. subst l. rewrite map_map. cbn [snd].
  assert (El : map (fun i => length (rows_of (flatten bs) i)) (ids (flatten bs)) = lens bs).
  { rewrite ids_sorted_blocks by auto. unfold lens. rewrite map_map. apply map_ext_in.
    intros b Hb. rewrite rows_of_flatten, brows_length; auto. apply (wf_nodup _ W). }
  rewrite El. rewrite to_numpy_flatten.
  unfold np_cumsum, np_delete. cbn [cumsum_from map tl]. rewrite !pick_is_pick_from. f_equal.
  - apply pick_ends; [exact Hne|]. intros i _. reflexivity.
  - apply pick_begins; [exact Hne|]. intros i _. rewrite begins_cumsum. reflexivity.
Qed.

Lemma shift_flatten (bs : list block) :
  wfb bs -> IdsSorted (flatten bs) \/ is_equal_length (flatten bs) = true ->
  shift_raw (flatten bs) = (lefts bs, rights bs).
Proof.
  intros W H. destruct (n_timesteps (flatten bs)) as [n|l] eqn:En.
  - apply (shift_equal bs n W). apply (n_timesteps_blocks bs n W). exact En.
  - destruct H as [H|H]; [apply (shift_unequal bs l W H En)|].
    exfalso. assert (HV := wfb_valid bs W).
    rewrite (is_equal_length_spec _ (vr_nonempty _ HV)) in H.
    assert (Hc : exists n, n_timesteps (flatten bs) = NInt n).
    { destruct bs as [|b bs']; [destruct (wf_ne _ W eq_refl)|].
      exists (length (snd b)). apply (n_timesteps_blocks _ _ W). intros c Hc.
      specialize (H (fst c) (fst b)).
      rewrite !rows_of_flatten, !brows_length in H; auto; try (apply (wf_nodup _ W)); try (left; reflexivity).
      apply H; apply (occurs_block _ _ W); eauto. exists b. split; [left; reflexivity|reflexivity]. }
    destruct Hc as (n & Hc). congruence.
Qed.

Lemma combine_lefts_rights (bs : list block) :
  NoDup (map fst bs) -> (forall b, In b bs -> snd b <> []) ->
  length (lefts bs) = length (rights bs) /\ combine (lefts bs) (rights bs) = snapshot_pairs (flatten bs).
Proof.
  intros Hnd Hne. unfold lefts, rights. split.
  - apply flat_map_length_eq. intros b _. rewrite removelast_length, tl_length. reflexivity.
  - rewrite pairs_flatten by auto. apply combine_flat_map.
    intros b _. rewrite removelast_length, tl_length. reflexivity.
Qed.

Lemma shift_raw_pairs (F : frame) L R :
  ValidRows F -> IdsSorted F \/ is_equal_length F = true ->
  shift_raw F = (L, R) ->
  length L = length R /\ combine L R = snapshot_pairs F.
Proof.
  intros HV H E. destruct (valid_blocks F HV) as (bs & -> & W).
  rewrite (shift_flatten bs W H) in E. injection E as <- <-.
  apply combine_lefts_rights; [apply (wf_nodup _ W)|]. intros b Hb. apply (wf_blocks _ W b Hb).
Qed.

Lemma shift_matrices_pairs (F : frame) k L R :
  ValidRows F -> IdsSorted F \/ is_equal_length F = true ->
  shift_matrices k F = Ok (L, R) ->
  length L = length R /\ combine L R = snapshot_pairs F.
Proof.
  intros HV H E. unfold shift_matrices in E.
  destruct (check_required_min_timesteps F 2); [|discriminate].
  destruct (check_const_time_delta k F); [|discriminate].
  injection E as E. apply shift_raw_pairs; auto.
Qed.

(** success condition *)
Lemma shift_matrices_ok (F : frame) d :
  ValidRows F -> SmallSteps F -> (forall i, Occurs F i -> Regular F i d) ->
  shift_matrices KInt F = Ok (shift_raw F).
Proof.
  intros HV Hs H. unfold shift_matrices.
  rewrite (proj2 (min_timesteps_ok F 2 (vr_nonempty _ HV))).
  2:{ intros i Hi. apply (H i Hi). }
  rewrite (proj2 (const_dt_ok F d HV Hs) H). reflexivity.
Qed.

(** ** from_shift_matrices *)

Definition shift_blocks (t0 t1 : Z) (s : nat) (L R : list V) : list block :=
  map (fun p => (Z.of_nat (fst p), [(t0, fst (snd p)); (t1, snd (snd p))]))
      (combine (seq s (length L)) (combine L R)).

Lemma from_shift_rows t0 t1 (L R : list V) : forall s,
  length L = length R ->
  zip_rows (np_repeat (map Z.of_nat (seq s (length L))) 2) (np_tile [t0; t1] (length L)) (interleave L R)
  = flatten (shift_blocks t0 t1 s L R).
Proof.
  revert R. induction L as [|x L IH]; intros [|y R] s H; simpl in H; try lia; [reflexivity|].
  specialize (IH R (S s) ltac:(lia)). unfold zip_rows, np_repeat, shift_blocks, np_tile in *.
  simpl. simpl in IH. f_equal. f_equal. exact IH.
Qed.

Lemma shift_blocks_fst t0 t1 (L R : list V) s :
  length L = length R -> map fst (shift_blocks t0 t1 s L R) = map Z.of_nat (seq s (length L)).
Proof.
  intros H. unfold shift_blocks. rewrite map_map. cbn [fst].
  rewrite <- (map_map fst Z.of_nat). f_equal. apply map_fst_combine.
  rewrite seq_length, combine_length. lia.
Qed.

Lemma in_shift_blocks t0 t1 (L R : list V) s b :
  In b (shift_blocks t0 t1 s L R) -> exists x y i, b = (Z.of_nat i, [(t0, x); (t1, y)]).
Proof.
  unfold shift_blocks. intros H. apply in_map_iff in H. destruct H as ((i & x & y) & <- & _).
  exists x, y, i. reflexivity.
Qed.

Lemma shift_blocks_wf t0 t1 (L R : list V) :
  L <> [] -> length L = length R -> (0 <= t0 < t1)%Z -> wfb (shift_blocks t0 t1 0 L R).
Proof.
  intros Hne Hl Ht. constructor.
  - intros E. apply (f_equal (map fst)) in E. rewrite shift_blocks_fst in E by exact Hl.
    destruct L; [congruence|discriminate].
  - rewrite shift_blocks_fst by exact Hl. apply FinFun.Injective_map_NoDup.
    + intros a b E. lia.
    + apply seq_NoDup.
  - intros b Hb. apply in_shift_blocks in Hb. destruct Hb as (x & y & i & ->). simpl.
    repeat split; try discriminate; try lia.
    + intros p [<-|[<-|[]]]; simpl; lia.
    + repeat constructor. lia.
Qed.

Lemma from_shift_ok t0 t1 (L R : list V) :
  L <> [] -> length L = length R -> (0 <= t0 < t1)%Z ->
  from_shift_matrices t0 t1 L R = Ok (flatten (shift_blocks t0 t1 0 L R)).
Proof.
  intros Hne Hl Ht. unfold from_shift_matrices. rewrite Hl, Nat.eqb_refl. cbn [negb].
  rewrite <- Hl. unfold np_arange. rewrite from_shift_rows by exact Hl.
  apply tsc_ok. split; [|reflexivity]. apply wfb_valid. apply shift_blocks_wf; auto.
Qed.

Lemma shift_blocks_lr t0 t1 (L R : list V) : forall s,
  length L = length R ->
  lefts (shift_blocks t0 t1 s L R) = L /\ rights (shift_blocks t0 t1 s L R) = R.
Proof.
  revert R. induction L as [|x L IH]; intros [|y R] s H; simpl in H; try lia.
  - split; reflexivity.
  - destruct (IH R (S s)) as [E1 E2]; [lia|].
    unfold lefts, rights, shift_blocks in *. simpl. rewrite E1, E2. auto.
Qed.

Lemma shift_round_trip t0 t1 (L R : list V) F :
  L <> [] -> length L = length R -> (0 <= t0 < t1)%Z ->
  from_shift_matrices t0 t1 L R = Ok F ->
  ValidRows F /\ shift_raw F = (L, R) /\
  ((t1 - t0 < 100000000000)%Z -> shift_matrices KInt F = Ok (L, R)).
Proof.
  intros Hne Hl Ht E. rewrite from_shift_ok in E by auto. injection E as <-.
  assert (W := shift_blocks_wf t0 t1 L R Hne Hl Ht).
  assert (Hlen : forall b, In b (shift_blocks t0 t1 0 L R) -> length (snd b) = 2).
  { intros b Hb. apply in_shift_blocks in Hb. destruct Hb as (x & y & i & ->). reflexivity. }
  assert (Eraw : shift_raw (flatten (shift_blocks t0 t1 0 L R)) = (L, R)).
  { rewrite (shift_equal _ 2 W Hlen).
    destruct (shift_blocks_lr t0 t1 L R 0 Hl) as [-> ->]. reflexivity. }
  assert (HV := wfb_valid _ W). split; [exact HV|]. split; [exact Eraw|].
  intros Hsm. rewrite <- Eraw.
  assert (Hn : (forall a b, Next (flatten (shift_blocks t0 t1 0%nat L R)) a b -> rid a = rid b ->
     rtime b - rtime a = t1 - t0)%Z).
  { intros a b Hn Hid.
    assert (Ho : Occurs (flatten (shift_blocks t0 t1 0 L R)) (rid a)).
    { destruct Hn as (l & r & El). exists a. split; [|reflexivity]. rewrite El.
      apply in_or_app; right; left; reflexivity. }
    apply (occurs_block _ _ W) in Ho. destruct Ho as (c & Hc & Ec).
    assert (Hin : In (rtime b - rtime a)%Z (np_diff (map fst (snd c)))).
    { apply (next_block (shift_blocks t0 t1 0 L R) c); [apply (wf_nodup _ W)|exact Hc|].
      exists a, b. repeat split; auto; congruence. }
    apply in_shift_blocks in Hc. destruct Hc as (x & y & i & ->). simpl in Hin.
    destruct Hin as [<-|[]]. lia. }
  apply (shift_matrices_ok _ (t1 - t0)%Z).
  - exact HV.
  - intros a b Hab Hid. rewrite Hn; auto.
  - intros i Hi. split.
    + apply (occurs_block _ _ W) in Hi. destruct Hi as (c & Hc & <-).
      rewrite rows_of_flatten, brows_length, Hlen; auto. apply (wf_nodup _ W).
    + intros a b Hab Ha Hb. apply Hn; [exact Hab|congruence].
Qed.

End Shift.
