(** * Proofs about constructors and row selection: from_tensor, insert_ts,
    initial/final states, windows, train/test IDs. *)

From Coq Require Import List ZArith Bool Arith Lia Sorted Permutation.
From Coq Require Import ZifyBool ZifyNat.
Import ListNotations.
From Verif Require Import Np NpFacts TscModel TscSpec TscBlocks TscProofs TscDt TscShift.
Close Scope Z_scope.
Open Scope nat_scope.

Section Ops.
Context {V : Type}.
Notation frame := (list (row V)).
Notation block := (Z * list (Z * V))%type.

(** ** insert_ts *)

Lemma series_rows_flatten i (s : list (Z * V)) : flatten [(i, s)] = series_rows i s.
Proof. unfold flatten. simpl. apply app_nil_r. Qed.

Lemma rows_of_series_rows i j (s : list (Z * V)) :
  rows_of (series_rows i s) j = if (i =? j)%Z then series_rows i s else [].
Proof.
  unfold rows_of, series_rows. destruct (i =? j)%Z eqn:E.
  - apply filter_all_true. intros x Hx. apply in_map_iff in Hx. destruct Hx as (p & <- & _). exact E.
  - apply filter_all_false. intros x Hx. apply in_map_iff in Hx. destruct Hx as (p & <- & _). exact E.
Qed.

Lemma NoDup_snoc {A} (l : list A) x : NoDup l -> ~ In x l -> NoDup (l ++ [x]).
Proof.
  intros H Hx. apply (Permutation_NoDup (l := x :: l)).
  - apply Permutation_cons_append.
  - constructor; assumption.
Qed.

Lemma insert_valid (F : frame) i (s : list (Z * V)) :
  ValidRows F -> ~ Occurs F i -> (0 <= i)%Z -> GoodSeries s -> ValidRows (F ++ series_rows i s).
Proof.
  intros HV Hf Hi (Hne & Ht & Hs). destruct (valid_blocks F HV) as (bs & -> & W).
  rewrite <- series_rows_flatten, <- flatten_app. apply wfb_valid. constructor.
  - destruct bs; discriminate.
  - rewrite map_app. simpl. apply NoDup_snoc; [apply (wf_nodup _ W)|].
    intros Hin. apply Hf. apply (occurs_block _ _ W). apply in_map_iff in Hin.
    destruct Hin as (b & E & Hb). exists b; auto.
  - intros b Hb. apply in_app_or in Hb. destruct Hb as [Hb|[<-|[]]].
    + apply (wf_blocks _ W b Hb).
    + simpl. auto.
Qed.

Lemma insert_valid_inv (F : frame) i (s : list (Z * V)) :
  s <> [] -> ~ Occurs F i ->
  ValidRows (F ++ series_rows i s) -> (0 <= i)%Z /\ GoodSeries s.
Proof.
  intros Hne Hf HV. split.
  - destruct s as [|p s]; [congruence|]. apply (vr_ids _ HV (mkRow i (fst p) (snd p))).
    apply in_or_app. right. left. reflexivity.
  - split; [exact Hne|]. split.
    + intros p Hp. apply (vr_times _ HV (mkRow i (fst p) (snd p))).
      apply in_or_app. right. apply in_map_iff. exists p; auto.
    + assert (H := times_of_sorted _ i HV). unfold times_of in H.
      rewrite rows_of_app, rows_of_series_rows, Z.eqb_refl, map_app in H.
      assert (E : rows_of F i = []).
      { apply filter_all_false. intros r Hr. destruct (rid r =? i)%Z eqn:E; [|reflexivity].
        exfalso. apply Hf. exists r. split; [exact Hr|lia]. }
      rewrite E in H. simpl in H. unfold series_rows in H. rewrite map_map in H. exact H.
Qed.

Lemma existsb_ids (F : frame) i : existsb (Z.eqb i) (ids F) = true <-> Occurs F i.
Proof.
  rewrite <- in_ids, existsb_exists. split.
  - intros (x & Hx & E). replace i with x by lia. exact Hx.
  - intros H. exists i. split; [exact H|lia].
Qed.

Lemma zmax_fresh (F : frame) : F <> [] -> ~ Occurs F (zmax (ids F) + 1)%Z.
Proof.
  intros Hne H. apply in_ids in H. unfold zmax in H.
  destruct (ids F) as [|x r] eqn:E; [destruct H|].
  apply zmax_ge in H. lia.
Qed.

Lemma insert_ts_ok (F : frame) s o G :
  ValidRows F -> s <> [] ->
  insert_ts F s o = Ok G <->
  (~ Occurs F (chosen_id F o) /\ (0 <= chosen_id F o)%Z /\ GoodSeries s
   /\ G = F ++ series_rows (chosen_id F o) s).
Proof.
  intros HV Hne. unfold insert_ts. fold (chosen_id F o). set (i := chosen_id F o).
  destruct (existsb (Z.eqb i) (ids F)) eqn:E.
  - split; [discriminate|]. intros (H & _). rewrite existsb_ids in E. contradiction.
  - assert (Hf : ~ Occurs F i) by (rewrite <- existsb_ids; congruence).
    rewrite tsc_ok. split.
    + intros [H ->]. apply insert_valid_inv in H; tauto.
    + intros (_ & Hi & Hs & ->). split; [|reflexivity]. apply insert_valid; auto.
Qed.

Lemma insert_ts_present (F : frame) s i : Occurs F i -> insert_ts F s (Some i) = Err ValueError.
Proof. intros H. unfold insert_ts. rewrite <- existsb_ids in H. rewrite H. reflexivity. Qed.

Lemma max_id_spec (F : frame) : F <> [] ->
  Occurs F (zmax (ids F)) /\ (forall j, Occurs F j -> (j <= zmax (ids F))%Z).
Proof.
  intros Hne. assert (H := ids_nonempty F Hne). split.
  - apply in_ids. unfold zmax. destruct (ids F) as [|x r]; [congruence|].
    clear. revert x. induction r as [|y r IH]; intros x; [left; reflexivity|].
    simpl. destruct (IH (Z.max x y)) as [E|E].
    + rewrite <- E. destruct (Z.max_spec x y) as [[_ ->]|[_ ->]]; auto.
    + right; right; exact E.
  - intros j Hj. apply in_ids in Hj. unfold zmax. destruct (ids F) as [|x r]; [congruence|].
    apply zmax_ge. exact Hj.
Qed.

Lemma insert_nonempty_df (F : frame) o G : ValidRows F -> insert_ts F [] o = Ok G -> G = F.
Proof.
  intros HV. unfold insert_ts. destruct (existsb _ _); [discriminate|].
  rewrite tsc_ok. simpl. rewrite app_nil_r. tauto.
Qed.

Lemma insert_step (F : frame) s o G :
  ValidRows F -> insert_ts F s o = Ok G ->
  ValidRows G /\ ~ Occurs F (chosen_id F o) /\ G = F ++ series_rows (chosen_id F o) s.
Proof.
  intros HV. unfold insert_ts. fold (chosen_id F o).
  destruct (existsb (Z.eqb (chosen_id F o)) (ids F)) eqn:E; [discriminate|].
  rewrite tsc_ok. intros [H ->]. split; [exact H|]. split; [|reflexivity].
  rewrite <- existsb_ids. congruence.
Qed.

Lemma insert_all_spec ops : forall (F G : frame) log,
  ValidRows F -> insert_all F ops = Ok (G, log) ->
  ValidRows G /\ map snd log = map fst ops /\
  G = F ++ flat_map (fun p => series_rows (fst p) (snd p)) log /\
  (forall i s, In (i, s) log -> s <> [] -> rows_of G i = series_rows i s) /\
  (forall i, Occurs F i -> rows_of G i = rows_of F i) /\
  (forall i s, In (i, s) log -> s <> [] -> ~ Occurs F i).
Proof.
  induction ops as [|[s o] r IH]; intros F G log HV E.
  - injection E as <- <-. simpl. rewrite app_nil_r.
    do 5 (split; [first [assumption | reflexivity | intros; contradiction]|]). intros; contradiction.
  - cbn [insert_all] in E. destruct (insert_ts F s o) as [F'|] eqn:Ei; [|discriminate].
    destruct (insert_all F' r) as [[H lg]|] eqn:Er; [|discriminate].
    injection E as <- <-. destruct (insert_step F s o F' HV Ei) as (HV' & Hf & EF').
    set (i0 := chosen_id F o) in *.
    destruct (IH F' H lg HV' Er) as (HVH & Hm & EH & Hin & Hold & Hfresh).
    split; [exact HVH|]. split; [simpl; congruence|]. split.
    { simpl. rewrite EH, EF', <- app_assoc. reflexivity. }
    assert (Hocc' : forall i, Occurs F i -> Occurs F' i).
    { intros i (x & Hx & Ex). exists x. split; [|exact Ex]. rewrite EF'. apply in_or_app; left; exact Hx. }
    assert (EF'i : rows_of F' i0 = series_rows i0 s).
    { rewrite EF', rows_of_app, rows_of_series_rows, Z.eqb_refl.
      replace (rows_of F i0) with (@nil (row V)); [reflexivity|].
      symmetry. apply filter_all_false. intros x Hx. destruct (rid x =? i0)%Z eqn:Ex; [|reflexivity].
      exfalso. apply Hf. exists x. split; [exact Hx|lia]. }
    split; [|split].
    + intros i s' [Eq|Hi] Hne.
      * injection Eq as <- <-. rewrite Hold; [exact EF'i|].
        destruct s as [|p s]; [congruence|]. exists (mkRow i0 (fst p) (snd p)). split; [|reflexivity].
        rewrite EF'. apply in_or_app. right; left; reflexivity.
      * apply Hin; auto.
    + intros i Hi. rewrite Hold by auto. rewrite EF', rows_of_app, rows_of_series_rows.
      replace (i0 =? i)%Z with false; [apply app_nil_r|].
      symmetry. apply Z.eqb_neq. intros <-. contradiction.
    + intros i s' [Eq|Hi] Hne.
      * injection Eq as <- <-. exact Hf.
      * intros Ho. apply (Hfresh i s' Hi Hne). auto.
Qed.

(** ** initial_states / final_states *)

Lemma np_count_brows (b : block) i : np_count (ids_index (brows b)) i = if (i =? fst b)%Z then length (snd b) else 0.
Proof. rewrite ids_brows, np_count_repeat. reflexivity. Qed.

Lemma head_aux_series n i (s : list (Z * V)) (rest : frame) : forall before,
  head_aux n before (series_rows i s ++ rest)
  = series_rows i (firstn (n - np_count before i) s)
    ++ head_aux n (rev (map (fun _ => i) s) ++ before) rest.
Proof.
  induction s as [|p s IH]; intros before.
  - simpl. rewrite firstn_nil. reflexivity.
  - cbn [series_rows map app head_aux rid].
    specialize (IH (i :: before)). cbn [series_rows] in IH.
    unfold series_rows in IH. rewrite np_count_cons, Z.eqb_refl in IH.
    simpl rev. rewrite <- app_assoc. simpl app.
    destruct (np_count before i <? n) eqn:E.
    + replace (n - np_count before i) with (S (n - S (np_count before i))) by lia.
      simpl. f_equal. exact IH.
    + replace (n - np_count before i) with 0 by lia. simpl.
      assert (E0 : n - S (np_count before i) = 0) by lia.
      change (1 + np_count before i) with (S (np_count before i)) in IH. rewrite E0 in IH. exact IH.
Qed.

Lemma head_aux_flatten n (bs : list block) : forall before,
  NoDup (map fst bs) -> (forall b, In b bs -> ~ In (fst b) before) ->
  head_aux n before (flatten bs) = flatten (map (fun b => (fst b, firstn n (snd b))) bs).
Proof.
  induction bs as [|b bs IH]; intros before Hnd Hb; [reflexivity|].
  inversion Hnd as [|? ? Hni Hnd']; subst.
  rewrite flatten_cons. unfold brows. rewrite head_aux_series.
  rewrite np_count_zero by (apply Hb; left; reflexivity). rewrite Nat.sub_0_r.
  cbn [map]. rewrite flatten_cons. f_equal. apply IH; [exact Hnd'|].
  intros c Hc Hin. apply in_app_or in Hin. destruct Hin as [Hin|Hin].
  - apply in_rev, in_map_iff in Hin. destruct Hin as (? & E & _). apply Hni. rewrite E. apply in_map. exact Hc.
  - apply (Hb c); [right; exact Hc|exact Hin].
Qed.

Lemma tail_series n i (s : list (Z * V)) (rest : frame) :
  (forall r, In r rest -> rid r <> i) ->
  groupby_tail n (series_rows i s ++ rest)
  = series_rows i (skipn (length s - n) s) ++ groupby_tail n rest.
Proof.
  intros Hr. induction s as [|p s IH]; [reflexivity|].
  cbn [series_rows map app groupby_tail rid]. fold (series_rows i s).
  rewrite ids_index_app, np_count_app.
  assert (E1 : np_count (ids_index (series_rows i s)) i = length s).
  { change (series_rows i s) with (brows (i, s)). rewrite np_count_brows. simpl. rewrite Z.eqb_refl. reflexivity. }
  assert (E2 : np_count (ids_index rest) i = 0).
  { apply np_count_zero. intros Hin. apply in_map_iff in Hin. destruct Hin as (r & Er & Hin). apply (Hr r Hin Er). }
  rewrite E1, E2, Nat.add_0_r, IH. cbn [length].
  destruct (length s <? n) eqn:E.
  - replace (S (length s) - n) with 0 by lia. replace (length s - n) with 0 by lia. reflexivity.
  - replace (S (length s) - n) with (S (length s - n)) by lia. reflexivity.
Qed.

Lemma tail_flatten n (bs : list block) :
  NoDup (map fst bs) ->
  groupby_tail n (flatten bs) = flatten (map (fun b => (fst b, skipn (length (snd b) - n) (snd b))) bs).
Proof.
  induction bs as [|b bs IH]; intros Hnd; [reflexivity|].
  inversion Hnd as [|? ? Hni Hnd']; subst.
  rewrite flatten_cons. unfold brows. rewrite tail_series.
  - rewrite IH by exact Hnd'. reflexivity.
  - intros r Hr E. apply Hni. rewrite <- E. apply in_flatten_id. exact Hr.
Qed.

Lemma StronglySorted_firstn n : forall l : list Z, StronglySorted Z.lt l -> StronglySorted Z.lt (firstn n l).
Proof.
  induction n as [|n IH]; intros [|x l] H; simpl; try (constructor; fail).
  constructor.
  - apply IH. inversion H; assumption.
  - inversion H as [|? ? _ Hf]; subst. rewrite Forall_forall in *. intros y Hy. apply Hf.
    rewrite <- (firstn_skipn n l). apply in_or_app; left; exact Hy.
Qed.

Lemma StronglySorted_skipn n : forall l : list Z, StronglySorted Z.lt l -> StronglySorted Z.lt (skipn n l).
Proof.
  induction n as [|n IH]; intros [|x l] H; simpl; try assumption.
  apply IH. inversion H; assumption.
Qed.

Lemma sub_wf (f : list (Z * V) -> list (Z * V)) (bs : list block) :
  wfb bs ->
  (forall b, In b bs -> f (snd b) <> []) ->
  (forall s p, In p (f s) -> In p s) ->
  (forall s, StronglySorted Z.lt (map fst s) -> StronglySorted Z.lt (map fst (f s))) ->
  wfb (map (fun b => (fst b, f (snd b))) bs).
Proof.
  intros W Hne Hin Hs. constructor.
  - destruct bs; [exfalso; apply (wf_ne _ W); reflexivity|discriminate].
  - rewrite map_map. apply (wf_nodup _ W).
  - intros c Hc. apply in_map_iff in Hc. destruct Hc as (b & <- & Hb). simpl.
    destruct (wf_blocks _ W b Hb) as (H1 & H2 & H3 & H4). repeat split; auto.
Qed.

Lemma in_firstn {A} n (l : list A) x : In x (firstn n l) -> In x l.
Proof. intros H. rewrite <- (firstn_skipn n l). apply in_or_app; left; exact H. Qed.
Lemma in_skipn {A} n (l : list A) x : In x (skipn n l) -> In x l.
Proof. intros H. rewrite <- (firstn_skipn n l). apply in_or_app; right; exact H. Qed.

Lemma subseq_nil (F : frame) : Subseq [] F.
Proof. induction F; constructor; assumption. Qed.

Lemma subseq_refl (F : frame) : Subseq F F.
Proof. induction F; constructor; assumption. Qed.

Lemma subseq_app (G1 F1 G2 F2 : frame) : Subseq G1 F1 -> Subseq G2 F2 -> Subseq (G1 ++ G2) (F1 ++ F2).
Proof. intros H1 H2. induction H1; simpl; [exact H2| |]; constructor; assumption. Qed.

Lemma subseq_firstn n (F : frame) : Subseq (firstn n F) F.
Proof. rewrite <- (firstn_skipn n F) at 2. rewrite <- (app_nil_r (firstn n F)) at 1.
  apply subseq_app; [apply subseq_refl|apply subseq_nil]. Qed.

Lemma subseq_skipn n (F : frame) : Subseq (skipn n F) F.
Proof. rewrite <- (firstn_skipn n F) at 2. rewrite <- (app_nil_l (skipn n F)) at 1.
  apply subseq_app; [apply subseq_nil|apply subseq_refl]. Qed.

Lemma series_rows_firstn n i (s : list (Z * V)) : series_rows i (firstn n s) = firstn n (series_rows i s).
Proof. unfold series_rows. rewrite firstn_map. reflexivity. Qed.
Lemma series_rows_skipn n i (s : list (Z * V)) : series_rows i (skipn n s) = skipn n (series_rows i s).
Proof. unfold series_rows. rewrite skipn_map. reflexivity. Qed.

Lemma sub_flatten (f : list (Z * V) -> list (Z * V)) (bs : list block) :
  (forall i s, Subseq (series_rows i (f s)) (series_rows i s)) ->
  Subseq (flatten (map (fun b => (fst b, f (snd b))) bs)) (flatten bs).
Proof.
  intros H. induction bs as [|b bs IH]; [constructor|].
  cbn [map]. rewrite !flatten_cons. apply subseq_app; [apply H|exact IH].
Qed.

Lemma min_steps_blocks (bs : list block) n :
  wfb bs -> check_required_min_timesteps (flatten bs) n = Ok tt -> forall b, In b bs -> n <= length (snd b).
Proof.
  intros W H b Hb. rewrite (min_timesteps_ok _ _ (vr_nonempty _ (wfb_valid _ W))) in H.
  specialize (H (fst b)). rewrite rows_of_flatten, brows_length in H; auto; [|apply (wf_nodup _ W)].
  apply H. apply (occurs_block _ _ W). exists b; auto.
Qed.

Lemma rows_of_sub (f : list (Z * V) -> list (Z * V)) (bs : list block) i :
  NoDup (map fst bs) -> (forall s, In s (map snd bs) -> True) -> f [] = [] ->
  rows_of (flatten (map (fun b => (fst b, f (snd b))) bs)) i
  = series_rows i (f (map (fun r => (rtime r, rval r)) (rows_of (flatten bs) i))).
Proof.
  intros Hnd _ Hf. destruct (in_dec Z.eq_dec i (map fst bs)) as [Hi|Hi].
  - apply in_map_iff in Hi. destruct Hi as (b & <- & Hb).
    rewrite (rows_of_flatten bs b) by auto.
    assert (Eb := rows_of_flatten (map (fun b => (fst b, f (snd b))) bs) (fst b, f (snd b))).
    cbn [fst] in Eb. rewrite Eb.
    + unfold brows. simpl. f_equal. f_equal. unfold series_rows. rewrite map_map. simpl.
      rewrite (map_ext _ (fun x => x)); [symmetry; apply map_id|]. intros [? ?]; reflexivity.
    + rewrite map_map. exact Hnd.
    + apply in_map_iff. exists b; auto.
  - rewrite !rows_of_notin; auto.
    + simpl. rewrite Hf. reflexivity.
    + rewrite map_map. exact Hi.
Qed.

Lemma series_rows_of_rows i (F : frame) :
  (forall r, In r F -> rid r = i) -> series_rows i (map (fun r => (rtime r, rval r)) F) = F.
Proof.
  intros H. unfold series_rows. rewrite map_map. simpl. rewrite <- (map_id F) at 2.
  apply map_ext_in. intros r Hr. rewrite <- (H r Hr). apply row_eta.
Qed.

Lemma rid_rows_of (F : frame) i r : In r (rows_of F i) -> rid r = i.
Proof. intros H. apply filter_In in H. destruct H as [_ H]. lia. Qed.

Lemma initial_states_spec (F : frame) n :
  ValidRows F -> 1 <= n -> (forall i, Occurs F i -> n <= length (rows_of F i)) ->
  exists G, initial_states F n = Ok G /\ ValidRows G /\ Subseq G F /\
            forall i, rows_of G i = firstn n (rows_of F i).
Proof.
  intros HV Hn Hl. destruct (valid_blocks F HV) as (bs & -> & W).
  exists (flatten (map (fun b => (fst b, firstn n (snd b))) bs)).
  assert (Hm : check_required_min_timesteps (flatten bs) n = Ok tt)
    by (apply (min_timesteps_ok _ _ (vr_nonempty _ HV)); exact Hl).
  assert (W' : wfb (map (fun b => (fst b, firstn n (snd b))) bs)).
  { apply (sub_wf (firstn n)); auto.
    - intros b Hb E. assert (Hlb := min_steps_blocks bs n W Hm b Hb).
      apply (f_equal (@length _)) in E. rewrite firstn_length in E. simpl in E. lia.
    - intros s p. apply in_firstn.
    - intros s Hs. rewrite <- firstn_map. apply StronglySorted_firstn. exact Hs. }
  split; [|split; [|split]].
  - unfold initial_states. replace (n <? 1) with false by lia. rewrite Hm.
    apply tsc_ok. unfold groupby_head.
    rewrite head_aux_flatten; [|apply (wf_nodup _ W)|intros b _ []].
    split; [apply wfb_valid; exact W'|reflexivity].
  - apply wfb_valid. exact W'.
  - apply (sub_flatten (firstn n)). intros i s. rewrite series_rows_firstn. apply subseq_firstn.
  - intros i. rewrite (rows_of_sub (firstn n)); [|apply (wf_nodup _ W)|auto|apply firstn_nil].
    rewrite series_rows_firstn. f_equal. apply series_rows_of_rows. apply rid_rows_of.
Qed.

Lemma final_states_spec (F : frame) n :
  ValidRows F -> 1 <= n -> (forall i, Occurs F i -> n <= length (rows_of F i)) ->
  exists G, final_states F n = Ok G /\ ValidRows G /\ Subseq G F /\
            forall i, rows_of G i = skipn (length (rows_of F i) - n) (rows_of F i).
Proof.
  intros HV Hn Hl. destruct (valid_blocks F HV) as (bs & -> & W).
  set (f := fun s : list (Z * V) => skipn (length s - n) s).
  exists (flatten (map (fun b => (fst b, f (snd b))) bs)).
  assert (Hm : check_required_min_timesteps (flatten bs) n = Ok tt)
    by (apply (min_timesteps_ok _ _ (vr_nonempty _ HV)); exact Hl).
  assert (W' : wfb (map (fun b => (fst b, f (snd b))) bs)).
  { apply (sub_wf f); auto; unfold f.
    - intros b Hb E. assert (Hlb := min_steps_blocks bs n W Hm b Hb).
      apply (f_equal (@length _)) in E. rewrite skipn_length in E. simpl in E. lia.
    - intros s p. apply in_skipn.
    - intros s Hs. rewrite <- skipn_map. apply StronglySorted_skipn. exact Hs. }
  split; [|split; [|split]].
  - unfold final_states. replace (n <? 1) with false by lia. rewrite Hm.
    apply tsc_ok. rewrite tail_flatten by apply (wf_nodup _ W).
    split; [apply wfb_valid; exact W'|reflexivity].
  - apply wfb_valid. exact W'.
  - apply (sub_flatten f). intros i s. unfold f. rewrite series_rows_skipn. apply subseq_skipn.
  - intros i. rewrite (rows_of_sub f); [|apply (wf_nodup _ W)|auto|reflexivity].
    unfold f. rewrite map_length, series_rows_skipn. f_equal.
    apply series_rows_of_rows. apply rid_rows_of.
Qed.

Lemma states_rejected (F : frame) n i :
  F <> [] -> Occurs F i -> length (rows_of F i) < n -> 1 <= n ->
  initial_states F n = Err TSCException /\ final_states F n = Err TSCException.
Proof.
  intros Hne Ho Hl Hn. unfold initial_states, final_states. replace (n <? 1) with false by lia.
  assert (Hm : check_required_min_timesteps F n <> Ok tt).
  { rewrite (min_timesteps_ok _ _ Hne). intros H. specialize (H i Ho). lia. }
  unfold check_required_min_timesteps in *. destruct (existsb _ _); [auto|congruence].
Qed.

(** ** windows *)

Lemma NoDup_app_r {A} (l1 l2 : list A) : NoDup (l1 ++ l2) -> NoDup l2.
Proof. induction l1 as [|x l1 IH]; intros H; [exact H|]. inversion H; auto. Qed.

Lemma window_loop_spec w o (tv : list Z) : 1 <= w -> 1 <= o ->
  forall fuel j, length tv < fuel + j * o ->
  window_loop fuel (j * o) w o tv
  = map (fun j => firstn w (skipn (j * o) tv))
        (filter (fun j => j * o + w <=? length tv) (seq j fuel)).
Proof.
  intros Hw Ho. induction fuel as [|fuel IH]; intros j Hf; [reflexivity|].
  cbn [window_loop seq filter].
  replace (j * o + o) with (S j * o) by lia.
  destruct (j * o + w <=? length tv) eqn:E.
  - cbn [map]. f_equal. apply IH. simpl. lia.
  - symmetry. assert (Hnone : forall l, (forall x, In x l -> j <= x) ->
       filter (fun j0 => j0 * o + w <=? length tv) l = []).
    { intros l Hl. apply filter_all_false. intros x Hx. specialize (Hl x Hx). nia. }
    rewrite Hnone; [reflexivity|]. intros x Hx. apply in_seq in Hx. lia.
Qed.

Lemma filter_seq_cut (P : nat -> bool) n m s :
  n <= m -> (forall x, s + n <= x -> P x = false) -> filter P (seq s m) = filter P (seq s n).
Proof.
  intros H HP. replace m with (n + (m - n)) by lia. rewrite seq_app, filter_app.
  rewrite (filter_all_false P (seq (s + n) (m - n))); [apply app_nil_r|].
  intros x Hx. apply in_seq in Hx. apply HP. lia.
Qed.

Lemma window_loop_full w o (tv : list Z) : 1 <= w -> 1 <= o ->
  window_loop (S (length tv)) 0 w o tv = full_windows w o tv.
Proof.
  intros Hw Ho. unfold full_windows.
  change 0 with (0 * o) at 1. rewrite window_loop_spec by (auto; lia). f_equal.
  apply filter_seq_cut; [lia|]. intros x Hx. nia.
Qed.

(** one series: selecting the times of a window selects the window of rows *)
Lemma select_window_series i (s : list (Z * V)) w k :
  StronglySorted Z.lt (map fst s) ->
  select_time_values (series_rows i s) (firstn w (skipn k (map fst s)))
  = firstn w (skipn k (series_rows i s)).
Proof.
  intros Hs. unfold select_time_values.
  assert (Hnd := sorted_lt_NoDup _ Hs).
  rewrite <- (firstn_skipn k s) at 1. rewrite <- (firstn_skipn w (skipn k s)) at 1.
  unfold series_rows. rewrite !map_app, !filter_app.
  set (A := firstn k s). set (B := firstn w (skipn k s)). set (C := skipn w (skipn k s)).
  assert (Es : s = A ++ B ++ C) by (unfold A, B, C; rewrite !firstn_skipn; reflexivity).
  assert (Et : firstn w (skipn k (map fst s)) = map fst B)
    by (unfold B; rewrite skipn_map, firstn_map; reflexivity).
  rewrite Et. rewrite Es, !map_app in Hnd.
  assert (HA : forall x, In x (map fst A) -> ~ In x (map fst B)).
  { intros x Hx Hy. apply in_split in Hx. destruct Hx as (l1 & l2 & El). rewrite El in Hnd.
    rewrite <- app_assoc in Hnd. simpl in Hnd. apply NoDup_remove_2 in Hnd. apply Hnd.
    apply in_or_app; right. apply in_or_app; right. apply in_or_app; left. exact Hy. }
  assert (HC : forall x, In x (map fst C) -> ~ In x (map fst B)).
  { intros x Hx Hy. apply NoDup_app_r in Hnd.
    apply in_split in Hx. destruct Hx as (l1 & l2 & El). rewrite El in Hnd.
    rewrite app_assoc in Hnd. apply NoDup_remove_2 in Hnd. apply Hnd.
    apply in_or_app; left. apply in_or_app; left. exact Hy. }
  assert (Hout : forall l : list (Z * V), (forall x, In x (map fst l) -> ~ In x (map fst B)) ->
    filter (fun r => existsb (Z.eqb (rtime r)) (map fst B)) (map (fun p => mkRow i (fst p) (snd p)) l) = []).
  { intros l Hl. apply filter_all_false. intros r Hr. apply in_map_iff in Hr.
    destruct Hr as (p & <- & Hp). simpl.
    destruct (existsb (Z.eqb (fst p)) (map fst B)) eqn:E; [|reflexivity].
    apply existsb_exists in E. destruct E as (y & Hy & E). apply Z.eqb_eq in E. subst y.
    exfalso. apply (Hl (fst p)); [apply in_map; exact Hp|exact Hy]. }
  rewrite (Hout A HA), (Hout C HC), app_nil_r. simpl.
  rewrite filter_all_true.
  - unfold B. rewrite <- firstn_map, <- skipn_map. reflexivity.
  - intros r Hr. apply in_map_iff in Hr. destruct Hr as (p & <- & Hp). simpl.
    apply existsb_exists. exists (fst p). split; [apply in_map; exact Hp|apply Z.eqb_refl].
Qed.

Lemma full_windows_map {A B} (f : A -> B) w o (l : list A) :
  full_windows w o (map f l) = map (map f) (full_windows w o l).
Proof.
  unfold full_windows. rewrite map_length, map_map. apply map_ext. intros j.
  rewrite skipn_map, firstn_map. reflexivity.
Qed.

Lemma combine_tl_next (F : frame) a b : In (a, b) (combine F (tl F)) -> Next F a b.
Proof.
  induction F as [|x F IH]; [intros []|]. cbn [tl]. destruct F as [|y F]; [intros []|]. intros [E|H].
  - injection E as <- <-. exists [], F. reflexivity.
  - destruct (IH H) as (l & r & ->). exists (x :: l), r. reflexivity.
Qed.

Lemma next_before (F : frame) a b : Next F a b -> Before F a b.
Proof. intros (l & r & ->). exists l, [], r. reflexivity. Qed.

Lemma sorted_lexsorted (F : frame) : TimeIncreasing F -> IdsSorted F -> is_lexsorted F = true.
Proof.
  intros HT HS. unfold is_lexsorted. apply forallb_forall. intros [a b] H. apply combine_tl_next, next_before in H.
  assert (H1 := HS a b H). assert (H2 := HT a b H). unfold row_le. cbn [fst snd] in *.
  destruct (Z.eq_dec (rid a) (rid b)) as [E|E]; [specialize (H2 E)|]; lia.
Qed.

Lemma select_times_sorted (F : frame) ts : is_lexsorted F = true -> select_times F ts = select_time_values F ts.
Proof. intros H. unfold select_times. rewrite H. reflexivity. Qed.

Lemma before_filter (P : row V -> bool) (F : frame) a b : Before (filter P F) a b -> Before F a b.
Proof.
  intros (l & m & r & E). revert l E. induction F as [|x F IH]; intros l E; cbn in E.
  - destruct l; discriminate.
  - destruct (P x).
    + destruct l as [|y l].
      * injection E as -> E. assert (Hb : In b F).
        { assert (H : In b (filter P F)) by (rewrite E; apply in_or_app; right; left; reflexivity).
          apply filter_In in H. apply H. }
        apply in_split in Hb. destruct Hb as (m' & r' & ->). exists [], m', r'. reflexivity.
      * injection E as -> E. destruct (IH l E) as (l' & m' & r' & ->). exists (y :: l'), m', r'. reflexivity.
    + destruct (IH l E) as (l' & m' & r' & ->). exists (x :: l'), m', r'. reflexivity.
Qed.

Lemma before_in (F : frame) a b : Before F a b -> In a F /\ In b F.
Proof.
  intros (l & m & r & ->). split; apply in_or_app; right; [left; reflexivity|]. right. apply in_or_app. right. left. reflexivity.
Qed.

Lemma rows_of_lexsorted (F : frame) i : ValidRows F -> is_lexsorted (rows_of F i) = true.
Proof.
  intros HV. apply sorted_lexsorted.
  - intros a b H. apply (vr_inc F HV). exact (before_filter _ F a b H).
  - intros a b H. apply before_in in H. destruct H as [Ha Hb]. apply filter_In in Ha, Hb. lia.
Qed.

Lemma windows_of_series (F : frame) i w o :
  ValidRows F -> 1 <= w -> 1 <= o ->
  windows_of (group F i) w o = full_windows w o (rows_of F i).
Proof.
  intros HV Hw Ho. unfold windows_of.
  change (group F i) with (rows_of F i).
  rewrite (map_ext _ (select_time_values (rows_of F i))) by (intros ts; apply select_times_sorted, rows_of_lexsorted; exact HV).
  set (s := map (fun r => (rtime r, rval r)) (rows_of F i)).
  assert (Es : rows_of F i = series_rows i s).
  { symmetry. apply series_rows_of_rows. apply rid_rows_of. }
  assert (Hsort : StronglySorted Z.lt (map fst s)).
  { unfold s. rewrite map_map. simpl. apply (times_of_sorted F i HV). }
  assert (Et : time_values (rows_of F i) = map fst s).
  { unfold time_values. rewrite Es. change (series_rows i s) with (brows (i, s)).
    rewrite times_brows. simpl. apply np_unique_of_sorted. exact Hsort. }
  rewrite Et, window_loop_full by auto. rewrite Es.
  unfold full_windows, series_rows. rewrite !map_length, map_map. apply map_ext. intros j.
  apply select_window_series. exact Hsort.
Qed.

Lemma iter_windows_per_series (F : frame) w o k :
  ValidRows F -> (0 < w)%Z -> (0 < o)%Z ->
  forall d, check_const_time_delta k F = Ok d ->
  iter_timevalue_window k F w o true
  = Ok (flat_map (fun i => full_windows (Z.to_nat w) (Z.to_nat o) (rows_of F i)) (ids F)).
Proof.
  intros HV Hw Ho d Hd. unfold iter_timevalue_window. rewrite Hd.
  replace ((w <=? 0)%Z || (o <=? 0)%Z) with false by lia. f_equal.
  apply flat_map_ext. intros i. apply windows_of_series; auto; lia.
Qed.

Lemma lexsorted_iff (F : frame) : is_lexsorted F = true -> IdsSorted F.
Proof.
  unfold is_lexsorted, IdsSorted. rewrite forallb_forall. intros H a b (l & m & r & ->).
  assert (HN : forall x y, Next (l ++ a :: m ++ b :: r) x y -> (rid x <= rid y)%Z).
  { intros x y (p & q & E). rewrite E in H.
    assert (Hin : In (x, y) (combine (p ++ x :: y :: q) (tl (p ++ x :: y :: q)))).
    { clear. induction p as [|z p IH]; [left; reflexivity|]. destruct p as [|z' p]; simpl in *.
      - right; left; reflexivity.
      - right. exact IH. }
    specialize (H _ Hin). unfold row_le in H. simpl in H. lia. }
  clear H. revert l a HN. induction m as [|c m IH]; intros l a HN.
  - apply HN. exists l, r. reflexivity.
  - assert (Hac : (rid a <= rid c)%Z) by (apply HN; exists l, (m ++ b :: r); reflexivity).
    specialize (IH (l ++ [a]) c). rewrite <- app_assoc in IH. simpl in IH. specialize (IH HN). lia.
Qed.

Lemma iter_windows_global (F : frame) w o k :
  ValidRows F -> (0 < w)%Z -> (0 < o)%Z -> IdsSorted F ->
  forall d, check_const_time_delta k F = Ok d ->
  iter_timevalue_window k F w o false
  = Ok (map (fun ts => filter (fun r => existsb (Z.eqb (rtime r)) ts) F)
            (full_windows (Z.to_nat w) (Z.to_nat o) (time_values F))).
Proof.
  intros HV Hw Ho Hl d Hd. unfold iter_timevalue_window. rewrite Hd.
  replace ((w <=? 0)%Z || (o <=? 0)%Z) with false by lia. f_equal.
  unfold windows_of. rewrite window_loop_full by lia. apply map_ext. intros ts. apply select_times_sorted.
  apply sorted_lexsorted; [exact (vr_inc F HV)|exact Hl].
Qed.

Lemma iter_windows_unsorted (F : frame) w o k :
  ValidRows F -> (1 < w)%Z -> (0 < o)%Z -> ~ IdsSorted F ->
  forall d, check_const_time_delta k F = Ok d ->
  iter_timevalue_window k F w o false
  = Ok (map (fun ts => flat_map (fun t => filter (fun r => (rtime r =? t)%Z) F) ts)
            (full_windows (Z.to_nat w) (Z.to_nat o) (time_values F))).
Proof.
  intros HV Hw Ho Hl d Hd. unfold iter_timevalue_window. rewrite Hd.
  replace ((w <=? 0)%Z || (o <=? 0)%Z) with false by lia. f_equal.
  unfold windows_of. rewrite window_loop_full by lia. apply map_ext_in. intros ts Hts. unfold select_times.
  destruct (is_lexsorted F) eqn:E; [destruct Hl; apply lexsorted_iff; exact E|].
  apply in_map_iff in Hts. destruct Hts as (j & <- & Hj). apply filter_In in Hj. destruct Hj as [_ Hj].
  replace (length _ <=? 1) with false; [reflexivity|]. symmetry. apply Nat.leb_gt. rewrite firstn_length, skipn_length. lia.
Qed.

Lemma iter_windows_rejects (F : frame) w o k b :
  (w <= 0 \/ o <= 0)%Z ->
  forall d, check_const_time_delta k F = Ok d ->
  iter_timevalue_window k F w o b = Err ValueError.
Proof.
  intros H d Hd. unfold iter_timevalue_window. rewrite Hd.
  replace ((w <=? 0)%Z || (o <=? 0)%Z) with true by lia. reflexivity.
Qed.

Lemma in_full_windows {A} w o (l : list A) x :
  1 <= w -> 1 <= o ->
  In x (full_windows w o l) <-> exists j, j * o + w <= length l /\ x = firstn w (skipn (j * o) l).
Proof.
  intros Hw Ho. unfold full_windows. rewrite in_map_iff. split.
  - intros (j & <- & Hj). apply filter_In in Hj. destruct Hj as [_ Hj]. exists j. split; [lia|reflexivity].
  - intros (j & Hj & ->). exists j. split; [reflexivity|]. apply filter_In. split; [|lia].
    apply in_seq. nia.
Qed.

End Ops.
