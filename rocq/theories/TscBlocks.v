(** * Block representation of valid collections (proof device).

    A valid collection is the concatenation of blocks, one per time series. *)

From Coq Require Import List ZArith Bool Arith Lia Sorted Permutation.
From Coq Require Import ZifyBool ZifyNat.
Import ListNotations.
From Verif Require Import Np NpFacts TscModel TscSpec.
Open Scope Z_scope.

Section Blocks.
Context {V : Type}.
Notation frame := (list (row V)).
Notation block := (Z * list (Z * V))%type.

Definition brows (b : block) : frame := series_rows (fst b) (snd b).
Definition flatten (bs : list block) : frame := flat_map brows bs.

Fixpoint to_blocks (F : frame) : list block :=
  match F with
  | [] => []
  | r :: F' =>
      match to_blocks F' with
      | (i, s) :: bs => if rid r =? i then (i, (rtime r, rval r) :: s) :: bs
                        else (rid r, [(rtime r, rval r)]) :: (i, s) :: bs
      | [] => [(rid r, [(rtime r, rval r)])]
      end
  end.

Record wfb (bs : list block) : Prop := {
  wf_ne : bs <> [];
  wf_nodup : NoDup (map fst bs);
  wf_blocks : forall b, In b bs ->
     snd b <> [] /\ 0 <= fst b /\ (forall p, In p (snd b) -> 0 <= fst p)
     /\ StronglySorted Z.lt (map fst (snd b))
}.

Lemma row_eta (r : row V) : mkRow (rid r) (rtime r) (rval r) = r.
Proof. destruct r; reflexivity. Qed.

Lemma flatten_to_blocks F : flatten (to_blocks F) = F.
Proof.
  induction F as [|r F IH]; [reflexivity|].
  simpl. destruct (to_blocks F) as [|[i s] bs] eqn:E.
  - simpl in *. rewrite row_eta. rewrite <- IH. reflexivity.
  - destruct (rid r =? i) eqn:Ei.
    + assert (i = rid r) by lia. subst i.
      simpl in *. unfold brows, series_rows in *. simpl in *. rewrite row_eta. f_equal. exact IH.
    + simpl in *. unfold brows, series_rows in *. simpl in *. rewrite row_eta. f_equal. exact IH.
Qed.

Lemma to_blocks_head r F : exists s bs, to_blocks (r :: F) = (rid r, s) :: bs /\ s <> [].
Proof.
  simpl. destruct (to_blocks F) as [|[i s] bs] eqn:E.
  - eexists _, _. split; [reflexivity|discriminate].
  - destruct (rid r =? i) eqn:Ei.
    + assert (i = rid r) by lia. subst i. eexists _, _. split; [reflexivity|discriminate].
    + eexists _, _. split; [reflexivity|discriminate].
Qed.

Lemma to_blocks_nonempty F b : In b (to_blocks F) -> snd b <> [].
Proof.
  revert b. induction F as [|r F IH]; intros b Hb; [destruct Hb|].
  simpl in Hb. destruct (to_blocks F) as [|[i s] bs] eqn:E.
  - destruct Hb as [<-|[]]. discriminate.
  - destruct (rid r =? i) eqn:Ei.
    + destruct Hb as [<-|Hb]; [discriminate|]. apply IH. right; exact Hb.
    + destruct Hb as [<-|Hb]; [discriminate|]. apply IH. exact Hb.
Qed.

(** The IDs at which [np.diff] detects a new block. *)
Lemma starts_to_blocks F :
  F <> [] ->
  mask_select (bool_new_id (ids_index F)) (ids_index F) = map fst (to_blocks F).
Proof.
  induction F as [|r F IH]; intros Hne; [congruence|].
  destruct F as [|r' F'].
  - reflexivity.
  - specialize (IH ltac:(discriminate)).
    assert (HH : exists s bs, to_blocks (r' :: F') = (rid r', s) :: bs /\ s <> [])
      by apply to_blocks_head.
    destruct HH as (s & bs & E & _).
    assert (Ecur : to_blocks (r :: r' :: F') =
      if rid r =? rid r' then (rid r', (rtime r, rval r) :: s) :: bs
      else (rid r, [(rtime r, rval r)]) :: (rid r', s) :: bs).
    { cbn [to_blocks]. cbn [to_blocks] in E. rewrite E. reflexivity. }
    rewrite Ecur. rewrite E in IH.
    unfold bool_new_id in *. cbn [ids_index map] in *.
    rewrite np_diff_cons2. cbn [map].
    unfold mask_select in *. cbn [combine filter map fst snd] in *.
    destruct (rid r =? rid r') eqn:Er.
    + assert (rid r = rid r') by lia.
      replace (rid r' - rid r =? 0) with true by lia. cbn [negb].
      cbn [map fst]. injection IH as IH. rewrite <- IH. f_equal. exact H.
    + replace (rid r' - rid r =? 0) with false by lia. cbn [negb map fst snd].
      injection IH as IH. rewrite <- IH. reflexivity.
Qed.

(** *** membership *)

Lemma in_flatten bs r :
  In r (flatten bs) <-> exists b p, In b bs /\ In p (snd b) /\ r = mkRow (fst b) (fst p) (snd p).
Proof.
  unfold flatten. rewrite in_flat_map. split.
  - intros (b & Hb & Hr). unfold brows, series_rows in Hr. apply in_map_iff in Hr.
    destruct Hr as (p & <- & Hp). eauto.
  - intros (b & p & Hb & Hp & ->). exists b. split; [exact Hb|].
    unfold brows, series_rows. apply in_map_iff. eauto.
Qed.

Lemma rid_brows b r : In r (brows b) -> rid r = fst b.
Proof.
  unfold brows, series_rows. intros H. apply in_map_iff in H.
  destruct H as (p & <- & _). reflexivity.
Qed.

Lemma brows_length b : length (brows b) = length (snd b).
Proof. unfold brows, series_rows. apply map_length. Qed.

Lemma flatten_cons b bs : flatten (b :: bs) = brows b ++ flatten bs.
Proof. reflexivity. Qed.

Lemma flatten_app b1 b2 : flatten (b1 ++ b2) = flatten b1 ++ flatten b2.
Proof. unfold flatten. apply flat_map_app. Qed.

Lemma in_flatten_id bs r : In r (flatten bs) -> In (rid r) (map fst bs).
Proof.
  intros H. apply in_flatten in H. destruct H as (b & p & Hb & _ & ->).
  simpl. apply in_map. exact Hb.
Qed.

Lemma ids_brows b : ids_index (brows b) = repeat (fst b) (length (snd b)).
Proof.
  unfold ids_index, brows, series_rows. rewrite map_map. simpl.
  induction (snd b) as [|p l IH]; [reflexivity|]. simpl. f_equal. exact IH.
Qed.

Lemma times_brows b : time_index (brows b) = map fst (snd b).
Proof. unfold time_index, brows, series_rows. rewrite map_map. reflexivity. Qed.

Lemma vals_brows b : to_numpy (brows b) = map snd (snd b).
Proof. unfold to_numpy, brows, series_rows. rewrite map_map. reflexivity. Qed.

Lemma ids_index_app (F G : frame) : ids_index (F ++ G) = ids_index F ++ ids_index G.
Proof. apply map_app. Qed.
Lemma time_index_app (F G : frame) : time_index (F ++ G) = time_index F ++ time_index G.
Proof. apply map_app. Qed.
Lemma to_numpy_app (F G : frame) : to_numpy (F ++ G) = to_numpy F ++ to_numpy G.
Proof. apply map_app. Qed.

(** rows of one ID *)
Lemma rows_of_app (F G : frame) i : rows_of (F ++ G) i = rows_of F i ++ rows_of G i.
Proof. apply filter_app. Qed.

Lemma filter_all_true {A} (f : A -> bool) l : (forall x, In x l -> f x = true) -> filter f l = l.
Proof.
  induction l as [|x r IH]; intros H; [reflexivity|].
  simpl. rewrite (H x) by (left; reflexivity). f_equal. apply IH. intros; apply H; right; auto.
Qed.

Lemma filter_all_false {A} (f : A -> bool) l : (forall x, In x l -> f x = false) -> filter f l = [].
Proof.
  induction l as [|x r IH]; intros H; [reflexivity|].
  simpl. rewrite (H x) by (left; reflexivity). apply IH. intros; apply H; right; auto.
Qed.

Lemma rows_of_brows_same b : rows_of (brows b) (fst b) = brows b.
Proof.
  apply filter_all_true. intros r Hr. apply rid_brows in Hr. lia.
Qed.

Lemma rows_of_brows_other b i : i <> fst b -> rows_of (brows b) i = [].
Proof.
  intros H. apply filter_all_false. intros r Hr. apply rid_brows in Hr. lia.
Qed.

Lemma rows_of_notin bs i : ~ In i (map fst bs) -> rows_of (flatten bs) i = [].
Proof.
  intros H. apply filter_all_false. intros r Hr. apply in_flatten_id in Hr.
  destruct (rid r =? i) eqn:E; [|reflexivity]. exfalso. apply H.
  replace i with (rid r) by lia. exact Hr.
Qed.

Lemma rows_of_flatten bs b :
  NoDup (map fst bs) -> In b bs -> rows_of (flatten bs) (fst b) = brows b.
Proof.
  induction bs as [|c bs IH]; intros Hnd Hb; [destruct Hb|].
  simpl map in Hnd. inversion Hnd as [|? ? Hni Hnd']; subst.
  rewrite flatten_cons, rows_of_app. destruct Hb as [->|Hb].
  - rewrite rows_of_brows_same, rows_of_notin by exact Hni. apply app_nil_r.
  - rewrite rows_of_brows_other, IH; auto.
    intros E. apply Hni. rewrite <- E. apply in_map. exact Hb.
Qed.

(** counting an ID = number of rows *)
Lemma np_count_rows (F : frame) i : np_count (ids_index F) i = length (rows_of F i).
Proof.
  induction F as [|r F IH]; [reflexivity|].
  cbn [ids_index map]. rewrite np_count_cons. unfold ids_index in IH. rewrite IH.
  unfold rows_of. cbn [filter].
  rewrite (Z.eqb_sym i (rid r)). destruct (rid r =? i); reflexivity.
Qed.

Lemma ids_flatten bs :
  (forall b, In b bs -> snd b <> []) -> ids (flatten bs) = np_unique (map fst bs).
Proof.
  intros Hne. unfold ids. apply np_unique_ext. intros x. split.
  - intros H. unfold ids_index in H. apply in_map_iff in H. destruct H as (r & <- & Hr).
    apply in_flatten_id. exact Hr.
  - intros H. apply in_map_iff in H. destruct H as (b & <- & Hb).
    destruct (snd b) as [|p s] eqn:E; [destruct (Hne b Hb E)|].
    unfold ids_index. apply in_map_iff. exists (mkRow (fst b) (fst p) (snd p)).
    split; [reflexivity|]. apply in_flatten. exists b, p. rewrite E. simpl. auto.
Qed.

(** *** the two directions between wfb and ValidRows *)

Lemma brows_split b l a m c r :
  brows b = l ++ a :: m ++ c :: r ->
  exists l' a' m' c' r', snd b = l' ++ a' :: m' ++ c' :: r' /\
    rtime a = fst a' /\ rtime c = fst c'.
Proof.
  unfold brows, series_rows. intros H.
  apply map_eq_app in H. destruct H as (l' & s1 & E1 & _ & H).
  destruct s1 as [|a' s1]; [discriminate|]. simpl in H. injection H as Ha H.
  apply map_eq_app in H. destruct H as (m' & s2 & E2 & _ & H).
  destruct s2 as [|c' s2]; [discriminate|]. simpl in H. injection H as Hc H.
  exists l', a', m', c', s2. subst. auto.
Qed.

Lemma sorted_split l : StronglySorted Z.lt l ->
  forall p a m b r, l = p ++ a :: m ++ b :: r -> a < b.
Proof.
  intros Hs p. revert l Hs. induction p as [|x p IH]; intros l Hs a m b r E.
  - simpl in E. subst l. inversion Hs as [|? ? _ Hf]; subst.
    rewrite Forall_forall in Hf. apply Hf. apply in_or_app. right. left. reflexivity.
  - simpl in E. subst l. inversion Hs; subst. eapply IH; eauto.
Qed.

(** Decompose a position inside [l1 ++ l2]. *)
Lemma app_split_cons {A} (l1 l2 p : list A) x r :
  l1 ++ l2 = p ++ x :: r ->
  (exists q, l1 = p ++ x :: q /\ r = q ++ l2) \/
  (exists p', p = l1 ++ p' /\ l2 = p' ++ x :: r).
Proof.
  revert p. induction l1 as [|y l1 IH]; intros p H; simpl in H.
  - right. exists p. auto.
  - destruct p as [|z p]; simpl in H; injection H as -> H.
    + left. exists l1. auto.
    + destruct (IH p H) as [(q & -> & ->)|(p' & -> & ->)].
      * left. exists q. auto.
      * right. exists p'. auto.
Qed.

Lemma wfb_valid bs : wfb bs -> ValidRows (flatten bs).
Proof.
  intros W. destruct W as [Hne Hnd Hb].
  assert (Hsplit : forall l a m c r, flatten bs = l ++ a :: m ++ c :: r -> rid a = rid c ->
     (forall x, In x m -> rid x = rid a) /\ rtime a < rtime c).
  { clear Hne. induction bs as [|b bs IH]; intros l a m c r E Eid.
    - destruct l; discriminate.
    - simpl map in Hnd. inversion Hnd as [|? ? Hni Hnd']; subst.
      rewrite flatten_cons in E.
      destruct (app_split_cons _ _ _ _ _ E) as [(q & E1 & E2)|(p' & -> & E2)].
      + symmetry in E2. destruct (app_split_cons _ _ _ _ _ E2) as [(q' & -> & E3)|(p'' & -> & E3)].
        * (* both in block b *)
          split.
          -- intros x Hx.
             assert (In x (brows b)) by (rewrite E1; apply in_or_app; right; right;
                apply in_or_app; left; exact Hx).
             assert (In a (brows b)) by (rewrite E1; apply in_or_app; right; left; reflexivity).
             rewrite (rid_brows b x), (rid_brows b a); auto.
          -- destruct (brows_split _ _ _ _ _ _ E1) as (l' & a' & m' & c' & r' & Es & -> & ->).
             destruct (Hb b (or_introl eq_refl)) as (_ & _ & _ & Hs).
             eapply (sorted_split _ Hs (map fst l') _ (map fst m') _ (map fst r')).
             rewrite Es, !map_app. simpl. rewrite map_app. reflexivity.
        * (* a in b, c later *)
          exfalso. apply Hni.
          assert (Ha : In a (brows b)) by (rewrite E1; apply in_or_app; right; left; reflexivity).
          apply rid_brows in Ha. rewrite <- Ha, Eid. apply in_flatten_id.
          rewrite E3. apply in_or_app. right. left. reflexivity.
      + apply (IH Hnd' (fun b' Hb' => Hb b' (or_intror Hb')) p' a m c r E2 Eid). }
  constructor.
  - destruct bs as [|b bs]; [congruence|]. rewrite flatten_cons.
    destruct (Hb b (or_introl eq_refl)) as (Hn & _).
    unfold brows, series_rows. destruct (snd b); [congruence|discriminate].
  - intros r Hr. apply in_flatten in Hr. destruct Hr as (b & p & Hbin & Hp & ->).
    simpl. apply (Hb b Hbin).
  - intros r Hr. apply in_flatten in Hr. destruct Hr as (b & p & Hbin & Hp & ->).
    simpl. apply (Hb b Hbin). exact Hp.
  - intros l a m c r x E Eid Hx. destruct (Hsplit _ _ _ _ _ E Eid) as [H _]. auto.
  - intros a c (l & m & r & E) Eid. destruct (Hsplit _ _ _ _ _ E Eid) as [_ H]. exact H.
Qed.

Lemma valid_tail (r : row V) (F : frame) : F <> [] -> ValidRows (r :: F) -> ValidRows F.
Proof.
  intros Hne [H1 H2 H3 H4 H5]. constructor.
  - exact Hne.
  - intros x Hx. apply H2. right; exact Hx.
  - intros x Hx. apply H3. right; exact Hx.
  - intros l a m b s c E. apply (H4 (r :: l) a m b s c). rewrite E. reflexivity.
  - intros a b (l & m & s & E). apply H5. exists (r :: l), m, s. rewrite E. reflexivity.
Qed.

Lemma valid_wfb (F : frame) : ValidRows F -> wfb (to_blocks F).
Proof.
  induction F as [|r F IH]; intros HV.
  - destruct HV. congruence.
  - destruct F as [|r' F'].
    + destruct HV as [_ Hi Ht _ _]. simpl. constructor.
      * discriminate.
      * simpl. repeat constructor. intros [].
      * intros b [<-|[]]. simpl. repeat split.
        -- discriminate.
        -- apply Hi. left; reflexivity.
        -- intros p [<-|[]]. simpl. apply Ht. left; reflexivity.
        -- repeat constructor.
    + assert (HV' : ValidRows (r' :: F')) by (eapply valid_tail; [discriminate|exact HV]).
      specialize (IH HV'). destruct HV as [_ Hi Ht Hc Hinc].
      destruct (to_blocks_head r' F') as (s & bs & E & Hsne).
      assert (Hfl : r' :: F' = flatten ((rid r', s) :: bs)).
      { rewrite <- E. symmetry. apply flatten_to_blocks. }
      remember (r' :: F') as G eqn:EG.
      simpl. rewrite E. rewrite E in IH. destruct IH as [_ Hnd Hb].
      simpl map in Hnd. inversion Hnd as [|? ? Hni Hnd']; subst.
      assert (Hbefore : forall c, In c F' \/ c = r' -> rid r = rid c -> rtime r < rtime c).
      { intros c Hcin Eid. apply Hinc; [|exact Eid].
        assert (In c (r' :: F')) as Hin by (destruct Hcin as [H| ->]; [right; exact H|left; reflexivity]).
        apply in_split in Hin. destruct Hin as (m & q & Em).
        exists [], m, q. simpl. rewrite Em. reflexivity. }
      destruct (rid r =? rid r') eqn:Er.
      * assert (Eid : rid r = rid r') by lia. constructor.
        -- discriminate.
        -- exact Hnd.
        -- intros b [<-|Hbin]; [|apply Hb; right; exact Hbin].
           destruct (Hb _ (or_introl eq_refl)) as (_ & Hb2 & Hb3 & Hb4). simpl in Hb2, Hb3, Hb4 |- *.
           repeat split; auto.
           ++ discriminate.
           ++ intros p [<-|Hp]; [simpl; apply Ht; left; reflexivity|auto].
           ++ constructor; [exact Hb4|]. rewrite Forall_forall. intros t Htin.
              apply in_map_iff in Htin. destruct Htin as (p & <- & Hp).
              change (fst p) with (rtime (mkRow (rid r') (fst p) (snd p))).
              apply Hbefore; [|exact Eid].
              assert (Hin : In (mkRow (rid r') (fst p) (snd p)) (r' :: F')).
              { rewrite Hfl; apply (in_flatten ((rid r', s) :: bs)). exists (rid r', s), p. simpl. auto. }
              destruct Hin as [<-|Hin]; auto.
      * constructor.
        -- discriminate.
        -- simpl. constructor; [|exact Hnd].
           intros Hin.
           (* rid r occurs later: contiguity gives rid r' = rid r *)
           destruct Hin as [Hin|Hin]; [lia|].
           assert (Hx : exists c, In c (r' :: F') /\ rid c = rid r /\ c <> r').
           { apply in_map_iff in Hin. destruct Hin as (b & Eb & Hbin).
             destruct (Hb b (or_intror Hbin)) as (Hbne & _).
             destruct (snd b) as [|p q] eqn:Esb; [congruence|].
             exists (mkRow (fst b) (fst p) (snd p)). split; [|split].
             - rewrite Hfl; apply (in_flatten ((rid r', s) :: bs)). exists b, p. rewrite Esb. simpl. auto.
             - exact Eb.
             - intros Ec. assert (rid r' = fst b) by (rewrite <- Ec; reflexivity). lia. }
           destruct Hx as (c & [->|Hcin] & Ec & Hne'); [congruence|].
           apply in_split in Hcin. destruct Hcin as (m & q & Em).
           assert (rid r' = rid r).
           { apply (Hc [] r (r' :: m) c q r').
             - simpl. rewrite Em. reflexivity.
             - auto.
             - left; reflexivity. }
           lia.
        -- intros b [<-|Hbin]; [|apply Hb; exact Hbin].
           simpl. repeat split.
           ++ discriminate.
           ++ apply Hi. left; reflexivity.
           ++ intros p [<-|[]]. simpl. apply Ht. left; reflexivity.
           ++ repeat constructor.
Qed.

(** A valid collection is a well-formed block list. *)
Lemma valid_blocks (F : frame) : ValidRows F -> exists bs, F = flatten bs /\ wfb bs.
Proof.
  intros H. exists (to_blocks F). split; [symmetry; apply flatten_to_blocks|].
  apply valid_wfb. exact H.
Qed.

End Blocks.
