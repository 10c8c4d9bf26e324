(** * Lemmas for C112 *)

From Coq Require Import String.
From Coq Require Import List ZArith Bool Arith Lia Sorted Relations.
Import ListNotations.
From Verif Require Import Np TscModel TrModel TscSpec ColModel ColSpec.
Open Scope Z_scope.

Lemma key_eqb_eq a b : key_eqb a b = true <-> a = b.
Proof.
  unfold key_eqb. rewrite andb_true_iff, !Z.eqb_eq. destruct a, b; cbn. split; [intros [-> ->]; reflexivity|intros E; injection E; auto].
Qed.

Definition key_lt (a b : key) : Prop := fst a < fst b \/ fst a = fst b /\ snd a < snd b.

Lemma key_ltb_lt a b : key_ltb a b = true <-> key_lt a b.
Proof. unfold key_ltb, key_lt. rewrite orb_true_iff, andb_true_iff, !Z.ltb_lt, Z.eqb_eq. tauto. Qed.

Lemma keys_eqb_eq a : forall b, keys_eqb a b = true <-> a = b.
Proof.
  induction a as [|x a IH]; intros [|y b]; cbn; try (split; congruence).
  rewrite andb_true_iff, key_eqb_eq, IH. split; [intros [-> ->]; reflexivity|intros E; injection E; auto].
Qed.

Lemma insert_in k l x : In x (insert k l) <-> x = k \/ In x l.
Proof.
  induction l as [|h t IH]; cbn; [intuition|].
  destruct (key_ltb k h); [cbn; intuition|].
  destruct (key_eqb k h) eqn:E; [apply key_eqb_eq in E; subst; cbn; intuition|].
  cbn. rewrite IH. intuition.
Qed.

Lemma key_total a b : key_lt a b \/ a = b \/ key_lt b a.
Proof.
  unfold key_lt. destruct a as [a1 a2], b as [b1 b2]; cbn.
  destruct (Z.lt_trichotomy a1 b1) as [|[->|]]; [auto| |auto].
  destruct (Z.lt_trichotomy a2 b2) as [|[->|]]; auto.
Qed.

Lemma key_lt_trans a b c : key_lt a b -> key_lt b c -> key_lt a c.
Proof. unfold key_lt. lia. Qed.

Lemma insert_sorted k l : StronglySorted key_lt l -> StronglySorted key_lt (insert k l).
Proof.
  induction 1 as [|h t Ht IH Hh]; cbn; [repeat constructor|].
  destruct (key_ltb k h) eqn:E1.
  - apply key_ltb_lt in E1. constructor; [constructor; assumption|]. constructor; [exact E1|].
    rewrite Forall_forall in *. intros x Hx. eapply key_lt_trans; eauto.
  - destruct (key_eqb k h) eqn:E2; [constructor; assumption|].
    constructor; [exact IH|]. rewrite Forall_forall in *. intros x Hx. apply insert_in in Hx. destruct Hx as [->|Hx]; [|auto].
    destruct (key_total k h) as [L|[->|L]]; [apply key_ltb_lt in L; congruence|rewrite (proj2 (key_eqb_eq h h) eq_refl) in E2; discriminate|exact L].
Qed.

Lemma sort_sorted l : StronglySorted key_lt (fold_right insert [] l).
Proof. induction l; cbn; [constructor|apply insert_sorted; assumption]. Qed.

Lemma sort_in l x : In x (fold_right insert [] l) <-> In x l.
Proof. induction l; cbn; [tauto|]. rewrite insert_in, IHl. intuition. Qed.

Lemma sorted_nodup l : StronglySorted key_lt l -> NoDup l.
Proof.
  induction 1 as [|h t Ht IH Hh]; constructor; [|exact IH]. intros Hin. rewrite Forall_forall in Hh.
  apply Hh in Hin. unfold key_lt in Hin. lia.
Qed.

Lemma sorted_split l : forall a m b r ks, StronglySorted key_lt ks -> ks = l ++ a :: m ++ b :: r ->
  key_lt a b /\ forall c, In c m -> key_lt a c /\ key_lt c b.
Proof.
  induction l as [|x l IH]; intros a m b r ks HS E; cbn in E; subst ks; inversion HS as [|? ? HS' HF]; subst.
  - rewrite Forall_forall in HF. split; [apply HF, in_or_app; right; left; reflexivity|].
    intros c Hc. split; [apply HF, in_or_app; left; exact Hc|]. clear HF HS. revert HS'.
    induction m as [|y m IHm]; [destruct Hc|]. cbn. intros HS'. inversion HS' as [|? ? HS2 HF2]; subst. destruct Hc as [<-|Hc].
    + rewrite Forall_forall in HF2. apply HF2, in_or_app. right; left; reflexivity.
    + apply IHm; assumption.
  - eapply IH; [exact HS'|reflexivity].
Qed.

Lemma filter_split {A} (p : A -> bool) ks : forall l a q, filter p ks = l ++ a :: q ->
  exists l' q', ks = l' ++ a :: q' /\ filter p q' = q /\ filter p l' = l.
Proof.
  induction ks as [|x ks IH]; intros l a q E; [destruct l; discriminate|].
  cbn in E. destruct (p x) eqn:Ex.
  - destruct l as [|y l]; cbn in E; injection E; intros E1 E2.
    + subst. exists [], ks. auto.
    + destruct (IH _ _ _ E1) as (l' & q' & -> & E3 & E4). exists (x :: l'), q'. cbn. rewrite Ex, E4, E2. auto.
  - destruct (IH _ _ _ E) as (l' & q' & -> & E3 & E4). exists (x :: l'), q'. cbn. rewrite Ex. auto.
Qed.

(** What validity says about the index. *)
Definition KValid (ks : list key) : Prop :=
  forall l a m b r, ks = l ++ a :: m ++ b :: r -> fst a = fst b -> snd a < snd b /\ forall c, In c m -> fst c = fst a.

Lemma kvalid_filter p ks : KValid ks -> KValid (filter p ks).
Proof.
  intros H l a m b r E Eab.
  destruct (filter_split _ _ _ _ _ E) as (l' & q' & -> & E2 & _).
  destruct (filter_split _ _ _ _ _ E2) as (m' & r' & -> & _ & E4).
  destruct (H _ _ _ _ _ eq_refl Eab) as [H1 H2]. split; [exact H1|].
  intros c Hc. apply H2. rewrite <- E4 in Hc. apply filter_In in Hc. tauto.
Qed.

Lemma kvalid_sorted ks : StronglySorted key_lt ks -> KValid ks.
Proof.
  intros HS l a m b r E Eab. destruct (sorted_split l a m b r ks HS E) as [H1 H2].
  unfold key_lt in *. split; [lia|]. intros c Hc. destruct (H2 c Hc). lia.
Qed.

Section Join.
Context {V : Type}.
Variable isna : V -> bool.
Notation rows := (list (row (list V))).

Definition rkey (r : row (list V)) : key := (rid r, rtime r).

Lemma map_split (F : rows) l a m b r : map rkey F = l ++ a :: m ++ b :: r ->
  exists l' a' m' b' r', F = l' ++ a' :: m' ++ b' :: r' /\ rkey a' = a /\ rkey b' = b /\ map rkey m' = m.
Proof.
  intros E. apply map_eq_app in E. destruct E as (l' & q & -> & _ & E).
  destruct q as [|a' q]; [discriminate|]. cbn in E. injection E as Ea E.
  apply map_eq_app in E. destruct E as (m' & q2 & -> & Em & E).
  destruct q2 as [|b' r']; [discriminate|]. cbn in E. injection E as Eb E.
  exists l', a', m', b', r'. auto.
Qed.

Lemma valid_keys (F : rows) : ValidRows F -> KValid (map rkey F).
Proof.
  intros [_ _ _ HC HI] l a m b r E Eab.
  destruct (map_split _ _ _ _ _ _ E) as (l' & a' & m' & b' & r' & -> & <- & <- & <-). cbn in Eab.
  split; [apply HI; [exists l', m', r'; reflexivity|exact Eab]|].
  intros c Hc. apply in_map_iff in Hc. destruct Hc as (c' & <- & Hc). cbn.
  eapply HC; [reflexivity|exact Eab|exact Hc].
Qed.

Lemma keys_valid (F : rows) : F <> [] -> (forall r, In r F -> 0 <= rid r /\ 0 <= rtime r) -> KValid (map rkey F) -> ValidRows F.
Proof.
  intros N P K. constructor; [exact N|intros r Hr; apply P, Hr|intros r Hr; apply P, Hr| |].
  - intros l a m b r c E Eab Hc.
    assert (E' : map rkey F = map rkey l ++ rkey a :: map rkey m ++ rkey b :: map rkey r) by (rewrite E, map_app; cbn; rewrite map_app; reflexivity).
    destruct (K _ _ _ _ _ E' Eab) as [_ K2]. exact (K2 (rkey c) (in_map rkey _ _ Hc)).
  - intros a b (l & m & r & E) Eab.
    assert (E' : map rkey F = map rkey l ++ rkey a :: map rkey m ++ rkey b :: map rkey r) by (rewrite E, map_app; cbn; rewrite map_app; reflexivity).
    exact (proj1 (K _ _ _ _ _ E' Eab)).
Qed.

Lemma lookup_in (F : rows) k v : lookup F k = Some v -> In (mkRow (fst k) (snd k) v) F.
Proof.
  unfold lookup. destruct (find _ F) as [r|] eqn:E; [|discriminate]. intros H; injection H as <-.
  apply find_some in E. destruct E as [Hin E]. apply key_eqb_eq in E. subst k. cbn. destruct r; exact Hin.
Qed.

Lemma in_lookup (F : rows) i t v : UniqueKeys F -> In (mkRow i t v) F -> lookup F (i, t) = Some v.
Proof.
  unfold lookup, UniqueKeys. induction F as [|r F IH]; intros HN Hin; [destruct Hin|].
  cbn in HN. inversion HN as [|? ? N1 N2]; subst. cbn. destruct Hin as [->|Hin].
  - cbn. rewrite (proj2 (key_eqb_eq (i, t) (i, t)) eq_refl). reflexivity.
  - destruct (key_eqb (rid r, rtime r) (i, t)) eqn:E; [|apply IH; assumption].
    apply key_eqb_eq in E. exfalso. apply N1. rewrite E.
    exact (in_map (fun r => (rid r, rtime r)) _ _ Hin).
Qed.

Lemma complete_some Fs k v : complete isna (map (fun F => lookup F k) Fs) = Some v ->
  Joined isna Fs (mkRow (fst k) (snd k) v).
Proof.
  revert v. induction Fs as [|F Fs IH]; cbn; intros v E.
  - injection E as <-. exists []. split; [constructor|reflexivity].
  - destruct (lookup F k) as [w|] eqn:EL; [|discriminate].
    destruct (existsb isna w) eqn:EN; [discriminate|].
    destruct (complete isna (map (fun F => lookup F k) Fs)) as [u|]; [|discriminate]. injection E as <-.
    destruct (IH u eq_refl) as (vs & H1 & H2). cbn in H1, H2. exists (w :: vs). cbn. split; [|rewrite H2; reflexivity].
    constructor; [|exact H1]. split; [apply lookup_in, EL|].
    intros x Hx. destruct (isna x) eqn:Ex; [|reflexivity]. exfalso.
    assert (existsb isna w = true) by (apply existsb_exists; exists x; auto). congruence.
Qed.

Lemma some_complete Fs r : Forall UniqueKeys Fs -> Joined isna Fs r ->
  complete isna (map (fun F => lookup F (rid r, rtime r)) Fs) = Some (rval r).
Proof.
  intros HU (vs & H1 & ->). revert HU. induction H1 as [|F v Fs vs [Hin Hna] H1 IH]; intros HU; [reflexivity|].
  inversion HU as [|? ? U1 U2]; subst. cbn. rewrite (in_lookup F _ _ v U1 Hin).
  destruct (existsb isna v) eqn:E; [apply existsb_exists in E; destruct E as (x & Hx & E); rewrite (Hna x Hx) in E; discriminate|].
  rewrite (IH U2). reflexivity.
Qed.

Lemma joined_index_in Fs r : Fs <> [] -> Joined isna Fs r -> In (rid r, rtime r) (joined_index Fs).
Proof.
  destruct Fs as [|F Fs]; [congruence|]. intros _ (vs & H & _).
  inversion H as [|? v ? vs' [Hin _] H']; subst.
  assert (K : In (rid r, rtime r) (TscModel.index F)) by exact (in_map (fun r => (rid r, rtime r)) _ _ Hin).
  unfold joined_index. destruct (forallb _ Fs); [exact K|].
  apply sort_in. cbn. apply in_or_app. left. exact K.
Qed.

Lemma join_keys Fs : map rkey (join isna Fs) = filter (fun k => match complete isna (map (fun F => lookup F k) Fs) with Some _ => true | None => false end) (joined_index Fs).
Proof.
  unfold join. induction (joined_index Fs) as [|k ks IH]; [reflexivity|].
  cbn. destruct (complete isna (map (fun F => lookup F k) Fs)) as [v|]; cbn; rewrite ?IH; [|reflexivity].
  f_equal. destruct k; reflexivity.
Qed.

Lemma join_in Fs r : In r (join isna Fs) <-> In (rid r, rtime r) (joined_index Fs) /\ complete isna (map (fun F => lookup F (rid r, rtime r)) Fs) = Some (rval r).
Proof.
  unfold join. rewrite in_flat_map. split.
  - intros (k & Hk & H). destruct (complete isna (map (fun F => lookup F k) Fs)) as [v|] eqn:E; [|destruct H].
    destruct H as [<-|[]]. cbn. destruct k as [i t]; cbn in *. auto.
  - intros [Hk E]. exists (rid r, rtime r). split; [exact Hk|]. rewrite E. left. destruct r; reflexivity.
Qed.

End Join.
