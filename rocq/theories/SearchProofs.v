(** * Proofs about the grid search. *)

From Coq Require Import List ZArith Bool Arith QArith Sorted Permutation Lia.
Import ListNotations.
From Verif Require Import Np NpFacts TscModel TscSpec TscProofs TscBuild CvSpec CvModel CvWindow SearchModel SearchSpec.
Close Scope Z_scope.
Close Scope Q_scope.
Open Scope nat_scope.

(** ** Parameters *)

Lemma set_param_get {P} (d : list (nat * P)) k v d' : set_param d k v = Ok d' ->
  forall j, get d' j = if j =? k then Some v else get d j.
Proof.
  revert d'. induction d as [|[k' v'] r IH]; intros d' E j; cbn in E; [discriminate|].
  destruct (Nat.eqb_spec k k') as [->|Hk].
  - injection E as <-. cbn. destruct (j =? k'); reflexivity.
  - destruct (set_param r k v) as [r'|] eqn:Er; [|discriminate]. cbn in E. injection E as <-. cbn.
    rewrite (IH _ eq_refl). destruct (Nat.eqb_spec j k'), (Nat.eqb_spec j k); congruence.
Qed.

Lemma set_params_get {P} (c d d' : list (nat * P)) : NoDup (map fst c) -> set_params d c = Ok d' -> Configured d c d'.
Proof.
  revert d. induction c as [|[k v] c IH]; intros d Hn E j; cbn in E.
  - injection E as <-. reflexivity.
  - destruct (set_param d k v) as [d1|] eqn:E1; [|discriminate]. cbn in E. cbn in Hn. inversion Hn; subst.
    rewrite (IH _ H2 E j). rewrite (set_param_get _ _ _ _ E1). cbn.
    destruct (Nat.eqb_spec j k) as [->|Hk]; [|reflexivity].
    replace (get c k) with (@None P); [reflexivity|]. symmetry.
    clear -H1. induction c as [|[k' v'] c IH]; [reflexivity|]. cbn in *.
    destruct (Nat.eqb_spec k k') as [->|]; [exfalso; apply H1; left; reflexivity|]. apply IH. intros H. apply H1. right; exact H.
Qed.

Lemma set_param_ok {P} (d : list (nat * P)) k v : get d k <> None -> exists d', set_param d k v = Ok d'.
Proof.
  induction d as [|[k' v'] r IH]; cbn; [congruence|]. destruct (k =? k'); [eauto|].
  intros H. destruct (IH H) as (r' & ->). cbn. eauto.
Qed.

Lemma set_params_ok {P} (c d : list (nat * P)) : (forall k, In k (map fst c) -> get d k <> None) ->
  exists d', set_params d c = Ok d'.
Proof.
  revert d. induction c as [|[k v] c IH]; intros d H; cbn; [eauto|].
  destruct (set_param_ok d k v) as (d1 & E1); [apply H; left; reflexivity|]. rewrite E1. cbn. apply IH.
  intros j Hj. rewrite (set_param_get _ _ _ _ E1). destruct (j =? k); [congruence|]. apply H. right; exact Hj.
Qed.

(** ** Splitting *)

Section Split.
Context {V : Type}.
Notation frame := (list (row V)).

Lemma sorted_middle {A} (R : A -> A -> Prop) l a m b r : StronglySorted R (l ++ a :: m ++ b :: r) ->
  (forall x, In x m -> R a x) /\ (forall x, In x m -> R x b) /\ R a b.
Proof.
  induction l as [|y l IH]; cbn; intros H; inversion H; subst.
  - rewrite Forall_forall in H3. split; [|split].
    + intros x Hx. apply H3. apply in_or_app; left; exact Hx.
    + clear -H2. induction m as [|z m IH]; cbn in *; intros x Hx; [destruct Hx|]. inversion H2; subst.
      destruct Hx as [->|Hx]; [|apply IH; assumption]. rewrite Forall_forall in H3. apply H3. apply in_or_app. right; left; reflexivity.
    + apply H3. apply in_or_app. right; left; reflexivity.
  - apply IH; assumption.
Qed.

Lemma time_increasing_at (F : frame) p q a b : TimeIncreasing F -> p < q ->
  nth_error F p = Some a -> nth_error F q = Some b -> rid a = rid b -> (rtime a < rtime b)%Z.
Proof.
  intros HT Hpq Ea Eb. apply HT.
  apply nth_error_split in Ea. destruct Ea as (l & r & -> & Hl).
  rewrite nth_error_app2 in Eb by lia. destruct (q - length l) as [|k] eqn:Ek; [lia|]. cbn in Eb.
  apply nth_error_split in Eb. destruct Eb as (m & r' & -> & _). exists l, m, r'. reflexivity.
Qed.

(** The rows of one part form a valid collection. *)
Lemma relabelled_valid (F : frame) new pos (G : frame) :
  ValidRows F -> StronglySorted lt pos -> pos <> [] -> Relabelled F new pos G ->
  (forall r, In r G -> (0 <= rid r)%Z) ->
  (forall p q, p <= q -> In p pos -> In q pos -> new p = new q ->
     forall k, p <= k <= q -> In k pos -> new k = new p /\
       option_map rid (nth_error F k) = option_map rid (nth_error F p)) ->
  ValidRows G.
Proof.
  intros [_ _ Ht _ Hinc] Hs Hne HR Hid Hnew. unfold Relabelled in HR.
  assert (Hsplit : forall l a m b r, G = l ++ a :: m ++ b :: r ->
    exists lp p mp q rp, pos = lp ++ p :: mp ++ q :: rp /\
      (exists x, nth_error F p = Some x /\ a = mkRow (new p) (rtime x) (rval x)) /\
      (exists x, nth_error F q = Some x /\ b = mkRow (new q) (rtime x) (rval x)) /\
      Forall2 (fun p g => exists r, nth_error F p = Some r /\ g = mkRow (new p) (rtime r) (rval r)) mp m).
  { intros l a m b r E. rewrite E in HR. apply Forall2_app_inv_r in HR. destruct HR as (lp & r1 & _ & H1 & ->).
    inversion H1 as [|p ? r2 ? Hp H2]; subst. apply Forall2_app_inv_r in H2. destruct H2 as (mp & r3 & Hm & H3 & ->).
    inversion H3 as [|q ? rp ? Hq _]; subst. exists lp, p, mp, q, rp. auto. }
  constructor.
  - intros ->. inversion HR; subst. congruence.
  - exact Hid.
  - intros r Hr. destruct (In_nth_error _ _ Hr) as (n & En).
    assert (exists p x, nth_error F p = Some x /\ r = mkRow (new p) (rtime x) (rval x)) as (p & x & Ex & ->).
    { clear -HR En. revert n En. induction HR as [|p g ps gs (x & Ex & Eg) HR IH]; intros [|n] En; try discriminate.
      - injection En as <-. eauto.
      - eapply IH; eassumption. }
    cbn. apply Ht. eapply nth_error_In; eassumption.
  - intros l a m b r c E Eab Hc. destruct (Hsplit _ _ _ _ _ E) as (lp & p & mp & q & rp & Ep & (x & Ex & ->) & (y & Ey & ->) & Hm).
    cbn in *. rewrite Ep in Hs. destruct (sorted_middle _ _ _ _ _ _ Hs) as (H1 & H2 & H3).
    apply In_nth_error in Hc. destruct Hc as (n & En).
    assert (exists k z, In k mp /\ c = mkRow (new k) (rtime z) (rval z)) as (k & z & Hk & ->).
    { clear -Hm En. revert n En. induction Hm as [|p g ps gs (x & Ex & Eg) HR IH]; intros [|n] En; try discriminate.
      - injection En as <-. exists p, x. split; [left; reflexivity|exact Eg].
      - destruct (IH _ En) as (k & z & Hk & Ec). exists k, z. split; [right; exact Hk|exact Ec]. }
    cbn. specialize (H1 _ Hk). specialize (H2 _ Hk).
    assert (Hin : forall j, In j (p :: mp ++ q :: rp) -> In j pos) by (intros j Hj; rewrite Ep; apply in_or_app; right; exact Hj).
    destruct (Hnew p q ltac:(lia) (Hin _ (or_introl eq_refl)) (Hin q ltac:(right; apply in_or_app; right; left; reflexivity)) Eab k ltac:(lia)
       (Hin k ltac:(right; apply in_or_app; left; exact Hk))) as [E1 _]. exact E1.
  - intros a b (l & m & r & E) Eab. destruct (Hsplit _ _ _ _ _ E) as (lp & p & mp & q & rp & Ep & (x & Ex & ->) & (y & Ey & ->) & _).
    cbn in *. rewrite Ep in Hs. destruct (sorted_middle _ _ _ _ _ _ Hs) as (_ & _ & H3).
    assert (Hin : forall j, In j (p :: mp ++ q :: rp) -> In j pos) by (intros j Hj; rewrite Ep; apply in_or_app; right; exact Hj).
    assert (Hq : In q pos) by (apply Hin; right; apply in_or_app; right; left; reflexivity).
    destruct (Hnew p q ltac:(lia) (Hin _ (or_introl eq_refl)) Hq Eab q ltac:(lia) Hq) as [_ E2].
    rewrite Ex, Ey in E2. cbn in E2. injection E2 as E2. eapply time_increasing_at; eauto.
Qed.

Lemma part_ids_nonneg (F : frame) train test Tr Te : assign_ids_train_test F train test = Ok (Tr, Te) ->
  (forall r, In r Tr -> (0 <= rid r)%Z) /\ (forall r, In r Te -> (0 <= rid r)%Z).
Proof.
  unfold assign_ids_train_test.
  destruct (negb _); [discriminate|]. destruct (existsb _ train); [discriminate|]. destruct (existsb _ (train ++ test)); [discriminate|].
  intros E. injection E as <- <-.
  assert (H : forall f r, In r (pick f (zip_rows (map Z.of_nat (train_test_new_ids F train test)) (time_index F) (to_numpy F))) -> (0 <= rid r)%Z).
  { intros f r Hr.
    assert (Hz : In r (zip_rows (map Z.of_nat (train_test_new_ids F train test)) (time_index F) (to_numpy F))).
    { unfold pick in Hr. apply in_map_iff in Hr. destruct Hr as ((n & x) & <- & Hx). apply filter_In in Hx. destruct Hx as [Hx _].
      unfold enumerate in Hx. apply in_combine_r in Hx. exact Hx. }
    unfold zip_rows in Hz. apply in_map_iff in Hz. destruct Hz as (((i & t) & x) & <- & Hx). cbn.
    apply in_combine_l in Hx. apply in_combine_l in Hx. apply in_map_iff in Hx. destruct Hx as (n & <- & _). lia. }
  split; apply H.
Qed.

Lemma legal_assign (F : frame) split : LegalSplit (length F) split ->
  exists Tr Te, assign_ids_train_test F (fst split) (snd split) = Ok (Tr, Te).
Proof.
  intros (S1 & S2 & _ & _ & Hd & Hr). apply train_test_total; try apply strictly_inc_of; assumption.
Qed.

(** A legal split of a valid collection is accepted. *)
Lemma split_ok (F : frame) split : ValidRows F -> LegalSplit (length F) split ->
  exists Tr Te, split_X F (fst split) (snd split) = Ok (Tr, Te) /\ ValidRows Tr /\ ValidRows Te /\ Divided F split Tr Te.
Proof.
  intros HV HL. destruct (legal_assign F split HL) as (Tr & Te & E). exists Tr, Te.
  destruct HL as (S1 & S2 & N1 & N2 & Hd & Hr).
  destruct (train_test_spec F _ _ _ _ E) as (new & R1 & R2 & Hnew).
  destruct (part_ids_nonneg F _ _ _ _ E) as [I1 I2].
  assert (V1 : ValidRows Tr).
  { apply (relabelled_valid F new (fst split)); try assumption.
    intros p q Hpq Hp Hq Epq k Hk Hin.
    assert (Hp' : In p (fst split ++ snd split)) by (apply in_or_app; left; exact Hp).
    assert (Hq' : In q (fst split ++ snd split)) by (apply in_or_app; left; exact Hq).
    assert (Hk' : In k (fst split ++ snd split)) by (apply in_or_app; left; exact Hin).
    pose proof (proj1 (Hnew p q Hpq Hp' Hq') Epq) as H. split; [|apply H; exact Hk].
    symmetry. apply (Hnew p k); [lia|exact Hp'|exact Hk'|]. intros j Hj. apply H. lia. }
  assert (V2 : ValidRows Te).
  { apply (relabelled_valid F new (snd split)); try assumption.
    intros p q Hpq Hp Hq Epq k Hk Hin.
    assert (Hp' : In p (fst split ++ snd split)) by (apply in_or_app; right; exact Hp).
    assert (Hq' : In q (fst split ++ snd split)) by (apply in_or_app; right; exact Hq).
    assert (Hk' : In k (fst split ++ snd split)) by (apply in_or_app; right; exact Hin).
    pose proof (proj1 (Hnew p q Hpq Hp' Hq') Epq) as H. split; [|apply H; exact Hk].
    symmetry. apply (Hnew p k); [lia|exact Hp'|exact Hk'|]. intros j Hj. apply H. lia. }
  split; [|split; [exact V1|split; [exact V2|exists new; split; assumption]]].
  unfold split_X. rewrite E. cbn [bind fst snd]. unfold is_collection.
  rewrite (proj2 (tsc_ok Tr Tr) (conj V1 eq_refl)), (proj2 (tsc_ok Te Te) (conj V2 eq_refl)). reflexivity.
Qed.

Lemma split_inv (F : frame) train test Tr Te : split_X F train test = Ok (Tr, Te) ->
  assign_ids_train_test F train test = Ok (Tr, Te).
Proof.
  unfold split_X. destruct (assign_ids_train_test F train test) as [p|]; [|discriminate]. cbn.
  destruct (is_collection (fst p)) as [a|]; [|discriminate]. cbn.
  destruct (is_collection (snd p)) as [b|]; [|discriminate]. cbn.
  destruct (a && b); [|discriminate]. congruence.
Qed.

End Split.

(** ** Ranking *)

Lemma lower_spec a b : num_ltb a b = true <-> Lower a b.
Proof.
  destruct a as [x|], b as [y|]; cbn; try (split; intros; [exact I || congruence|reflexivity || contradiction]).
  - rewrite negb_true_iff. split.
    + intros H. apply Qnot_le_lt. intros Hle. apply Qle_bool_iff in Hle. congruence.
    + intros H. apply not_true_is_false. rewrite Qle_bool_iff. apply Qlt_not_le. exact H.
Qed.

Lemma lower_trans a b c : Lower a b -> Lower b c -> Lower a c.
Proof.
  destruct a, b, c; cbn; try tauto. apply Qlt_trans.
Qed.

Lemma lower_irrefl a : ~ Lower a a.
Proof. destruct a; cbn; [apply Qlt_irrefl|tauto]. Qed.

(** Not lower is a total preorder: [b] is at most [a], and [a] lower than [c]. *)
Lemma lower_weak a b c : ~ Lower a b -> Lower a c -> Lower b c.
Proof.
  destruct a as [x|], b as [y|], c as [z|]; cbn; try tauto. intros H1 H2. apply Qnot_lt_le in H1. eapply Qle_lt_trans; eassumption.
Qed.

Lemma filter_length_le {A} (f g : A -> bool) l : (forall x, In x l -> f x = true -> g x = true) ->
  length (filter f l) <= length (filter g l).
Proof.
  induction l as [|x l IH]; intros H; [reflexivity|]. cbn.
  assert (IH' : length (filter f l) <= length (filter g l)) by (apply IH; intros; apply H; [right; assumption|assumption]).
  destruct (f x) eqn:Ef; [rewrite (H x (or_introl eq_refl) Ef); cbn; lia|]. destruct (g x); cbn; lia.
Qed.

Lemma filter_length_lt {A} (f g : A -> bool) l y : (forall x, In x l -> f x = true -> g x = true) ->
  In y l -> f y = false -> g y = true -> length (filter f l) < length (filter g l).
Proof.
  induction l as [|x l IH]; intros H Hy Hf Hg; [destruct Hy|]. cbn.
  assert (Hl : forall z, In z l -> f z = true -> g z = true) by (intros; apply H; [right; assumption|assumption]).
  destruct Hy as [->|Hy].
  - rewrite Hf, Hg. cbn. assert (H1 := filter_length_le f g l Hl). lia.
  - assert (H1 := IH Hl Hy Hf Hg). destruct (f x) eqn:Ef; [rewrite (H x (or_introl eq_refl) Ef); cbn; lia|]. destruct (g x); cbn; lia.
Qed.

Lemma rank_lt l a b : In b l -> Lower a b -> rank l b < rank l a.
Proof.
  intros Hb H. unfold rank. apply -> Nat.succ_lt_mono. apply (filter_length_lt _ _ _ b).
  - intros x _ Hx. apply lower_spec in Hx. apply lower_spec. eapply lower_trans; eassumption.
  - exact Hb.
  - apply not_true_is_false. rewrite lower_spec. apply lower_irrefl.
  - apply lower_spec. exact H.
Qed.

Lemma rank_le l a b : ~ Lower a b -> rank l a <= rank l b.
Proof.
  intros H. unfold rank. apply le_n_S. apply filter_length_le. intros x _ Hx. apply lower_spec in Hx. apply lower_spec.
  eapply lower_weak; eassumption.
Qed.

Lemma argmin_from_spec l : forall best value k,
  (argmin_from best value k l = best /\ (forall j x, nth_error l j = Some x -> value <= x)) \/
  (exists j x, argmin_from best value k l = k + j /\ nth_error l j = Some x /\ x < value /\
     (forall i y, nth_error l i = Some y -> x <= y) /\ (forall i y, i < j -> nth_error l i = Some y -> x < y)).
Proof.
  induction l as [|x l IH]; intros best value k; cbn [argmin_from].
  - left. split; [reflexivity|]. intros [|j] ? H; discriminate.
  - destruct (Nat.ltb_spec x value) as [Hx|Hx].
    + right. destruct (IH k x (S k)) as [[E H]|(j & y & E & Ey & Hy & H1 & H2)]; rewrite E.
      * exists 0, x. split; [rewrite Nat.add_0_r; reflexivity|]. split; [reflexivity|]. split; [exact Hx|]. split.
        -- intros [|i] y Ei; cbn in Ei; [injection Ei as <-; lia|eapply H; eassumption].
        -- intros i y Hi. lia.
      * exists (S j), y. split; [lia|]. split; [exact Ey|]. split; [lia|]. split.
        -- intros [|i] z Ei; cbn in Ei; [injection Ei as <-; lia|eapply H1; eassumption].
        -- intros [|i] z Hi Ei; cbn in Ei; [injection Ei as <-; lia|]. eapply H2; [|eassumption]. lia.
    + destruct (IH best value (S k)) as [[E H]|(j & y & E & Ey & Hy & H1 & H2)]; rewrite E.
      * left. split; [reflexivity|]. intros [|i] y Ei; cbn in Ei; [injection Ei as <-; lia|eapply H; eassumption].
      * right. exists (S j), y. split; [lia|]. split; [exact Ey|]. split; [lia|]. split.
        -- intros [|i] z Ei; cbn in Ei; [injection Ei as <-; lia|eapply H1; eassumption].
        -- intros [|i] z Hi Ei; cbn in Ei; [injection Ei as <-; lia|]. eapply H2; [|eassumption]. lia.
Qed.

Lemma argmin_spec l : l <> [] -> exists x, nth_error l (argmin l) = Some x /\
  (forall i y, nth_error l i = Some y -> x <= y) /\ (forall i y, i < argmin l -> nth_error l i = Some y -> x < y).
Proof.
  destruct l as [|x l]; [congruence|]. intros _. cbn [argmin].
  destruct (argmin_from_spec l 0 x 1) as [[-> H]|(j & y & -> & Ey & Hy & H1 & H2)].
  - exists x. split; [reflexivity|]. split; [|intros; lia].
    intros [|i] y Ei; cbn in Ei; [injection Ei as <-; lia|eapply H; eassumption].
  - exists y. split; [exact Ey|]. split.
    + intros [|i] z Ei; cbn in Ei; [injection Ei as <-; lia|eapply H1; eassumption].
    + intros [|i] z Hi Ei; cbn in Ei; [injection Ei as <-; lia|]. eapply H2; [|eassumption]. lia.
Qed.

Lemma best_spec l : l <> [] -> exists m, nth_error l (argmin (ranks l)) = Some m /\
  forall j x, nth_error l j = Some x -> ~ Lower m x /\ (j < argmin (ranks l) -> Lower x m).
Proof.
  intros Hne. destruct (argmin_spec (ranks l)) as (r & Er & H1 & H2).
  { unfold ranks. destruct l; [congruence|discriminate]. }
  unfold ranks in Er at 1. rewrite nth_error_map in Er. destruct (nth_error l (argmin (ranks l))) as [m|] eqn:Em; [|discriminate].
  cbn in Er. injection Er as <-. exists m. split; [reflexivity|]. intros j x Ex.
  assert (Ej : nth_error (ranks l) j = Some (rank l x)) by (unfold ranks; rewrite nth_error_map, Ex; reflexivity).
  split.
  - intros HL. apply (rank_lt l) in HL; [|eapply nth_error_In; eassumption]. specialize (H1 _ _ Ej). lia.
  - intros Hj. specialize (H2 _ _ Hj Ej). destruct (num_ltb x m) eqn:E; [apply lower_spec; exact E|].
    assert (Hn : ~ Lower x m) by (rewrite <- lower_spec; congruence). apply (rank_le l) in Hn. lia.
Qed.

Lemma sum_spec l : match sum l with
  | None => In None l
  | Some q => exists v, l = map Some v /\ (q == fold_right Qplus 0 v)%Q
  end.
Proof.
  induction l as [|[x|] l IH]; cbn.
  - exists []. split; reflexivity.
  - destruct (sum l) as [q|]; [|right; exact IH]. destruct IH as (v & -> & Hq). exists (x :: v). split; [reflexivity|]. cbn. rewrite Hq. reflexivity.
  - left; reflexivity.
Qed.

Lemma mean_spec l : l <> [] -> Average l (mean l).
Proof.
  intros Hne. unfold mean. assert (H := sum_spec l). destruct (sum l) as [q|]; [|exact H].
  destruct H as (v & E & Hq). exists v. split; [exact E|]. rewrite <- Hq. field.
  intros H. destruct l; [congruence|]. unfold Qeq in H. cbn in H. lia.
Qed.

(** ** The table *)

Lemma product_cons {A B} (a : A) l (l' : list B) : product (a :: l) l' = map (fun b => (a, b)) l' ++ product l l'.
Proof. reflexivity. Qed.

Lemma product_length {A B} (l : list A) (l' : list B) : length (product l l') = length l * length l'.
Proof. induction l as [|a l IH]; [reflexivity|]. rewrite product_cons, app_length, map_length, IH. reflexivity. Qed.

Lemma reshape_length {A} r k (l : list A) : length (reshape r k l) = r.
Proof. revert l. induction r; intros; cbn; [reflexivity|rewrite IHr; reflexivity]. Qed.

Lemma forall2_length {A B} (R : A -> B -> Prop) l l' : Forall2 R l l' -> length l = length l'.
Proof. induction 1; cbn; congruence. Qed.

Lemma table_spec {A B C D} (R : A * B -> C -> Prop) (f : C -> D) (l : list A) (l' : list B) : forall out,
  Forall2 R (product l l') out -> forall i a, nth_error l i = Some a ->
  exists row, nth_error (reshape (length l) (length l') (map f out)) i = Some row /\ length row = length l' /\
    forall j b, nth_error l' j = Some b -> exists o, R (a, b) o /\ nth_error row j = Some (f o).
Proof.
  induction l as [|a l IH]; intros out H i x Ei; [destruct i; discriminate|].
  rewrite product_cons in H. apply Forall2_app_inv_l in H. destruct H as (o1 & o2 & H1 & H2 & ->).
  assert (Hl : length o1 = length l') by (apply forall2_length in H1; rewrite map_length in H1; symmetry; exact H1).
  cbn [reshape length]. rewrite map_app, firstn_app, skipn_app, map_length, Hl, Nat.sub_diag.
  rewrite firstn_all2, skipn_all2 by (rewrite map_length; lia). cbn [app skipn firstn]. rewrite app_nil_r.
  destruct i as [|i]; cbn in Ei |- *.
  - injection Ei as <-. exists (map f o1). split; [reflexivity|]. split; [rewrite map_length; exact Hl|].
    intros j b Ej. clear -H1 Ej. revert o1 j H1 Ej. induction l' as [|c l' IH]; intros o1 j H1 Ej; [destruct j; discriminate|].
    cbn in H1. inversion H1; subst. destruct j as [|j]; cbn in Ej |- *; [injection Ej as <-; eauto|]. apply IH; assumption.
  - apply IH; assumption.
Qed.

(** ** The search *)

Section Search.
Context {V P M FP : Type}.
Notation frame := (list (row V)).
Variable fit : list (nat * P) -> frame -> FP -> result M.
Variable score : M -> frame -> result num.
Variable restrict : FP -> list nat -> FP.
Notation fit_and_score := (fit_and_score fit score restrict).
Notation search_fit := (search_fit fit score restrict).
Notation Evaluated := (Evaluated fit score restrict).

Lemma task_inv base (F : frame) fp es rts cand split o : NoDup (map fst cand) ->
  fit_and_score base F fp es rts cand split = Ok o -> Evaluated base F fp es cand split (test_score o).
Proof.
  destruct split as [train test]. intros Hn. unfold SearchModel.fit_and_score.
  destruct (set_params base cand) as [est|] eqn:Ee; [|discriminate]. cbn [bind].
  destruct (split_X F train test) as [[Tr Te]|] eqn:Es; [|discriminate]. cbn [bind].
  intros E. exists est, Tr, Te. split; [apply set_params_get; assumption|]. split.
  { apply split_inv in Es. destruct (train_test_spec _ _ _ _ _ Es) as (new & R1 & R2 & _). exists new. split; assumption. }
  cbn [fst]. destruct (fit est Tr (restrict fp train)) as [m|e] eqn:Ef.
  - unfold score_with in E. destruct (score m Te) as [v|e] eqn:Et.
    + left. cbn in E. destruct rts; [|injection E as <-; reflexivity].
      destruct (match score m Tr with Ok s => Ok s | Err e => match es with Raise => Err e | Number q => Ok q end end); [|discriminate].
      injection E as <-. reflexivity.
    + right. exists e. split; [reflexivity|]. destruct es as [|q]; [discriminate|]. cbn in E.
      destruct rts; [|injection E as <-; reflexivity].
      destruct (match score m Tr with Ok s => Ok s | Err e => Ok q end); [|discriminate].
      injection E as <-. reflexivity.
  - destruct es as [|q]; [discriminate|]. injection E as <-. reflexivity.
Qed.

(** What a finished search has done. *)
Lemma search_inv base cands splits n es rts refit (F : frame) fp R :
  search_fit base cands splits n es rts refit F fp = Ok R ->
  exists sp out, splits = Ok sp /\ n = length sp /\ cands <> [] /\ sp <> [] /\
    Forall2 (fun t o => fit_and_score base F fp es rts (fst t) (snd t) = Ok o) (product cands sp) out /\
    split_scores R = reshape (length cands) (length sp) (map test_score out) /\
    mean_scores R = map mean (split_scores R) /\ rank_scores R = ranks (mean_scores R) /\
    best_index R = argmin (rank_scores R) /\ best_score R = nth (best_index R) (mean_scores R) None /\
    best_params R = nth (best_index R) cands [] /\
    (if refit then exists est m, set_params base (best_params R) = Ok est /\ fit est F fp = Ok m /\ best_estimator R = Some m
     else best_estimator R = None).
Proof.
  unfold SearchModel.search_fit. destruct splits as [sp|]; [|discriminate]. cbn [bind].
  destruct (map_result _ _) as [out|] eqn:Eo; [|discriminate]. cbn [bind].
  destruct (Nat.ltb_spec (length out) 1); [discriminate|].
  destruct (Nat.eqb_spec (length out) (length cands * n)) as [En|]; [|discriminate]. cbn [negb].
  apply map_result_inv in Eo. assert (El := forall2_length _ _ _ Eo). rewrite product_length in El.
  assert (Hc : length cands <> 0) by nia.
  assert (Hn : n = length sp) by nia. assert (Hs : length sp <> 0) by nia.
  intros E. exists sp, out. split; [reflexivity|]. split; [exact Hn|].
  split; [intros ->; cbn in Hc; lia|]. split; [intros ->; cbn in Hs; lia|]. split; [exact Eo|]. rewrite <- Hn.
  destruct refit.
  - destruct (set_params base _) as [est|] eqn:Ee; [|discriminate]. cbn [bind] in E.
    destruct (fit est F fp) as [m|] eqn:Ef; [|discriminate]. cbn [bind] in E. injection E as <-. cbn.
    repeat (split; [reflexivity|]). eauto.
  - injection E as <-. cbn. repeat (split; [reflexivity|]). reflexivity.
Qed.

Lemma search_table base cands splits n es rts refit (F : frame) fp R :
  (forall c, In c cands -> NoDup (map fst c)) ->
  search_fit base cands splits n es rts refit F fp = Ok R ->
  exists sp, splits = Ok sp /\ n = length sp /\ length (split_scores R) = length cands /\
  forall i cand, nth_error cands i = Some cand ->
    exists row m, nth_error (split_scores R) i = Some row /\ nth_error (mean_scores R) i = Some m /\
      length row = length sp /\ Average row m /\
      forall j split, nth_error sp j = Some split ->
        exists v, nth_error row j = Some v /\ Evaluated base F fp es cand split v.
Proof.
  intros Hn E. destruct (search_inv _ _ _ _ _ _ _ _ _ _ E) as (sp & out & E1 & E2 & Hc & Hs & Ho & Et & Em & _).
  exists sp. split; [exact E1|]. split; [exact E2|]. split; [rewrite Et; apply reshape_length|].
  intros i cand Ei. destruct (table_spec _ test_score _ _ _ Ho _ _ Ei) as (row & Er & El & Hr).
  exists row, (mean row). rewrite <- Et in Er. split; [exact Er|]. split; [rewrite Em, nth_error_map, Er; reflexivity|].
  split; [exact El|]. split; [apply mean_spec; intros ->; destruct sp; [congruence|discriminate]|].
  intros j split Ej. destruct (Hr _ _ Ej) as (o & Eo & Ev). exists (test_score o). split; [exact Ev|].
  eapply task_inv; [apply Hn; eapply nth_error_In; eassumption|exact Eo].
Qed.

Lemma search_best base cands splits n es rts refit (F : frame) fp R :
  search_fit base cands splits n es rts refit F fp = Ok R ->
  nth_error cands (best_index R) = Some (best_params R) /\
  nth_error (mean_scores R) (best_index R) = Some (best_score R) /\
  forall i m, nth_error (mean_scores R) i = Some m ->
    ~ Lower (best_score R) m /\ (i < best_index R -> Lower m (best_score R)).
Proof.
  intros E. destruct (search_inv _ _ _ _ _ _ _ _ _ _ E) as (sp & out & E1 & E2 & Hc & Hs & Ho & Et & Em & Er & Eb & Es & Ep & _).
  assert (Hl : length (mean_scores R) = length cands) by (rewrite Em, map_length, Et; apply reshape_length).
  destruct (best_spec (mean_scores R)) as (m & Ebm & H).
  { intros H0. rewrite H0 in Hl. destruct cands; [congruence|discriminate]. }
  rewrite <- Er, <- Eb in Ebm, H. assert (Esm : best_score R = m) by (rewrite Es; apply nth_error_nth; exact Ebm).
  rewrite Esm. split; [|split; [exact Ebm|exact H]].
  rewrite Ep. apply nth_error_nth'. rewrite <- Hl. apply nth_error_Some. congruence.
Qed.

Lemma search_refit base cands splits n es rts (F : frame) fp R :
  (forall c, In c cands -> NoDup (map fst c)) ->
  search_fit base cands splits n es rts true F fp = Ok R ->
  exists est m, Configured base (best_params R) est /\ fit est F fp = Ok m /\ best_estimator R = Some m.
Proof.
  intros Hn E. destruct (search_best _ _ _ _ _ _ _ _ _ _ E) as (Eb & _).
  destruct (search_inv _ _ _ _ _ _ _ _ _ _ E) as (sp & out & _ & _ & _ & _ & _ & _ & _ & _ & _ & _ & _ & est & m & E1 & E2 & E3).
  exists est, m. split; [|split; assumption]. apply set_params_get; [|exact E1]. apply Hn. eapply nth_error_In; exact Eb.
Qed.

(** ** Success *)

Lemma task_ok base (F : frame) fp es rts cand split : ValidRows F -> LegalSplit (length F) split ->
  (forall k, In k (map fst cand) -> get base k <> None) ->
  (es = Raise -> forall est Tr, ValidRows Tr -> exists m, fit est Tr (restrict fp (fst split)) = Ok m) ->
  (es = Raise -> forall m X, ValidRows X -> exists v, score m X = Ok v) ->
  exists o, fit_and_score base F fp es rts cand split = Ok o.
Proof.
  intros HV HL Hk Hf Hs. destruct (split_ok F split HV HL) as (Tr & Te & E & V1 & V2 & _). destruct split as [train test]. cbn [fst snd] in *.
  unfold SearchModel.fit_and_score. destruct (set_params_ok cand base Hk) as (est & ->). cbn [bind]. rewrite E. cbn [bind].
  assert (Hw : forall m X, ValidRows X -> exists v, score_with score es m X = Ok v).
  { intros m X HX. unfold score_with. destruct (score m X) as [v|e] eqn:Ev; [eauto|]. destruct es as [|q]; [|eauto].
    destruct (Hs eq_refl m X HX) as (v & Ev'). congruence. }
  destruct (fit est Tr (restrict fp train)) as [m|e] eqn:Ef.
  - destruct (Hw m Te V2) as (v & ->). cbn [bind]. destruct rts; [|eauto]. destruct (Hw m Tr V1) as (s & ->). cbn [bind]. eauto.
  - destruct es as [|q]; [|eauto]. destruct (Hf eq_refl est Tr V1) as (m & Em). congruence.
Qed.

Lemma map_result_exists {A B} (f : A -> result B) l : (forall x, In x l -> exists y, f x = Ok y) -> exists r, map_result f l = Ok r.
Proof.
  induction l as [|x l IH]; intros H; [exists []; reflexivity|]. cbn.
  destruct (H x (or_introl eq_refl)) as (y & ->). destruct IH as (r & ->); [intros; apply H; right; assumption|]. eauto.
Qed.

Lemma in_product {A B} (l : list A) (l' : list B) t : In t (product l l') -> In (fst t) l /\ In (snd t) l'.
Proof.
  unfold product. intros H. apply in_flat_map in H. destruct H as (a & Ha & H). apply in_map_iff in H. destruct H as (b & <- & Hb). split; assumption.
Qed.

Lemma search_ok base cands sp es rts refit (F : frame) fp : ValidRows F ->
  cands <> [] -> sp <> [] -> (forall s, In s sp -> LegalSplit (length F) s) ->
  (forall c k, In c cands -> In k (map fst c) -> get base k <> None) ->
  (es = Raise \/ refit = true -> forall est Tr fp', ValidRows Tr -> exists m, fit est Tr fp' = Ok m) ->
  (es = Raise -> forall m X, ValidRows X -> exists v, score m X = Ok v) ->
  exists R, search_fit base cands (Ok sp) (length sp) es rts refit F fp = Ok R.
Proof.
  intros HV Hc Hs HL Hk Hf Hsc. unfold SearchModel.search_fit. cbn [bind].
  match goal with |- context [map_result ?f ?l] => destruct (map_result_exists f l) as (out & Eo) end.
  { intros t Ht. apply in_product in Ht. destruct Ht as [H1 H2]. apply task_ok; auto. intros k Hk'. eapply Hk; eassumption. }
  rewrite Eo. cbn [bind]. apply map_result_inv, forall2_length in Eo. rewrite product_length in Eo. rewrite <- Eo.
  destruct cands as [|c0 cands]; [congruence|]. destruct sp as [|s0 sp]; [congruence|].
  destruct (Nat.ltb_spec (length (c0 :: cands) * length (s0 :: sp)) 1) as [H|_]; [cbn in H; lia|]. rewrite Nat.eqb_refl. cbn [negb].
  destruct refit; [|eexists; reflexivity].
  match goal with |- context [nth ?b (c0 :: cands) []] => set (best := b) end.
  match goal with |- context [set_params base ?c] => destruct (set_params_ok c base) as (est & Est) end.
  { destruct (Nat.lt_ge_cases best (length (c0 :: cands))) as [Hb|Hb].
    - intros k. apply Hk. apply nth_In. exact Hb.
    - rewrite nth_overflow by exact Hb. intros k []. }
  rewrite Est. cbn [bind]. destruct (Hf (or_intror eq_refl) est F fp HV) as (m & ->). cbn [bind]. eexists; reflexivity.
Qed.

(** ** Models that cannot be scored *)

Lemma argmin_const l : (forall x y, In x l -> In y l -> x = y) -> argmin l = 0.
Proof.
  destruct l as [|x l]; [reflexivity|]. intros H. cbn [argmin].
  destruct (argmin_from_spec l 0 x 1) as [[-> _]|(j & y & _ & Ey & Hy & _)]; [reflexivity|]. exfalso.
  assert (y = x); [|lia]. apply H; [right; eapply nth_error_In; eassumption|left; reflexivity].
Qed.

Lemma search_unscored base cands splits n q rts refit (F : frame) fp R :
  (forall m X, exists e, score m X = Err e) ->
  search_fit base cands splits n (Number q) rts refit F fp = Ok R ->
  best_index R = 0 /\ forall row v, In row (split_scores R) -> In v row -> v = q.
Proof.
  intros Hs E. destruct (search_inv _ _ _ _ _ _ _ _ _ _ E) as (sp & out & E1 & E2 & Hc & Hne & Ho & Et & Em & Er & Eb & _).
  assert (Hout : forall o, In o out -> test_score o = q).
  { intros o Hin. clear -Ho Hin Hs. induction Ho as [|t o' ts os Hx HF IH]; [destruct Hin|]. destruct Hin as [->|Hin]; [|auto].
    unfold SearchModel.fit_and_score in Hx. destruct (snd t) as [train test].
    destruct (set_params base (fst t)) as [est|]; [|discriminate]. cbn [bind] in Hx.
    destruct (split_X F train test) as [[Tr Te]|]; [|discriminate]. cbn [bind] in Hx.
    destruct (fit est Tr (restrict fp train)) as [m|]; [|injection Hx as <-; reflexivity].
    unfold score_with in Hx. destruct (Hs m Te) as (e & Ee). rewrite Ee in Hx. cbn [bind] in Hx.
    destruct rts; [|injection Hx as <-; reflexivity]. destruct (Hs m Tr) as (e' & Ee'). rewrite Ee' in Hx. cbn [bind] in Hx.
    injection Hx as <-. reflexivity. }
  assert (Hrows : forall r k (l : list num), length l = r * k -> (forall v, In v l -> v = q) ->
    forall row, In row (reshape r k l) -> row = repeat q k).
  { induction r as [|r IH]; intros k l Hl Hq row Hrow; [destruct Hrow|]. cbn in Hrow. destruct Hrow as [<-|Hrow].
    - clear -Hl Hq. cbn in Hl. revert l Hl Hq. induction k as [|k IHk]; intros l Hl Hq; [reflexivity|]. destruct l as [|x l]; [discriminate|].
      cbn. rewrite (Hq x (or_introl eq_refl)). f_equal. 
      assert (H : forall k l, k <= length l -> (forall v : num, In v l -> v = q) -> firstn k l = repeat q k).
      { clear. induction k as [|k IH]; intros [|x l] Hl Hq; cbn in *; try reflexivity; [lia|]. rewrite (Hq x (or_introl eq_refl)). f_equal. apply IH; [lia|]. auto. }
      apply H; [cbn in Hl; lia|]. intros v Hv. apply Hq. right; exact Hv.
    - apply (IH k (skipn k l)); [rewrite skipn_length; cbn in Hl; lia| |exact Hrow].
      intros v Hv. apply Hq. clear -Hv. revert l Hv. induction k as [|k IHk]; intros l Hv; [exact Hv|]. destruct l; [destruct Hv|]. right. apply IHk. exact Hv. }
  assert (Hl : length (map test_score out) = length cands * length sp).
  { rewrite map_length. apply forall2_length in Ho. rewrite product_length in Ho. lia. }
  assert (Hq : forall v, In v (map test_score out) -> v = q).
  { intros v Hv. apply in_map_iff in Hv. destruct Hv as (o & <- & Hin). auto. }
  specialize (Hrows _ _ _ Hl Hq). rewrite <- Et in Hrows. split.
  - rewrite Eb, Er, Em. apply argmin_const. unfold ranks. intros x y Hx Hy.
    apply in_map_iff in Hx. destruct Hx as (a & <- & Ha). apply in_map_iff in Hy. destruct Hy as (b & <- & Hb).
    apply in_map_iff in Ha. destruct Ha as (ra & <- & Ha). apply in_map_iff in Hb. destruct Hb as (rb & <- & Hb).
    rewrite (Hrows _ Ha), (Hrows _ Hb). reflexivity.
  - intros row v Hrow Hv. rewrite (Hrows _ Hrow) in Hv. apply repeat_spec in Hv. exact Hv.
Qed.

Lemma search_unscored_raise base cands splits n rts refit (F : frame) fp R :
  (forall m X, exists e, score m X = Err e) ->
  search_fit base cands splits n Raise rts refit F fp <> Ok R.
Proof.
  intros Hs E. destruct (search_inv _ _ _ _ _ _ _ _ _ _ E) as (sp & out & E1 & E2 & Hc & Hne & Ho & _).
  destruct cands as [|c0 cands]; [congruence|]. destruct sp as [|[train test] sp]; [congruence|]. inversion Ho as [|? ? ? ? Hx _]; subst.
  cbn [fst snd] in Hx. unfold SearchModel.fit_and_score in Hx.
  destruct (set_params base c0) as [est|]; [|discriminate]. cbn [bind] in Hx.
  destruct (split_X F train test) as [[Tr Te]|]; [|discriminate]. cbn [bind] in Hx.
  destruct (fit est Tr (restrict fp train)) as [m|]; [|discriminate].
  unfold score_with in Hx. destruct (Hs m Te) as (e' & Ee). rewrite Ee in Hx. discriminate.
Qed.

End Search.

(** ** No leakage *)

Section Leak.
Context {V : Type}.
Notation frame := (list (row V)).

Lemma pick_from_agree {A} P : forall (l l' : list A) s, length l = length l' ->
  (forall i, i < length l -> P (s + i) = true -> nth_error l i = nth_error l' i) ->
  pick_from P s l = pick_from P s l'.
Proof.
  induction l as [|x l IH]; intros [|y l'] s Hl H; try discriminate; [reflexivity|].
  rewrite !pick_from_cons. rewrite (IH l' (Datatypes.S s)).
  - destruct (P s) eqn:Ep; [|reflexivity]. f_equal. specialize (H 0). cbn in H. rewrite Nat.add_0_r in H.
    assert (Some x = Some y) by (apply H; [lia|exact Ep]). congruence.
  - cbn in Hl. lia.
  - intros i Hi Hp. apply (H (Datatypes.S i)); [cbn; lia|]. rewrite Nat.add_succ_r. exact Hp.
Qed.

Lemma zip_rows_at (i t : list Z) (v : list V) : forall p,
  nth_error (zip_rows i t v) p =
  match nth_error i p, nth_error t p, nth_error v p with
  | Some a, Some b, Some c => Some (mkRow a b c)
  | _, _, _ => None
  end.
Proof.
  unfold zip_rows. revert t v. induction i as [|a i IH]; intros t v p.
  - cbn. destruct p; reflexivity.
  - destruct t as [|b t]; [cbn; destruct p; cbn; [reflexivity|destruct (nth_error i p); reflexivity]|].
    destruct v as [|c v]; [cbn; destruct p; cbn; [reflexivity|destruct (nth_error i p), (nth_error t p); reflexivity]|].
    destruct p as [|p]; [reflexivity|]. cbn. apply IH.
Qed.

Lemma train_only (F F' : frame) train test Tr Te : index F = index F' ->
  (forall p, In p train -> nth_error F p = nth_error F' p) ->
  split_X F train test = Ok (Tr, Te) -> exists Te', split_X F' train test = Ok (Tr, Te').
Proof.
  intros HI Hag E.
  assert (Hids : ids_index F = ids_index F').
  { unfold ids_index. unfold index in HI. apply (f_equal (map fst)) in HI. rewrite !map_map in HI. exact HI. }
  assert (Hts : time_index F = time_index F').
  { unfold time_index. unfold index in HI. apply (f_equal (map snd)) in HI. rewrite !map_map in HI. exact HI. }
  assert (Hlen : length F = length F') by (apply (f_equal (@length _)) in HI; unfold index in HI; rewrite !map_length in HI; exact HI).
  assert (Hnew : train_test_new_ids F train test = train_test_new_ids F' train test).
  { unfold train_test_new_ids. rewrite Hids, Hlen. reflexivity. }
  unfold split_X in *. unfold assign_ids_train_test in *. rewrite <- Hlen.
  destruct (negb _); [discriminate|]. destruct (existsb _ train); [discriminate|]. destruct (existsb _ (train ++ test)); [discriminate|].
  cbn [bind fst snd] in *. rewrite <- Hnew, <- Hts.
  set (new := map Z.of_nat (train_test_new_ids F train test)) in *.
  set (A := pick (fun i => nat_mem i train) (zip_rows new (time_index F) (to_numpy F))) in *.
  assert (HA : pick (fun i => nat_mem i train) (zip_rows new (time_index F) (to_numpy F')) = A).
  { unfold A. rewrite !pick_is_pick_from. apply pick_from_agree.
    - unfold zip_rows, to_numpy. rewrite !map_length, !combine_length, !map_length. lia.
    - intros p _ Hp. cbn in Hp. rewrite !zip_rows_at. unfold to_numpy. rewrite !nth_error_map.
      unfold nat_mem in Hp. apply existsb_exists in Hp. destruct Hp as (x & Hx & Ex). apply Nat.eqb_eq in Ex. subst x. rewrite (Hag _ Hx). reflexivity. }
  rewrite HA. set (B := pick (fun i => nat_mem i test) (zip_rows new (time_index F) (to_numpy F))) in *.
  set (B' := pick (fun i => nat_mem i test) (zip_rows new (time_index F) (to_numpy F'))).
  assert (HB : index B = index B').
  { unfold B, B'. rewrite !pick_is_pick_from. unfold index.
    rewrite <- !pick_from_map. f_equal. unfold zip_rows. rewrite !map_map. cbn.
    clear -Hlen. assert (H : forall (l : list (Z * Z)) (v v' : list V), length v = length v' ->
      map (fun x : Z * Z * V => (fst (fst x), snd (fst x))) (combine l v) = map (fun x : Z * Z * V => (fst (fst x), snd (fst x))) (combine l v')).
    { induction l as [|a l IH]; intros [|b v] [|b' v'] H; try discriminate; [reflexivity..|]. cbn. f_equal. apply IH. cbn in H. lia. }
    apply H. unfold to_numpy. rewrite !map_length. exact Hlen. }
  assert (HC : is_collection B = is_collection B').
  { unfold is_collection, tsc. 
    assert (ids_index B = ids_index B') as ->.
    { unfold ids_index. unfold index in HB. apply (f_equal (map fst)) in HB. rewrite !map_map in HB. exact HB. }
    assert (time_index B = time_index B') as ->.
    { unfold time_index. unfold index in HB. apply (f_equal (map snd)) in HB. rewrite !map_map in HB. exact HB. }
    destruct (validate_index _ _); reflexivity. }
  rewrite <- HC. destruct (is_collection A) as [a|]; [|discriminate]. cbn [bind] in *.
  destruct (is_collection B) as [b|]; [|discriminate]. cbn [bind] in *.
  destruct (a && b); [|discriminate]. injection E as <- _. eauto.
Qed.

(** ** The splitters of the package *)

Lemma leak_free_legal N splits s : LeakFree N splits -> In s splits -> LegalSplit N s.
Proof.
  intros [Hp Hs Hn Hc] Hin. destruct s as [tr te]. destruct (Hs _ _ Hin) as [S1 S2]. destruct (Hn _ _ Hin) as [N2 N1].
  specialize (Hp _ _ Hin). unfold LegalSplit. cbn [fst snd].
  split; [exact S1|]. split; [exact S2|]. split; [exact N1|]. split; [exact N2|].
  assert (Hnd : NoDup (tr ++ te)) by (eapply Permutation_NoDup; [symmetry; exact Hp|apply seq_NoDup]).
  split.
  - intros x H1 H2. clear -Hnd H1 H2. induction tr as [|y tr IH]; [destruct H1|]. cbn in Hnd. inversion Hnd; subst.
    destruct H1 as [->|H1]; [apply H3; apply in_or_app; right; exact H2|auto].
  - intros x Hx. apply (Permutation_in _ Hp) in Hx. apply in_seq in Hx. lia.
Qed.

End Leak.

Lemma sorted_snoc {A} (R : A -> A -> Prop) l x : StronglySorted R l -> (forall y, In y l -> R y x) -> StronglySorted R (l ++ [x]).
Proof.
  induction 1 as [|y l Hs IH Hf]; intros H; cbn; [repeat constructor|]. constructor.
  - apply IH. intros z Hz. apply H. right; exact Hz.
  - rewrite Forall_forall in *. intros z Hz. apply in_app_or in Hz. destruct Hz as [Hz|[<-|[]]]; [auto|]. apply H. left; reflexivity.
Qed.

Lemma sorted_rev {A} (R : A -> A -> Prop) l : StronglySorted R l -> StronglySorted (fun a b => R b a) (rev l).
Proof.
  induction 1 as [|y l Hs IH Hf]; cbn; [constructor|]. apply sorted_snoc; [exact IH|].
  intros z Hz. rewrite Forall_forall in Hf. apply Hf. apply in_rev. exact Hz.
Qed.

Lemma sorted_filter {A} (R : A -> A -> Prop) f l : StronglySorted R l -> StronglySorted R (filter f l).
Proof.
  induction 1 as [|y l Hs IH Hf]; cbn; [constructor|]. destruct (f y); [|exact IH]. constructor; [exact IH|].
  rewrite Forall_forall in *. intros z Hz. apply filter_In in Hz. apply Hf. apply Hz.
Qed.

Lemma sorted_seq a n : StronglySorted lt (seq a n).
Proof.
  revert a. induction n as [|n IH]; intros a; cbn; [constructor|]. constructor; [apply IH|].
  rewrite Forall_forall. intros x Hx. apply in_seq in Hx. lia.
Qed.

Lemma window_legal {V} (F : list (row V)) k w o mn splits s :
  ValidRows F -> IdsSorted F -> 1 <= w -> window_fold k F w o mn = Ok splits -> In s splits -> LegalSplit (length F) s.
Proof.
  intros HV HS Hw E Hs. apply (window_fold_spec F HV HS) in E; [|exact Hw]. subst splits.
  apply filter_In in Hs. destruct Hs as [Hs Hne]. apply in_map_iff in Hs. destruct Hs as (te & <- & Hte). cbn [fst snd] in *.
  unfold windows_from_end in Hte. apply in_flat_map in Hte. destruct Hte as (i & _ & Hte). apply in_map_iff in Hte. destruct Hte as (x & <- & Hx).
  assert (Hp : StronglySorted lt (pos_of F i)) by (apply sorted_filter, sorted_seq).
  apply sorted_rev in Hp. destruct (full_windows_sub _ _ _ _ _ Hp Hx) as (S1 & I1 & L1). apply sorted_rev in S1.
  assert (Hr : forall p, In p (rev x) -> p < length F).
  { intros p Hpx. rewrite <- in_rev in Hpx. apply I1 in Hpx. rewrite <- in_rev in Hpx. unfold pos_of in Hpx.
    apply filter_In in Hpx. destruct Hpx as [Hpx _]. apply in_seq in Hpx. lia. }
  unfold LegalSplit. cbn [fst snd]. split; [apply sorted_filter, sorted_seq|]. split; [exact S1|].
  split; [intros H0; rewrite H0 in Hne; discriminate|].
  split; [intros H0; apply (f_equal (@length _)) in H0; rewrite rev_length in H0; cbn in H0; lia|].
  split.
  - intros p Hpt Hpx. unfold train_rows in Hpt. apply filter_In in Hpt. destruct Hpt as [_ Hpt]. apply andb_prop in Hpt. destruct Hpt as [Hpt _].
    apply negb_true_iff in Hpt. unfold mem in Hpt. assert (existsb (Nat.eqb p) (rev x) = true); [|congruence].
    apply existsb_exists. exists p. split; [exact Hpx|apply Nat.eqb_refl].
  - intros p Hpp. apply in_app_or in Hpp. destruct Hpp as [Hpp|Hpp]; [|auto]. apply filter_In in Hpp. destruct Hpp as [Hpp _]. apply in_seq in Hpp. lia.
Qed.
