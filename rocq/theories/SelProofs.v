(** * Lemmas for C103. *)

From Coq Require Import String List ZArith Bool Arith Lia Sorted.
From Verif Require Import Np NpFacts DistModel DistSpec DistProofs SelModel SelSpec.
Import ListNotations.
Open Scope Z_scope.

Lemma get_backend_refers g a b : Refers a b -> get_backend g a false = Ok b.
Proof. intros [-> | ->]; destruct b; reflexivity. Qed.

Lemma get_backend_known g a b : get_backend g a false = Ok b -> Refers a b.
Proof.
  unfold get_backend. destruct a as [|c|s]; [discriminate| |]; cbn [all_available negb bind].
  - destruct c; cbn; intros [= <-]; left; reflexivity.
  - destruct (find _ all_backends) as [x|] eqn:E; [|discriminate]. intros [= ->].
    apply find_some in E as [_ E]. apply String.eqb_eq in E. subst s. right. now destruct b.
Qed.

(** ** Sorted rows *)

Definition keys (row : list (nat * Z)) : list nat := map fst row.

Lemma set_entry_keys c v row x : In x (keys (set_entry c v row)) <-> x = c \/ In x (keys row).
Proof.
  induction row as [|[c' v'] row IH]; cbn [set_entry keys map fst].
  - cbn. intuition.
  - destruct (c <? c')%nat; [cbn; intuition|]. destruct (Nat.eqb_spec c c') as [->|N]; [cbn; intuition|].
    cbn [map fst]. fold (keys (set_entry c v row)). cbn [In]. rewrite IH. unfold keys. cbn. intuition.
Qed.

Lemma set_entry_sorted c v row : StronglySorted lt (keys row) -> StronglySorted lt (keys (set_entry c v row)).
Proof.
  induction row as [|[c' v'] row IH]; cbn [set_entry keys map fst]; intros H.
  - repeat constructor.
  - inversion H as [|? ? Hs Hf]; subst.
    destruct (Nat.ltb_spec c c').
    + constructor; [exact H|]. constructor; [assumption|]. apply Forall_forall. intros x Hx. pose proof (proj1 (Forall_forall _ _) Hf x Hx) as G. cbn [fst]. lia.
    + destruct (Nat.eqb_spec c c') as [->|N]; [constructor; assumption|].
      cbn [map fst]. constructor; [apply IH; exact Hs|]. apply Forall_forall. intros x Hx.
      apply set_entry_keys in Hx as [->|Hx]; [lia|]. apply (proj1 (Forall_forall _ _) Hf _ Hx).
Qed.

Lemma set_entry_length c v row : StronglySorted lt (keys row) -> ~ In c (keys row) ->
  List.length (set_entry c v row) = S (List.length row).
Proof.
  induction row as [|[c' v'] row IH]; cbn [set_entry keys map fst]; intros H Hc; [reflexivity|].
  inversion H as [|? ? Hs Hf]; subst. destruct (c <? c')%nat; [reflexivity|].
  destruct (Nat.eqb_spec c c') as [->|N]; [exfalso; apply Hc; left; reflexivity|].
  cbn [List.length]. rewrite IH; auto. intros Hx. apply Hc. right. exact Hx.
Qed.

Lemma set_entries_facts es : forall row, StronglySorted lt (keys row) ->
  NoDup (keys es) -> (forall c, In c (keys es) -> ~ In c (keys row)) ->
  StronglySorted lt (keys (set_entries es row)) /\
  List.length (set_entries es row) = (List.length es + List.length row)%nat /\
  forall c, In c (keys (set_entries es row)) <-> In c (keys es) \/ In c (keys row).
Proof.
  induction es as [|[c v] es IH]; intros row Hs Hn Hd; cbn [set_entries fold_left fst snd].
  - split; [exact Hs|]. split; [reflexivity|]. intros x. cbn. intuition.
  - cbn [keys map fst] in Hn. inversion Hn as [|? ? Hc Hn']; subst.
    destruct (IH (set_entry c v row) (set_entry_sorted _ _ _ Hs) Hn') as (H1 & H2 & H3).
    + intros x Hx Hy. apply set_entry_keys in Hy as [->|Hy]; [contradiction|]. apply (Hd x); [right; exact Hx|exact Hy].
    + split; [exact H1|]. split.
      * unfold set_entries in H2. rewrite H2, set_entry_length; [cbn; lia|exact Hs|].
        apply Hd. left. reflexivity.
      * intros x. unfold set_entries in H3. rewrite H3, set_entry_keys. cbn [keys map fst In]. intuition.
Qed.

Section Knn.
Context {P : Type}.
Variable d : P -> P -> Z.

(** The entries of a list of positions. *)
Definition neighbours (X : list P) (y : P) (l : list nat) : list (nat * Z) :=
  flat_map (fun j => map (fun x => (j, d x y)) (point_at X j)) l.

Lemma neighbours_keys X y l : (forall j, In j l -> (j < List.length X)%nat) -> keys (neighbours X y l) = l.
Proof.
  intros H. unfold neighbours, keys. induction l as [|j l IH]; [reflexivity|]. cbn [flat_map].
  rewrite map_app. rewrite IH by (intros; apply H; right; assumption).
  unfold point_at. destruct (nth_error X j) as [x|] eqn:E; [reflexivity|].
  apply nth_error_None in E. specialize (H j (or_introl eq_refl)). lia.
Qed.

Lemma neighbours_in X y l j v : In (j, v) (neighbours X y l) <->
  In j l /\ exists x, nth_error X j = Some x /\ v = d x y.
Proof.
  unfold neighbours. rewrite in_flat_map. split.
  - intros (i & Hi & H). apply in_map_iff in H as (x & [= -> <-] & Hx). split; [exact Hi|].
    exists x. unfold point_at in Hx. destruct (nth_error X j); cbn in Hx; [|contradiction].
    destruct Hx as [->|[]]. auto.
  - intros (Hj & x & E & ->). exists j. split; [exact Hj|]. apply in_map_iff. exists x. split; [reflexivity|].
    unfold point_at. rewrite E. left. reflexivity.
Qed.

Lemma entry_value X y l : (forall j, In j l -> (j < List.length X)%nat) -> NoDup l ->
  forall j v, In (j, v) (set_entries (neighbours X y l) []) <-> In (j, v) (neighbours X y l).
Proof.
  intros Hl Hn j v. split.
  - intros H. apply set_entries_sub in H as [H|[]]. exact H.
  - intros H. apply set_entries_in; [|now left]. intros v' Hv'.
    apply neighbours_in in H as (_ & x & E & ->). apply neighbours_in in Hv' as (_ & x' & E' & ->). congruence.
Qed.

End Knn.

Section Call.
Context {P : Type}.
Variables eu other : P -> P -> Z.
Variable knn : list P -> P -> nat -> list nat.
Variable knn_others : list P -> nat -> nat -> list nat.

Lemma row_of_map {A} (f : A -> list (nat * Z)) l i x : nth_error l i = Some x -> row_of (map f l) i = f x.
Proof.
  intros H. unfold row_of. erewrite nth_error_nth; [reflexivity|]. rewrite nth_error_map, H. reflexivity.
Qed.

Lemma nth_error_enumerate {A} (l : list A) i x : nth_error l i = Some x -> nth_error (enumerate l) i = Some (i, x).
Proof.
  unfold enumerate. intros H.
  assert (G : forall (l : list A) s i x, nth_error l i = Some x ->
            nth_error (combine (seq s (List.length l)) l) i = Some ((s + i)%nat, x)).
  { clear. induction l as [|y l IH]; intros s [|i] x; cbn; try discriminate.
    - intros [= ->]. f_equal. f_equal. lia.
    - intros H. rewrite (IH (S s) i x H). f_equal. f_equal. lia. }
  apply (G l 0%nat i x H).
Qed.

Lemma knn_pairwise m k X n rows :
  (forall x y, 0 <= value eu other m x y) -> (forall x, value eu other m x x = 0) ->
  OthersOracle (value eu other m) knn_others ->
  knn_call eu other knn knn_others m k X None = Ok (Sparse n rows) ->
  (2 <= k <= List.length X)%nat /\ n = List.length X /\
  HasNearest (value eu other m) X X k (fun v => v) rows /\ Exactly k rows.
Proof.
  intros Hp Hz Ho. unfold knn_call.
  destruct (Nat.leb_spec (List.length X) 1) as [|HX]; [discriminate|].
  destruct ((k - 1 =? 0) || (List.length X - 1 <? k - 1))%nat eqn:E; [discriminate|].
  apply orb_false_iff in E as [E1 E2]. apply Nat.eqb_neq in E1. apply Nat.ltb_ge in E2.
  intros H. assert (Hn : n = List.length X) by congruence.
  match type of H with Ok (Sparse _ ?r) = _ => assert (Hr : rows = r) by congruence end.
  clear H. split; [lia|]. split; [exact Hn|]. clear Hn.
  set (d := value eu other m) in *.
  assert (Hfacts : forall i xi, nth_error X i = Some xi ->
    let S := knn_others X i (k - 1)%nat in
    let row := set_entry i 0 (set_entries (neighbours d X xi S) []) in
    List.length row = k /\ Nearest d X xi k (i :: S) /\
    forall j v, In (j, v) row <-> In j (i :: S) /\ exists x, nth_error X j = Some x /\ v = d x xi).
  { intros i xi Hi S row.
    destruct (Ho X i (k - 1)%nat xi Hi ltac:(lia)) as (Hl & Hnd & Hni & Hb & Hnear). fold S in Hl, Hnd, Hni, Hb, Hnear.
    pose proof (neighbours_keys d X xi S Hb) as Hk.
    destruct (set_entries_facts (neighbours d X xi S) []) as (Fs & Fl & Fk).
    { constructor. } { rewrite Hk. exact Hnd. } { intros c _ []. }
    assert (Hik : ~ In i (keys (set_entries (neighbours d X xi S) []))).
    { rewrite Fk, Hk. intros [H|[]]. contradiction. }
    assert (Hlen : List.length (neighbours d X xi S) = (k - 1)%nat).
    { transitivity (List.length (keys (neighbours d X xi S))); [unfold keys; now rewrite map_length|now rewrite Hk]. }
    split; [|split].
    - unfold row. rewrite set_entry_length by assumption. rewrite Fl, Hlen. cbn. lia.
    - split; [cbn; lia|]. split; [constructor; assumption|].
      assert (HiX : (i < List.length X)%nat) by (apply nth_error_Some; congruence).
      split; [intros j [<-|Hj]; auto|].
      intros j l a b Hj Hl' Ha Hb'. destruct Hj as [<-|Hj].
      + replace a with xi by congruence. rewrite Hz. apply Hp.
      + apply (Hnear j l a b Hj); auto; intros Hx; apply Hl'; [right; exact Hx|left; congruence].
    - intros j v. split.
      + intros H. apply set_entry_sub in H as [[= -> ->]|H].
        * split; [left; reflexivity|]. exists xi. rewrite Hz. auto.
        * apply entry_value in H; auto. apply neighbours_in in H as [H1 H2]. split; [right; exact H1|exact H2].
      + intros [[->|Hj] (x & Ex & ->)].
        * replace x with xi by congruence. rewrite Hz. apply set_entry_in.
        * apply set_entry_keep; [|intros ->; contradiction].
          apply entry_value; auto. apply neighbours_in. eauto. }
  subst rows. split.
  - split; [unfold enumerate; rewrite map_length, combine_length, seq_length; lia|].
    intros i y Hy. rewrite (row_of_map _ _ _ _ (nth_error_enumerate _ _ _ Hy)). cbn [fst snd].
    destruct (Hfacts i y Hy) as (_ & Hne & Hrow). unfold neighbours in Hrow. split.
    + exists (i :: knn_others X i (k - 1)%nat). split; [exact Hne|]. intros j Hj.
      assert (Hlt := proj1 (proj2 (proj2 Hne)) j Hj). destruct (nth_error X j) as [x|] eqn:Ex.
      * exists x. split; [reflexivity|]. apply Hrow. split; [exact Hj|]. eauto.
      * apply nth_error_None in Ex. lia.
    + intros j v H. apply Hrow in H. apply H.
  - intros row H. apply in_map_iff in H as ([i y] & <- & Hi). apply in_enumerate in Hi. cbn [fst snd].
    apply (Hfacts i y Hi).
Qed.

Lemma knn_query m k X Y n rows : KnnOracle (value eu other m) knn ->
  knn_call eu other knn knn_others m k X (Some Y) = Ok (Sparse n rows) ->
  (k <= List.length X)%nat /\ n = List.length X /\
  HasNearest (value eu other m) X Y k (fun v => v) rows /\ Exactly k rows.
Proof.
  intros Ho. unfold knn_call.
  destruct (Nat.leb_spec (List.length X) 1) as [|HX]; [discriminate|].
  destruct (Nat.ltb_spec (List.length X) k) as [|Hk]; [discriminate|].
  intros H. assert (Hn : n = List.length X) by congruence.
  match type of H with Ok (Sparse _ ?r) = _ => assert (Hr : rows = r) by congruence end.
  clear H. split; [lia|]. split; [exact Hn|]. clear Hn.
  set (d := value eu other m) in *.
  assert (Hfacts : forall y, 
    let row := set_entries (neighbours d X y (knn X y k)) [] in
    List.length row = k /\ Nearest d X y k (knn X y k) /\
    forall j v, In (j, v) row <-> In j (knn X y k) /\ exists x, nth_error X j = Some x /\ v = d x y).
  { intros y row. pose proof (Ho X y k Hk) as Hne. pose proof Hne as (Hl & Hnd & Hb & _).
    pose proof (neighbours_keys d X y _ Hb) as Hkeys.
    destruct (set_entries_facts (neighbours d X y (knn X y k)) []) as (Fs & Fl & Fk).
    { constructor. } { rewrite Hkeys. exact Hnd. } { intros c _ []. }
    split; [|split; [exact Hne|]].
    - unfold row. rewrite Fl. transitivity (List.length (keys (neighbours d X y (knn X y k)))); [unfold keys; rewrite map_length; cbn; lia|now rewrite Hkeys].
    - intros j v. unfold row. rewrite entry_value by assumption. apply neighbours_in. }
  subst rows. split.
  - split; [now rewrite map_length|].
    intros i y Hy. rewrite (row_of_map _ _ _ _ Hy).
    destruct (Hfacts y) as (_ & Hne & Hrow). unfold neighbours in Hrow. split.
    + exists (knn X y k). split; [exact Hne|]. intros j Hj.
      assert (Hlt := proj1 (proj2 (proj2 Hne)) j Hj). destruct (nth_error X j) as [x|] eqn:Ex.
      * exists x. split; [reflexivity|]. apply Hrow. split; [exact Hj|]. eauto.
      * apply nth_error_None in Ex. lia.
    + intros j v H. apply Hrow in H. apply H.
  - intros row H. apply in_map_iff in H as (y & <- & Hi). apply (Hfacts y).
Qed.

End Call.

(** ** An instance of the oracle *)

From Coq Require Import Permutation.

Section OthersInstance.
Context {P : Type}.
Variable d : P -> P -> Z.
Variable d0 : P.

Definition sorted_others (X : list P) (i k : nat) : list nat :=
  firstn k (sort_by (fun j => d (nth j X d0) (nth i X d0))
                    (filter (fun j => negb (j =? i)%nat) (seq 0 (List.length X)))).

Lemma filter_neq_length i n : forall s, (s <= i < s + n)%nat ->
  List.length (filter (fun j => negb (j =? i)%nat) (seq s n)) = (n - 1)%nat.
Proof.
  induction n as [|n IH]; intros s H; [lia|]. cbn [seq filter].
  destruct (Nat.eqb_spec s i) as [->|N]; cbn [negb List.length].
  - assert (G : forall m s, (i < s)%nat -> filter (fun j => negb (j =? i)%nat) (seq s m) = seq s m).
    { induction m as [|m IHm]; intros s Hs; [reflexivity|]. cbn [seq filter].
      destruct (Nat.eqb_spec s i); [lia|]. cbn [negb]. now rewrite IHm by lia. }
    rewrite G by lia. rewrite seq_length. lia.
  - rewrite IH by lia. lia.
Qed.

Lemma sorted_others_oracle : OthersOracle d sorted_others.
Proof.
  intros X i k xi Hi Hk. unfold sorted_others. set (key := fun j => d (nth j X d0) (nth i X d0)).
  set (l := filter (fun j => negb (j =? i)%nat) (seq 0 (List.length X))).
  set (s := sort_by key l).
  assert (HiX : (i < List.length X)%nat) by (apply nth_error_Some; congruence).
  assert (HP : Permutation s l) by apply sort_perm.
  assert (HL : List.length s = (List.length X - 1)%nat).
  { rewrite (Permutation_length HP). apply filter_neq_length. lia. }
  pose proof (firstn_skipn k s) as ES.
  assert (HN : NoDup s).
  { apply (Permutation_NoDup (Permutation_sym HP)). apply NoDup_filter, seq_NoDup. }
  assert (Hin : forall j, In j s <-> (j < List.length X)%nat /\ j <> i).
  { intros j. split.
    - intros H. apply (Permutation_in _ HP) in H. apply filter_In in H as [H1 H2]. apply in_seq in H1.
      apply negb_true_iff, Nat.eqb_neq in H2. split; [lia|exact H2].
    - intros [H1 H2]. apply (Permutation_in _ (Permutation_sym HP)). apply filter_In. split; [apply in_seq; lia|].
      now apply negb_true_iff, Nat.eqb_neq. }
  assert (Hpre : forall j, In j (firstn k s) -> In j s) by (intros j Hj; rewrite <- ES; apply in_or_app; auto).
  split; [rewrite firstn_length; lia|]. split.
  { rewrite <- ES in HN. clear - HN. revert HN. generalize (skipn k s) (firstn k s). intros l2 l1.
    induction l1 as [|a l1 IH]; intros H; [constructor|]. inversion H as [|? ? H1 H2]; subst.
    constructor; [|apply IH; exact H2]. intros Hin. apply H1. apply in_or_app. auto. }
  split; [intros H; apply Hpre, Hin in H; tauto|].
  split; [intros j Hj; apply Hpre, Hin in Hj; tauto|].
  intros j m a b Hj Hm Hmi Ha Hb.
  assert (Hms : In m s).
  { apply Hin. split; [apply nth_error_Some; congruence|exact Hmi]. }
  rewrite <- ES in Hms. apply in_app_or in Hms. destruct Hms as [|Hms]; [contradiction|].
  pose proof (sort_sorted key l) as HS. fold s in HS. rewrite <- ES in HS.
  pose proof (sorted_split _ _ _ j m HS Hj Hms) as HR. cbn in HR. unfold key in HR.
  rewrite (nth_error_nth X j d0 Ha), (nth_error_nth X m d0 Hb), (nth_error_nth X i d0 Hi) in HR. exact HR.
Qed.

End OthersInstance.
