(** * Proofs about K-fold splits. *)

From Coq Require Import List ZArith Bool Arith Lia Sorted Permutation.
From Coq Require Import ZifyBool ZifyNat.
Import ListNotations.
From Verif Require Import Np NpFacts TscModel TscSpec TscBlocks TscProofs TscDt TscShift TscOps TscBuild CvModel CvSpec.
Close Scope Z_scope.
Open Scope nat_scope.

(** ** sorting *)

Lemma nat_insert_perm x l : Permutation (nat_insert x l) (x :: l).
Proof.
  induction l as [|y l IH]; simpl; [reflexivity|].
  destruct (x <=? y); [reflexivity|]. rewrite IH. apply perm_swap.
Qed.

Lemma nat_sort_perm l : Permutation (nat_sort l) l.
Proof. induction l as [|x l IH]; simpl; [reflexivity|]. rewrite nat_insert_perm, IH. reflexivity. Qed.

Lemma nat_insert_sorted x l : StronglySorted le l -> StronglySorted le (nat_insert x l).
Proof.
  induction l as [|y l IH]; intros H; simpl; [repeat constructor|].
  inversion H as [|? ? Hs Hf]; subst. destruct (x <=? y) eqn:E.
  - constructor; [exact H|]. constructor; [lia|]. rewrite Forall_forall in *. intros z Hz.
    specialize (Hf z Hz). lia.
  - constructor; [apply IH; exact Hs|]. rewrite Forall_forall in *. intros z Hz.
    apply (Permutation_in _ (nat_insert_perm x l)) in Hz. destruct Hz as [<-|Hz]; [lia|apply Hf; exact Hz].
Qed.

Lemma nat_sort_sorted l : StronglySorted le (nat_sort l).
Proof. induction l as [|x l IH]; simpl; [constructor|]. apply nat_insert_sorted, IH. Qed.

Lemma sorted_le_lt l : StronglySorted le l -> NoDup l -> StronglySorted lt l.
Proof.
  induction l as [|x l IH]; intros H Hnd; [constructor|].
  inversion H as [|? ? Hs Hf]; subst. inversion Hnd as [|? ? Hni Hnd']; subst.
  constructor; [apply IH; auto|]. rewrite Forall_forall in *. intros y Hy. specialize (Hf y Hy).
  assert (x <> y) by (intros ->; contradiction). lia.
Qed.

Lemma nat_sort_lt l : NoDup l -> StronglySorted lt (nat_sort l).
Proof.
  intros H. apply sorted_le_lt; [apply nat_sort_sorted|].
  apply (Permutation_NoDup (l := l)); [symmetry; apply nat_sort_perm|exact H].
Qed.

(** ** slices *)

Lemma concat_slices sizes : forall l, list_sum sizes = length l -> concat (slices sizes l) = l.
Proof.
  induction sizes as [|s r IH]; intros l H; simpl in *.
  - destruct l; [reflexivity|discriminate].
  - change (list_sum (s :: r)) with (s + list_sum r) in H.
    rewrite IH; [apply firstn_skipn|]. rewrite skipn_length. lia.
Qed.

Lemma slices_length sizes : forall l, length (slices sizes l) = length sizes.
Proof. induction sizes as [|s r IH]; intros l; simpl; [reflexivity|]. rewrite IH. reflexivity. Qed.

Lemma slices_nonempty sizes : forall l f,
  list_sum sizes <= length l -> (forall s, In s sizes -> 1 <= s) -> In f (slices sizes l) -> f <> [].
Proof.
  induction sizes as [|s r IH]; intros l f Hl Hs Hf; [destruct Hf|].
  simpl in Hf. change (list_sum (s :: r)) with (s + list_sum r) in Hl.
  assert (1 <= s) by (apply Hs; left; reflexivity).
  destruct Hf as [<-|Hf].
  - intros E. apply (f_equal (@length _)) in E. rewrite firstn_length in E. simpl in E. lia.
  - apply (IH (skipn s l)); auto.
    + rewrite skipn_length. lia.
    + intros x Hx. apply Hs. right; exact Hx.
Qed.

Lemma sum_const_plus a (r k s : nat) :
  list_sum (map (fun j => a + (if j <? r then 1 else 0)) (seq s k))
  = k * a + (Nat.min (s + k) (Nat.max r s) - s).
Proof.
  revert s. induction k as [|k IH]; intros s.
  - simpl. lia.
  - cbn [seq map]. rewrite list_sum_cons, IH. destruct (s <? r) eqn:E; lia.
Qed.

Lemma fold_sizes_sum m k : 1 <= k -> list_sum (fold_sizes m k) = m.
Proof.
  intros Hk. unfold fold_sizes. rewrite sum_const_plus.
  assert (H := Nat.div_mod m k ltac:(lia)). assert (H2 := Nat.mod_upper_bound m k ltac:(lia)). nia.
Qed.

Lemma fold_sizes_pos m k s : 1 <= k -> k <= m -> In s (fold_sizes m k) -> 1 <= s.
Proof.
  intros Hk Hm Hs. unfold fold_sizes in Hs. apply in_map_iff in Hs. destruct Hs as (j & <- & _).
  assert (1 <= m / k) by (apply Nat.div_le_lower_bound; lia). lia.
Qed.

(** ** partitions *)

Lemma filter_partition {A} (f : A -> bool) l : Permutation (filter (fun x => negb (f x)) l ++ filter f l) l.
Proof.
  induction l as [|x l IH]; [reflexivity|]. simpl. destruct (f x); simpl.
  - symmetry. apply Permutation_cons_app. symmetry. exact IH.
  - constructor. exact IH.
Qed.

Lemma perm_flat_map {A B} (f : A -> list B) l l' : Permutation l l' -> Permutation (flat_map f l) (flat_map f l').
Proof.
  intros H. induction H; simpl; try reflexivity.
  - apply Permutation_app_head. exact IHPermutation.
  - rewrite !app_assoc. apply Permutation_app_tail. apply Permutation_app_comm.
  - etransitivity; eassumption.
Qed.

Lemma filter_mem_perm (fold l : list nat) :
  NoDup fold -> NoDup l -> incl fold l -> Permutation (filter (fun x => nat_mem x fold) l) fold.
Proof.
  intros H1 H2 H3. apply NoDup_Permutation; [apply NoDup_filter; exact H2|exact H1|].
  intros x. rewrite filter_In, nat_mem_in. split; [tauto|]. intros H. split; auto.
Qed.

Lemma NoDup_concat {A} (ls : list (list A)) l : NoDup (concat ls) -> In l ls -> NoDup l.
Proof.
  induction ls as [|x ls IH]; intros H Hl; [destruct Hl|]. simpl in H.
  destruct Hl as [->|Hl].
  - clear IH. induction l as [|y l IHl]; [constructor|]. simpl in H. inversion H as [|? ? Hni Hnd]; subst.
    constructor; [|apply IHl; exact Hnd]. intros Hy. apply Hni. apply in_or_app; left; exact Hy.
  - apply IH; auto. apply NoDup_app_r in H. exact H.
Qed.

Lemma in_concat_incl {A} (ls : list (list A)) l : In l ls -> incl l (concat ls).
Proof. intros H x Hx. apply in_concat. eauto. Qed.

Lemma kfold_spec m k perm l :
  Permutation perm (seq 0 m) -> kfold m k perm = Ok l ->
  2 <= k <= m /\ length l = k /\
  (forall tr te, In (tr, te) l -> Permutation (tr ++ te) (seq 0 m) /\ te <> [] /\ tr <> []) /\
  Permutation (concat (map snd l)) (seq 0 m).
Proof.
  intros Hp E. unfold kfold in E. destruct (k <=? 1) eqn:E1; [discriminate|].
  destruct (m <? k) eqn:E2; [discriminate|]. injection E as <-.
  assert (Hk : 2 <= k <= m) by lia. split; [exact Hk|].
  assert (Hlen : length perm = m) by (rewrite (Permutation_length Hp), seq_length; reflexivity).
  assert (Hsum := fold_sizes_sum m k ltac:(lia)).
  assert (Hc : concat (slices (fold_sizes m k) perm) = perm) by (apply concat_slices; lia).
  assert (Hnd : NoDup perm) by (apply (Permutation_NoDup (l := seq 0 m)); [symmetry; exact Hp|apply seq_NoDup]).
  assert (Hfold : forall f, In f (slices (fold_sizes m k) perm) -> NoDup f /\ incl f (seq 0 m) /\ f <> []).
  { intros f Hf. split; [|split].
    - apply (NoDup_concat (slices (fold_sizes m k) perm)); [rewrite Hc; exact Hnd|exact Hf].
    - intros x Hx. apply (Permutation_in _ Hp). rewrite <- Hc. apply in_concat. eauto.
    - apply (slices_nonempty (fold_sizes m k) perm); [lia| |exact Hf].
      intros s Hs. apply (fold_sizes_pos m k); auto; lia. }
  assert (Htest : forall f, In f (slices (fold_sizes m k) perm) ->
     Permutation (filter (fun x => nat_mem x f) (seq 0 m)) f).
  { intros f Hf. destruct (Hfold f Hf) as (H1 & H2 & _). apply filter_mem_perm; auto. apply seq_NoDup. }
  split; [rewrite map_length, slices_length; unfold fold_sizes; rewrite map_length, seq_length; reflexivity|].
  split.
  - intros tr te Hin. apply in_map_iff in Hin. destruct Hin as (f & E & Hf). injection E as <- <-.
    split; [apply filter_partition|]. split.
    + intros E. assert (H := Htest f Hf). rewrite E in H. apply Permutation_nil in H.
      destruct (Hfold f Hf) as (_ & _ & H'). contradiction.
    + (* another fold is non-empty and disjoint *)
      intros E.
      assert (Hall : Permutation f (seq 0 m)).
      { rewrite <- (Htest f Hf). rewrite <- (filter_partition (fun x => nat_mem x f) (seq 0 m)) at 2.
        rewrite E. reflexivity. }
      apply in_split in Hf. destruct Hf as (l1 & l2 & El).
      assert (Hlen2 : length (l1 ++ f :: l2) = k).
      { rewrite <- El, slices_length. unfold fold_sizes. rewrite map_length, seq_length. reflexivity. }
      rewrite app_length in Hlen2. simpl in Hlen2.
      assert (Hg : exists g, In g (l1 ++ l2)).
      { destruct l1 as [|g l1]; [|exists g; left; reflexivity].
        destruct l2 as [|g l2]; [simpl in Hlen2; lia|exists g; left; reflexivity]. }
      destruct Hg as (g & Hg).
      assert (Hg' : In g (slices (fold_sizes m k) perm)).
      { rewrite El. apply in_or_app. apply in_app_or in Hg. simpl. tauto. }
      destruct (Hfold g Hg') as (_ & Hgi & Hgne). destruct g as [|y g]; [congruence|].
      assert (Hy : In y f) by (apply (Permutation_in _ (Permutation_sym Hall)); apply Hgi; left; reflexivity).
      assert (Hc2 : concat (l1 ++ f :: l2) = perm) by (rewrite <- El; exact Hc).
      rewrite <- Hc2 in Hnd. rewrite concat_app in Hnd. simpl in Hnd.
      apply (Permutation_NoDup (l' := f ++ concat l1 ++ concat l2)) in Hnd.
      2:{ rewrite Permutation_app_swap_app. reflexivity. }
      apply in_split in Hy. destruct Hy as (f1 & f2 & ->).
      rewrite <- app_assoc in Hnd. simpl in Hnd. apply NoDup_remove_2 in Hnd. apply Hnd.
      apply in_or_app; right. apply in_or_app; right. rewrite <- concat_app. apply in_concat.
      exists (y :: g). split; [exact Hg|left; reflexivity].
  - rewrite map_map. simpl.
    assert (H : Permutation (concat (map (fun f => filter (fun x => nat_mem x f) (seq 0 m)) (slices (fold_sizes m k) perm)))
                            (concat (slices (fold_sizes m k) perm))).
    { clear - Htest. induction (slices (fold_sizes m k) perm) as [|f r IH]; [reflexivity|]. simpl.
      apply Permutation_app.
      - apply Htest. left; reflexivity.
      - apply IH. intros g Hg. apply Htest. right; exact Hg. }
    rewrite H, Hc. exact Hp.
Qed.

(** expanding rows of an index matrix *)
Lemma expand_leakfree (g : nat -> list nat) m N k perm l :
  Permutation perm (seq 0 m) ->
  Permutation (flat_map g (seq 0 m)) (seq 0 N) ->
  (forall a, a < m -> g a <> []) ->
  kfold m k perm = Ok l ->
  LeakFree N (map (fun p => (nat_sort (flat_map g (fst p)), nat_sort (flat_map g (snd p)))) l).
Proof.
  intros Hp Hg Hne E. destruct (kfold_spec m k perm l Hp E) as (Hk & Hlen & Hpart & Hcov).
  assert (Hsplit : forall tr te, In (tr, te) l -> Permutation (flat_map g tr ++ flat_map g te) (seq 0 N)).
  { intros tr te Hin. rewrite <- flat_map_app. rewrite <- Hg. apply perm_flat_map. apply Hpart. exact Hin. }
  assert (Hnd : forall tr te, In (tr, te) l -> NoDup (flat_map g tr) /\ NoDup (flat_map g te)).
  { intros tr te Hin. assert (H : NoDup (flat_map g tr ++ flat_map g te)).
    { apply (Permutation_NoDup (l := seq 0 N)); [symmetry; apply Hsplit; exact Hin|apply seq_NoDup]. }
    split; [|apply NoDup_app_r in H; exact H].
    apply (NoDup_concat [flat_map g tr; flat_map g te]); [simpl; rewrite app_nil_r; exact H|left; reflexivity]. }
  assert (Hne' : forall s, s <> [] -> (forall x, In x s -> x < m) -> nat_sort (flat_map g s) <> []).
  { intros s Hs Hb E'. assert (HP := nat_sort_perm (flat_map g s)). rewrite E' in HP.
    apply Permutation_nil in HP. destruct s as [|x s]; [congruence|]. simpl in HP.
    apply app_eq_nil in HP. apply (Hne x); [apply Hb; left; reflexivity|apply HP]. }
  constructor.
  - intros tr te Hin. apply in_map_iff in Hin. destruct Hin as ((a & b) & Eq & Hin). injection Eq as <- <-.
    simpl. rewrite !nat_sort_perm. apply Hsplit. exact Hin.
  - intros tr te Hin. apply in_map_iff in Hin. destruct Hin as ((a & b) & Eq & Hin). injection Eq as <- <-.
    simpl. destruct (Hnd a b Hin). split; apply nat_sort_lt; assumption.
  - intros tr te Hin. apply in_map_iff in Hin. destruct Hin as ((a & b) & Eq & Hin). injection Eq as <- <-.
    simpl. destruct (Hpart a b Hin) as (HP & H1 & H2).
    assert (Hb : forall x, In x (a ++ b) -> x < m).
    { intros x Hx. apply (Permutation_in _ HP) in Hx. apply in_seq in Hx. lia. }
    split; apply Hne'; auto; intros x Hx; apply Hb; apply in_or_app; auto.
  - rewrite map_map. simpl. rewrite <- Hg.
    transitivity (flat_map g (concat (map snd l))); [|apply perm_flat_map; exact Hcov].
    clear. induction l as [|p l IH]; [reflexivity|]. simpl. rewrite flat_map_app.
    apply Permutation_app; [apply nat_sort_perm|exact IH].
Qed.

Lemma rows_seq n : forall m s, flat_map (fun a => seq (a * n) n) (seq s m) = seq (s * n) (m * n).
Proof.
  induction m as [|m IH]; intros s; [reflexivity|].
  cbn [seq flat_map]. rewrite IH. replace (S m * n) with (n + m * n) by lia.
  rewrite seq_app. f_equal. f_equal. lia.
Qed.

Lemma flat_map_swap {A B C} (f : A -> B -> C) (la : list A) (lb : list B) :
  Permutation (flat_map (fun a => map (fun b => f a b) lb) la) (flat_map (fun b => map (fun a => f a b) la) lb).
Proof.
  induction la as [|a la IH]; simpl.
  - induction lb; [constructor|simpl; assumption].
  - rewrite IH. clear IH. induction lb as [|b lb IH]; simpl; [reflexivity|]. constructor.
    rewrite <- IH. rewrite !app_assoc. apply Permutation_app_tail. apply Permutation_app_comm.
Qed.

Lemma map_add_seq a n : forall s, map (fun t => a + t) (seq s n) = seq (a + s) n.
Proof. induction n as [|n IH]; intros s; [reflexivity|]. simpl. rewrite IH. do 2 f_equal. lia. Qed.

Lemma rows_time n m :
  Permutation (flat_map (fun t => map (fun s => s * n + t) (seq 0 m)) (seq 0 n)) (seq 0 (m * n)).
Proof.
  rewrite (flat_map_swap (fun t s => s * n + t)).
  rewrite (flat_map_ext _ (fun a => seq (a * n) n)).
  - rewrite rows_seq. reflexivity.
  - intros a. rewrite map_add_seq. f_equal. lia.
Qed.

Section Kfold.
Context {V : Type}.
Notation frame := (list (row V)).

Lemma equal_length_steps (F : frame) :
  F <> [] -> is_equal_length F = true -> exists n, n_timesteps F = NInt n /\ length F = n_timeseries F * n.
Proof.
  intros Hne H. assert (Ht := n_timesteps_total F Hne).
  destruct (n_timesteps F) as [n|l] eqn:E; [exists n; split; [reflexivity|lia]|].
  exfalso. rewrite (is_equal_length_spec F Hne) in H.
  assert (Hi : ids F <> []) by (apply ids_nonempty; exact Hne).
  destruct (ids F) as [|i0 r] eqn:Ei; [congruence|].
  assert (E' : n_timesteps F = NInt (length (rows_of F i0))).
  { apply (n_timesteps_int F _ Hne). intros i Hi'. apply H; apply in_ids; [exact Hi'|rewrite Ei; left; reflexivity]. }
  congruence.
Qed.

Lemma same_times_equal_length (F : frame) :
  ValidRows F -> is_same_time_values F = true -> is_equal_length F = true.
Proof.
  intros HV H. apply (is_equal_length_spec F (vr_nonempty _ HV)).
  rewrite (is_same_time_values_spec F HV) in H. intros i j Hi Hj.
  specialize (H i j Hi Hj). apply (f_equal (@length _)) in H. unfold times_of in H.
  rewrite !map_length in H. exact H.
Qed.

(** the rows of an equal-length collection by position *)
Lemma nth_block (bs : list (Z * list (Z * V))) n p r :
  (forall b, In b bs -> length (snd b) = n) -> 1 <= n ->
  nth_error (flatten bs) p = Some r ->
  exists b x, nth_error bs (p / n) = Some b /\ nth_error (snd b) (p mod n) = Some x /\
              r = mkRow (fst b) (fst x) (snd x).
Proof.
  intros Hl Hn. revert p. induction bs as [|b bs IH]; intros p Hr.
  - destruct p; discriminate.
  - rewrite flatten_cons in Hr.
    assert (Hb : length (snd b) = n) by (apply Hl; left; reflexivity).
    destruct (lt_dec p n) as [Hp|Hp].
    + rewrite nth_error_app1 in Hr by (rewrite brows_length; lia).
      unfold brows, series_rows in Hr. rewrite nth_error_map in Hr.
      destruct (nth_error (snd b) p) as [x|] eqn:Ex; [|discriminate]. injection Hr as <-.
      exists b, x. rewrite Nat.div_small, Nat.mod_small by lia. auto.
    + rewrite nth_error_app2 in Hr by (rewrite brows_length; lia).
      rewrite brows_length, Hb in Hr.
      destruct (IH (fun c Hc => Hl c (or_intror Hc)) (p - n) Hr) as (c & x & H1 & H2 & H3).
      exists c, x. replace p with ((p - n) + 1 * n) by lia.
      rewrite Nat.div_add, Nat.mod_add by lia. rewrite Nat.add_comm. simpl. auto.
Qed.

Lemma ids_same_block (bs : list (Z * list (Z * V))) n p q :
  wfb bs -> (forall b, In b bs -> length (snd b) = n) -> 1 <= n ->
  p < length (flatten bs) -> q < length (flatten bs) ->
  (id_at (flatten bs) p = id_at (flatten bs) q <-> p / n = q / n).
Proof.
  intros W Hl Hn Hp Hq. unfold id_at.
  destruct (nth_error (flatten bs) p) as [rp|] eqn:Ep; [|apply nth_error_None in Ep; lia].
  destruct (nth_error (flatten bs) q) as [rq|] eqn:Eq; [|apply nth_error_None in Eq; lia].
  destruct (nth_block bs n p rp Hl Hn Ep) as (b & x & B1 & _ & ->).
  destruct (nth_block bs n q rq Hl Hn Eq) as (c & y & C1 & _ & ->). simpl. split.
  - intros E. injection E as E.
    assert (Hnd := wf_nodup _ W). rewrite NoDup_nth_error in Hnd. apply Hnd.
    + rewrite map_length. apply nth_error_Some. congruence.
    + rewrite !nth_error_map, B1, C1. simpl. congruence.
  - intros E. rewrite E in B1. congruence.
Qed.

Lemma in_expand (g : nat -> list nat) s x : In x (nat_sort (flat_map g s)) <-> exists a, In a s /\ In x (g a).
Proof.
  rewrite <- in_flat_map. split; apply Permutation_in; [|symmetry]; apply nat_sort_perm.
Qed.

Lemma kfold_series_spec (F : frame) k perm splits :
  ValidRows F -> Permutation perm (seq 0 (n_timeseries F)) ->
  kfold_series F k perm = Ok splits ->
  length splits = k /\ LeakFree (length F) splits /\
  (forall tr te p q, In (tr, te) splits -> p < length F -> q < length F ->
     id_at F p = id_at F q -> (In p te <-> In q te)).
Proof.
  intros HV Hp E. unfold kfold_series in E.
  destruct (is_equal_length F) eqn:El; simpl in E; [|discriminate].
  destruct (equal_length_steps F (vr_nonempty _ HV) El) as (n & Hn & HN).
  unfold steps_int in E. rewrite Hn in E.
  destruct (kfold (n_timeseries F) k perm) as [l|] eqn:Ek; [|discriminate]. injection E as <-.
  destruct (valid_blocks F HV) as (bs & EF & W).
  assert (Hlb : forall b, In b bs -> length (snd b) = n)
    by (apply (n_timesteps_blocks bs n W); rewrite <- EF; exact Hn).
  assert (Hn1 := equal_len_pos bs n W Hlb).
  destruct (kfold_spec _ k perm l Hp Ek) as (_ & Hlen & _ & _).
  split; [rewrite map_length; exact Hlen|]. split.
  - apply (expand_leakfree (fun a => seq (a * n) n) (n_timeseries F) (length F) k perm l); auto.
    + rewrite rows_seq. simpl. rewrite HN. reflexivity.
    + intros a _ Hs. apply (f_equal (@length _)) in Hs. rewrite seq_length in Hs. simpl in Hs. lia.
  - intros tr te p q Hin Hp' Hq' Hid. apply in_map_iff in Hin. destruct Hin as ((a & b) & Eq & _).
    injection Eq as <- <-. rewrite !in_expand. cbn [snd].
    rewrite EF in Hid, Hp', Hq'. rewrite (ids_same_block bs n p q W Hlb Hn1 Hp' Hq') in Hid.
    assert (Hx : forall x c, In x (seq (c * n) n) <-> x / n = c).
    { intros x c. rewrite in_seq. assert (D := Nat.div_mod x n ltac:(lia)).
      assert (M := Nat.mod_upper_bound x n ltac:(lia)). split; [intros; nia|intros <-; nia]. }
    split; intros (c & Hc & Hx'); exists c; split; auto; apply Hx; apply Hx in Hx'; congruence.
Qed.

Lemma kfold_series_ok (F : frame) k perm :
  is_equal_length F = true -> 2 <= k <= n_timeseries F -> exists splits, kfold_series F k perm = Ok splits.
Proof.
  intros El Hk. unfold kfold_series. rewrite El. simpl. unfold kfold.
  replace (k <=? 1) with false by lia. replace (n_timeseries F <? k) with false by lia. eauto.
Qed.

(** a slice of [seq] is an interval *)
Lemma slices_seq sizes : forall s n f, In f (slices sizes (seq s n)) ->
  exists a c, f = seq a c.
Proof.
  induction sizes as [|z r IH]; intros s n f Hf; [destruct Hf|]. simpl in Hf.
  destruct Hf as [<-|Hf].
  - exists s. exists (Nat.min z n).
    clear. revert s n. induction z as [|z IH]; intros s [|n]; simpl; try reflexivity. f_equal. apply IH.
  - assert (E : skipn z (seq s n) = seq (s + z) (n - z)).
    { clear. revert s n. induction z as [|z IH]; intros s [|n]; simpl; try reflexivity.
      - rewrite Nat.add_0_r. reflexivity.
      - rewrite IH. f_equal. lia. }
    rewrite E in Hf. apply IH in Hf. exact Hf.
Qed.

Lemma kfold_seq_interval m k l tr te :
  kfold m k (seq 0 m) = Ok l -> In (tr, te) l -> exists a c, forall x, In x te <-> (x < m /\ a <= x < c).
Proof.
  unfold kfold. destruct (k <=? 1); [discriminate|]. destruct (m <? k); [discriminate|].
  intros E Hin. injection E as <-. apply in_map_iff in Hin. destruct Hin as (f & Eq & Hf).
  injection Eq as <- <-. apply slices_seq in Hf. destruct Hf as (a & c & ->).
  exists a, (a + c). intros x. rewrite filter_In, nat_mem_in, !in_seq. lia.
Qed.

Lemma kfold_time_spec (F : frame) k splits :
  ValidRows F -> kfold_time F k = Ok splits ->
  length splits = k /\ LeakFree (length F) splits /\
  (forall tr te, In (tr, te) splits -> exists t0 t1, forall p t,
     time_at F p = Some t -> (In p te <-> (t0 <= t <= t1)%Z)).
Proof.
  intros HV E. unfold kfold_time in E.
  destruct (is_same_time_values F) eqn:Es; simpl in E; [|discriminate].
  assert (El := same_times_equal_length F HV Es).
  destruct (equal_length_steps F (vr_nonempty _ HV) El) as (n & Hn & HN).
  unfold steps_int in E. rewrite Hn in E.
  destruct (kfold n k (seq 0 n)) as [l|] eqn:Ek; [|discriminate]. injection E as <-.
  destruct (valid_blocks F HV) as (bs & EF & W).
  assert (Hlb : forall b, In b bs -> length (snd b) = n)
    by (apply (n_timesteps_blocks bs n W); rewrite <- EF; exact Hn).
  assert (Hn1 := equal_len_pos bs n W Hlb).
  assert (Hm : n_timeseries F = length bs) by (rewrite EF; apply n_timeseries_blocks; exact W).
  destruct (kfold_spec _ k _ l (Permutation_refl _) Ek) as (_ & Hlen & Hpart & _).
  split; [rewrite map_length; exact Hlen|]. split.
  - apply (expand_leakfree (fun t => map (fun s => s * n + t) (seq 0 (n_timeseries F))) n (length F) k (seq 0 n) l); auto.
    + rewrite rows_time, HN. reflexivity.
    + intros a _ Hs. apply (f_equal (@length _)) in Hs. rewrite map_length, seq_length in Hs. simpl in Hs.
      rewrite Hm in Hs. destruct bs; [apply (wf_ne _ W); reflexivity|discriminate].
  - intros tr te Hin. apply in_map_iff in Hin. destruct Hin as ((a & b) & Eq & Hin).
    injection Eq as <- <-. cbn [fst snd].
    destruct (kfold_seq_interval n k l a b Ek Hin) as (lo & hi & Hint).
    destruct (Hpart a b Hin) as (_ & Hbne & _).
    (* common list of times *)
    rewrite (is_same_time_values_spec F HV) in Es.
    destruct bs as [|b0 bs'] eqn:Ebs; [destruct (wf_ne _ W eq_refl)|]. rewrite <- Ebs in *.
    set (T := map fst (snd b0)).
    assert (Hb0 : In b0 bs) by (rewrite Ebs; left; reflexivity).
    assert (HT : forall c, In c bs -> map fst (snd c) = T).
    { intros c Hc. specialize (Es (fst c) (fst b0)).
      rewrite EF in Es. unfold times_of in Es.
      rewrite (rows_of_flatten bs c), (rows_of_flatten bs b0) in Es; auto using (wf_nodup _ W).
      change (map rtime (brows c)) with (time_index (brows c)) in Es.
      change (map rtime (brows b0)) with (time_index (brows b0)) in Es.
      rewrite !times_brows in Es. apply Es; apply (occurs_block bs _ W); [exists c|exists b0]; auto. }
    assert (HTs : StronglySorted Z.lt T) by apply (wf_blocks _ W b0 Hb0).
    assert (HTl : length T = n) by (unfold T; rewrite map_length; apply Hlb; exact Hb0).
    assert (Hmono : forall i j, i < j -> j < n -> (nth i T 0 < nth j T 0)%Z).
    { clear - HTs HTl. subst n. induction HTs as [|x T' HS IH HF]; intros i j Hij Hj; simpl in Hj; [lia|].
      destruct j as [|j]; [lia|]. destruct i as [|i].
      - simpl. rewrite Forall_forall in HF. apply HF. apply nth_In. lia.
      - simpl. apply IH; lia. }
    (* bounds: times at the first and last position of the block *)
    assert (Hex : exists x0, In x0 b) by (destruct b as [|x0 ?]; [congruence|exists x0; left; reflexivity]).
    destruct Hex as (x0 & Hx0). apply Hint in Hx0.
    exists (nth lo T 0%Z), (nth (Nat.min hi n - 1) T 0%Z). intros p t Ht.
    unfold time_at in Ht. rewrite EF in Ht.
    destruct (nth_error (flatten bs) p) as [r|] eqn:Er; [|discriminate]. injection Ht as <-.
    destruct (nth_block bs n p r Hlb Hn1 Er) as (c & x & C1 & C2 & ->). cbn [rtime].
    assert (Htx : fst x = nth (p mod n) T 0%Z).
    { rewrite <- (HT c (nth_error_In _ _ C1)). symmetry. apply nth_error_nth.
      rewrite nth_error_map, C2. reflexivity. }
    assert (Hpn : p / n < n_timeseries F) by (rewrite Hm; apply nth_error_Some; congruence).
    assert (Hmod := Nat.mod_upper_bound p n ltac:(lia)).
    assert (Hinb : In p (nat_sort (flat_map (fun t => map (fun s => s * n + t) (seq 0 (n_timeseries F))) b)) <-> In (p mod n) b).
    { rewrite in_expand. assert (D := Nat.div_mod p n ltac:(lia)). split.
      - intros (u & Hu & Hx). apply in_map_iff in Hx. destruct Hx as (s & Es' & _).
        assert (u < n) by (apply Hint in Hu; lia).
        rewrite <- Es'. rewrite Nat.add_comm, Nat.mod_add by lia. rewrite Nat.mod_small by lia. exact Hu.
      - intros Hu. exists (p mod n). split; [exact Hu|]. apply in_map_iff. exists (p / n). split; [lia|].
        apply in_seq. split; [apply Nat.le_0_l|exact Hpn]. }
    rewrite Hinb, Hint, Htx. split.
    + intros (_ & H1 & H2). split.
      * destruct (Nat.eq_dec lo (p mod n)) as [->|]; [lia|]. apply Z.lt_le_incl. apply Hmono; lia.
      * destruct (Nat.eq_dec (p mod n) (Nat.min hi n - 1)) as [->|]; [lia|]. apply Z.lt_le_incl. apply Hmono; lia.
    + intros (H1 & H2). split; [exact Hmod|]. split.
      * destruct (le_lt_dec lo (p mod n)) as [|H]; [assumption|]. exfalso.
        specialize (Hmono (p mod n) lo H ltac:(lia)). lia.
      * destruct (lt_dec (p mod n) hi) as [|H]; [assumption|]. exfalso.
        specialize (Hmono (Nat.min hi n - 1) (p mod n) ltac:(lia) Hmod). lia.
Qed.

Lemma kfold_time_ok (F : frame) k :
  is_same_time_values F = true -> 2 <= k <= steps_int F -> exists splits, kfold_time F k = Ok splits.
Proof.
  intros El Hk. unfold kfold_time. rewrite El. simpl. unfold kfold.
  replace (k <=? 1) with false by lia. replace (steps_int F <? k) with false by lia. eauto.
Qed.

End Kfold.
