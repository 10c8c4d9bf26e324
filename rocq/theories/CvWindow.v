(** * Proofs about TSCWindowFoldTime. *)

From Coq Require Import List ZArith Bool Arith Lia Sorted Permutation.
From Coq Require Import ZifyBool ZifyNat.
Import ListNotations.
From Verif Require Import Np NpFacts TscModel TscSpec TscBlocks TscProofs TscDt TscShift TscOps TscBuild CvModel CvSpec CvProofs.
Close Scope Z_scope.
Open Scope nat_scope.

Lemma const_rev (x : Z) l : (forall y, In y l -> y = x) -> x :: l = l ++ [x].
Proof.
  induction l as [|y l IH]; intros H; [reflexivity|]. simpl.
  assert (y = x) by (apply H; left; reflexivity). subst y. f_equal. apply IH.
  intros z Hz. apply H. right; exact Hz.
Qed.

Lemma z_insert_max x l : StronglySorted Z.le l -> (forall y, In y l -> y <= x)%Z -> z_insert x l = l ++ [x].
Proof.
  induction l as [|y l IH]; intros Hs H; [reflexivity|]. simpl.
  inversion Hs as [|? ? Hs' Hf]; subst. destruct (x <=? y)%Z eqn:E.
  - change (y :: l ++ [x]) with ((y :: l) ++ [x]). apply const_rev. intros z Hz.
    assert (z <= x)%Z by (apply H; exact Hz). destruct Hz as [<-|Hz]; [lia|].
    rewrite Forall_forall in Hf. specialize (Hf z Hz). lia.
  - simpl. f_equal. apply IH; [exact Hs'|]. intros z Hz. apply H. right; exact Hz.
Qed.

Lemma sorted_snoc (l : list Z) x : StronglySorted Z.le l -> (forall y, In y l -> y <= x)%Z -> StronglySorted Z.le (l ++ [x]).
Proof.
  induction 1 as [|y l Hs IH Hf]; intros H; simpl; [repeat constructor|].
  constructor; [apply IH; intros z Hz; apply H; right; exact Hz|].
  rewrite Forall_forall in *. intros z Hz. apply in_app_or in Hz. destruct Hz as [Hz|[<-|[]]].
  - apply Hf; exact Hz.
  - apply H. left; reflexivity.
Qed.

(** sorting a non-increasing list reverses it *)
Lemma z_sort_desc l : StronglySorted (fun a b => b <= a)%Z l -> z_sort l = rev l /\ StronglySorted Z.le (rev l).
Proof.
  induction 1 as [|x l Hs IH Hf]; [split; [reflexivity|constructor]|].
  destruct IH as (E & Hr). simpl. change (fold_right z_insert [] l) with (z_sort l). rewrite E.
  assert (Hm : forall y, In y (rev l) -> (y <= x)%Z).
  { intros y Hy. apply in_rev in Hy. rewrite Forall_forall in Hf. apply Hf; exact Hy. }
  split; [apply z_insert_max; auto|apply sorted_snoc; auto].
Qed.

Lemma full_windows_map {A B} (f : A -> B) w o l :
  full_windows w o (map f l) = map (map f) (full_windows w o l).
Proof.
  unfold full_windows. rewrite map_length, map_map. apply map_ext. intros j.
  rewrite skipn_map, firstn_map. reflexivity.
Qed.

Lemma rev_seq n : rev (seq 0 n) = map (fun p => n - 1 - p) (seq 0 n).
Proof.
  induction n as [|n IH]; [reflexivity|].
  rewrite seq_S, rev_app_distr at 1. cbn [rev app Nat.add].
  rewrite IH. cbn [seq map]. f_equal; [lia|]. rewrite <- seq_shift, map_map.
  apply map_ext. intros a. lia.
Qed.

Lemma filter_map_comm {A B} (f : A -> B) (P : B -> bool) l : filter P (map f l) = map f (filter (fun x => P (f x)) l).
Proof. induction l as [|x l IH]; [reflexivity|]. simpl. destruct (P (f x)); simpl; rewrite IH; reflexivity. Qed.

Lemma filter_rev {A} (P : A -> bool) l : filter P (rev l) = rev (filter P l).
Proof.
  induction l as [|x l IH]; [reflexivity|]. simpl. rewrite filter_app, IH. simpl.
  destruct (P x); simpl; [reflexivity|apply app_nil_r].
Qed.

Lemma seq_sorted n : forall s, StronglySorted lt (seq s n).
Proof.
  induction n as [|n IH]; intros s; simpl; constructor; auto.
  apply Forall_forall. intros x Hx. apply in_seq in Hx. lia.
Qed.

Lemma filter_sorted {A} (R : A -> A -> Prop) P l : StronglySorted R l -> StronglySorted R (filter P l).
Proof.
  induction 1 as [|x l Hs IH Hf]; simpl; [constructor|]. destruct (P x); [|exact IH].
  constructor; [exact IH|]. rewrite Forall_forall in *. intros y Hy. apply filter_In in Hy. apply Hf, Hy.
Qed.

Lemma sorted_firstn {A} (R : A -> A -> Prop) n : forall l, StronglySorted R l -> StronglySorted R (firstn n l).
Proof.
  induction n as [|n IH]; intros l H; [constructor|]. destruct H as [|x l Hs Hf]; [constructor|].
  simpl. constructor; [apply IH; exact Hs|]. rewrite Forall_forall in *. intros y Hy.
  apply Hf. rewrite <- (firstn_skipn n l). apply in_or_app; left; exact Hy.
Qed.

Lemma sorted_skipn {A} (R : A -> A -> Prop) n : forall l, StronglySorted R l -> StronglySorted R (skipn n l).
Proof.
  induction n as [|n IH]; intros l H; [exact H|]. destruct H as [|x l Hs Hf]; [constructor|].
  simpl. apply IH; exact Hs.
Qed.

Lemma full_windows_sub {A} (R : A -> A -> Prop) w o l x :
  StronglySorted R l -> In x (full_windows w o l) -> StronglySorted R x /\ incl x l /\ length x = w.
Proof.
  intros Hs Hx. unfold full_windows in Hx. apply in_map_iff in Hx. destruct Hx as (j & <- & Hj).
  apply filter_In in Hj. destruct Hj as (_ & Hj). split; [apply sorted_firstn, sorted_skipn; exact Hs|]. split.
  - intros y Hy. rewrite <- (firstn_skipn (j * o) l). apply in_or_app; right.
    rewrite <- (firstn_skipn w (skipn (j * o) l)). apply in_or_app; left. exact Hy.
  - rewrite firstn_length, skipn_length. lia.
Qed.

Lemma strictly_inc_of l : StronglySorted lt l -> strictly_inc l = true.
Proof.
  induction 1 as [|x l Hs IH Hf]; [reflexivity|]. destruct l as [|y l]; [reflexivity|].
  change (strictly_inc (x :: y :: l)) with ((x <? y) && strictly_inc (y :: l)). rewrite IH. inversion Hf; subst.
  replace (x <? y) with true by lia. reflexivity.
Qed.

Lemma nat_sort_id l : StronglySorted lt l -> nat_sort l = l.
Proof.
  induction 1 as [|x l Hs IH Hf]; [reflexivity|]. simpl. rewrite IH.
  destruct l as [|y l]; [reflexivity|]. simpl. inversion Hf; subst.
  replace (x <=? y) with true by lia. reflexivity.
Qed.

Lemma of_nat_sorted l : StronglySorted lt l -> StronglySorted Z.lt (map Z.of_nat l).
Proof.
  induction 1 as [|x l Hs IH Hf]; simpl; constructor; auto.
  rewrite Forall_forall in *. intros y Hy. apply in_map_iff in Hy. destruct Hy as (z & <- & Hz).
  specialize (Hf z Hz). lia.
Qed.

Lemma map_result_inv {A B} (f : A -> result B) l : forall r, map_result f l = Ok r -> Forall2 (fun a b => f a = Ok b) l r.
Proof.
  induction l as [|a l IH]; intros r E; simpl in E.
  - injection E as <-. constructor.
  - destruct (f a) as [b|] eqn:Ea; [|discriminate]. destruct (map_result f l) as [bs|] eqn:El; [|discriminate].
    injection E as <-. constructor; auto.
Qed.

Lemma rev_map_rv_sorted N l : StronglySorted lt l -> (forall x, In x l -> x < N) ->
  StronglySorted lt (rev (map (fun p => N - 1 - p) l)).
Proof.
  induction 1 as [|x l Hs IH Hf]; intros Hb; simpl; [constructor|].
  assert (IH' := IH (fun y Hy => Hb y (or_intror Hy))). clear IH.
  assert (Hx : forall y, In y (rev (map (fun p => N - 1 - p) l)) -> y < N - 1 - x).
  { intros y Hy. apply in_rev in Hy. apply in_map_iff in Hy. destruct Hy as (z & <- & Hz).
    rewrite Forall_forall in Hf. specialize (Hf z Hz).
    assert (z < N) by (apply Hb; right; exact Hz). lia. }
  clear - IH' Hx. induction IH' as [|y r Hr IH Hf]; simpl; [repeat constructor|].
  constructor; [apply IH; intros z Hz; apply Hx; right; exact Hz|].
  rewrite Forall_forall in *. intros z Hz. apply in_app_or in Hz. destruct Hz as [Hz|[<-|[]]]; [apply Hf; exact Hz|].
  apply Hx. left; reflexivity.
Qed.

(** strictly increasing lists with the same elements are equal *)
Lemma nat_sorted_ext l1 : forall l2, StronglySorted lt l1 -> StronglySorted lt l2 ->
  (forall x, In x l1 <-> In x l2) -> l1 = l2.
Proof.
  induction l1 as [|a l1 IH]; intros [|b l2] H1 H2 H; auto.
  - exfalso. apply (H b). left; reflexivity.
  - exfalso. apply (H a). left; reflexivity.
  - inversion H1 as [|? ? S1 F1]; inversion H2 as [|? ? S2 F2]; subst. rewrite Forall_forall in F1, F2.
    assert (a = b).
    { destruct (proj1 (H a) (or_introl eq_refl)) as [|Ha]; [auto|].
      destruct (proj2 (H b) (or_introl eq_refl)) as [|Hb]; [auto|].
      specialize (F1 b Hb). specialize (F2 a Ha). lia. }
    subst b. f_equal. apply IH; auto. intros x. split; intros Hx.
    + destruct (proj1 (H x) (or_intror Hx)) as [<-|]; [|assumption]. specialize (F1 a Hx). lia.
    + destruct (proj2 (H x) (or_intror Hx)) as [<-|]; [|assumption]. specialize (F2 a Hx). lia.
Qed.

Lemma filter_length_le {A} (f : A -> bool) l : length (filter f l) <= length l.
Proof. induction l as [|x l IH]; simpl; [lia|]. destruct (f x); simpl; lia. Qed.

Section Window.
Context {V : Type}.
Variable F : list (row V).
Hypothesis HV : ValidRows F.
Hypothesis HS : IdsSorted F.

Let N := length F.
Let mx := zmax (ids F).
Let rv (p : nat) : nat := N - 1 - p.
Let idn (q : nat) : Z := nth q (ids_index F) 0%Z.
Let prow (p : nat) : row nat := mkRow (mx - idn (rv p))%Z (Z.of_nat p) (rv p).

Lemma ids_index_desc_aux (l : list (row V)) m :
  (forall a b, Before l a b -> rid a <= rid b)%Z ->
  StronglySorted (fun a b => b <= a)%Z (map (fun i => m - i)%Z (ids_index l)).
Proof.
  induction l as [|r l IH]; intros H; simpl; constructor.
  - apply IH. intros a b (x & y & z & E). apply H. exists (r :: x), y, z. rewrite E. reflexivity.
  - apply Forall_forall. intros y Hy. apply in_map_iff in Hy. destruct Hy as (i & <- & Hi).
    unfold ids_index in Hi. apply in_map_iff in Hi. destruct Hi as (b & <- & Hb).
    apply in_split in Hb. destruct Hb as (l1 & l2 & ->).
    assert (rid r <= rid b)%Z by (apply H; exists [], l1, l2; reflexivity). lia.
Qed.

Lemma rid_le_mx i : In i (ids_index F) -> (i <= mx)%Z.
Proof.
  intros Hi. apply (max_id_spec F (vr_nonempty _ HV)).
  unfold ids_index in Hi. apply in_map_iff in Hi. destruct Hi as (r & <- & Hr). exists r. auto.
Qed.

Lemma map_nth_seq {A} (l : list A) d : map (fun q => nth q l d) (seq 0 (length l)) = l.
Proof.
  induction l as [|x l IH]; [reflexivity|]. simpl. f_equal. rewrite <- seq_shift, map_map. exact IH.
Qed.

Lemma combine_map3 {A B C D} (f : A -> B) (g : A -> C) (h : A -> D) l :
  combine (combine (map f l) (map g l)) (map h l) = map (fun a => ((f a, g a), h a)) l.
Proof. induction l as [|x l IH]; [reflexivity|]. simpl. rewrite IH. reflexivity. Qed.

Lemma G_eq : reversed_indices F = map prow (seq 0 N).
Proof.
  unfold reversed_indices. fold mx. fold N.
  assert (E1 : map (fun i => Z.abs (i - mx)) (ids_index F) = map (fun i => mx - i)%Z (ids_index F)).
  { apply map_ext_in. intros i Hi. apply rid_le_mx in Hi. lia. }
  rewrite E1. destruct (z_sort_desc _ (ids_index_desc_aux F mx HS)) as (E2 & _). rewrite E2.
  assert (E3 : rev (map (fun i => mx - i)%Z (ids_index F)) = map (fun p => mx - idn (rv p))%Z (seq 0 N)).
  { rewrite <- map_rev. unfold rv. rewrite <- (map_map (fun p => N - 1 - p) (fun q => mx - idn q)%Z).
    rewrite <- rev_seq. rewrite <- (map_map idn (fun i => mx - i)%Z). f_equal.
    rewrite map_rev. f_equal. unfold idn, N. rewrite <- (map_length rid F) at 1.
    symmetry. apply (map_nth_seq (ids_index F)). }
  rewrite E3. rewrite rev_seq. fold rv. unfold np_arange.
  rewrite (combine_map3 (fun p => mx - idn (rv p))%Z Z.of_nat rv). rewrite map_map. reflexivity.
Qed.

Definition P_of (i : Z) : list nat := filter (fun p => (idn (rv p) =? i)%Z) (seq 0 N).

Lemma idn_nth q r : nth_error F q = Some r -> idn q = rid r.
Proof.
  intros E. unfold idn, ids_index. apply nth_error_nth. rewrite nth_error_map, E. reflexivity.
Qed.

Lemma pos_of_rev i : rev (pos_of F i) = map rv (P_of i).
Proof.
  unfold pos_of, P_of. rewrite <- filter_rev. fold N. rewrite rev_seq. fold rv. rewrite filter_map_comm.
  f_equal. apply filter_ext_in. intros p Hp. apply in_seq in Hp.
  destruct (nth_error F (rv p)) as [r|] eqn:E.
  - rewrite (idn_nth _ _ E). reflexivity.
  - apply nth_error_None in E. unfold rv, N in *. lia.
Qed.

Lemma rows_of_G i : rows_of (map prow (seq 0 N)) (mx - i) = map prow (P_of i).
Proof.
  unfold rows_of, P_of. rewrite filter_map_comm. f_equal. apply filter_ext. intros p. simpl. lia.
Qed.

Lemma in_idsF_nth i : In i (ids F) <-> exists q, q < N /\ idn q = i.
Proof.
  rewrite in_ids. split.
  - intros (r & Hr & <-). apply In_nth_error in Hr. destruct Hr as (q & Hq). exists q.
    split; [unfold N; apply nth_error_Some; congruence|apply idn_nth; exact Hq].
  - intros (q & Hq & <-). destruct (nth_error F q) as [r|] eqn:E; [|apply nth_error_None in E; unfold N in Hq; lia].
    exists r. split; [eapply nth_error_In; exact E|]. symmetry. apply idn_nth. exact E.
Qed.

Lemma sorted_rev_desc (l : list Z) : StronglySorted Z.lt l -> StronglySorted Z.lt (map (fun i => mx - i)%Z (rev l)).
Proof.
  induction 1 as [|x l Hs IH Hf]; simpl; [constructor|]. rewrite map_app. simpl.
  assert (Hx : forall y, In y (map (fun i => mx - i)%Z (rev l)) -> (y < mx - x)%Z).
  { intros y Hy. apply in_map_iff in Hy. destruct Hy as (z & <- & Hz). apply in_rev in Hz.
    rewrite Forall_forall in Hf. specialize (Hf z Hz). lia. }
  clear - IH Hx. induction IH as [|y r Hr IH Hf]; simpl; [repeat constructor|].
  constructor; [apply IH; intros z Hz; apply Hx; right; exact Hz|].
  rewrite Forall_forall in *. intros z Hz. apply in_app_or in Hz. destruct Hz as [Hz|[<-|[]]]; [apply Hf; exact Hz|].
  apply Hx. left; reflexivity.
Qed.

Lemma ids_G : ids (map prow (seq 0 N)) = map (fun i => mx - i)%Z (rev (ids F)).
Proof.
  apply sorted_ext.
  - apply ids_sorted.
  - apply sorted_rev_desc, ids_sorted.
  - intros x. unfold ids at 1. rewrite in_np_unique. unfold ids_index. rewrite map_map, !in_map_iff. cbn [rid prow].
    split.
    + intros (p & <- & Hp). exists (idn (rv p)). split; [reflexivity|]. rewrite <- in_rev.
      apply in_idsF_nth. exists (rv p). split; [|reflexivity]. apply in_seq in Hp. unfold rv. lia.
    + intros (i & <- & Hi). rewrite <- in_rev in Hi. apply in_idsF_nth in Hi. destruct Hi as (q & Hq & <-).
      exists (rv q). split; [unfold rv; do 2 f_equal; lia|]. apply in_seq. unfold rv. lia.
Qed.

Lemma P_of_spec i : StronglySorted lt (P_of i) /\ (forall p, In p (P_of i) -> p < N).
Proof.
  split; [apply filter_sorted, seq_sorted|]. intros p Hp. apply filter_In in Hp. destruct Hp as (Hp & _).
  apply in_seq in Hp. lia.
Qed.

Lemma time_values_prow Q : StronglySorted lt Q -> map Z.to_nat (time_values (map prow Q)) = Q.
Proof.
  intros H. unfold time_values, time_index. rewrite map_map. simpl.
  rewrite np_unique_of_sorted by (apply of_nat_sorted; exact H).
  rewrite map_map. rewrite (map_ext _ (fun p => p)) by (intros p; lia). apply map_id.
Qed.

(** one window: [P] are the positions of the window in the reversed frame *)
Definition test_of (P : list nat) : list nat := rev (map rv P).

Lemma test_of_in P x : (forall p, In p P -> p < N) -> x < N -> (In x (test_of P) <-> In (rv x) P).
Proof.
  intros HP Hx. unfold test_of. rewrite <- in_rev, in_map_iff. split.
  - intros (p & <- & Hp). assert (p < N) by (apply HP; exact Hp). replace (rv (rv p)) with p by (unfold rv; lia). exact Hp.
  - intros H. exists (rv x). split; [unfold rv; lia|exact H].
Qed.

Lemma filter_dec_eq {A} (l : list A) (f g : A -> bool) : (forall x, In x l -> f x = g x) -> filter f l = filter g l.
Proof. apply filter_ext_in. Qed.

Lemma drop_short_spec (Tr Tr' : list (row nat)) k :
  Tr <> [] -> drop_short Tr (Some k) = Ok Tr' -> Tr' = filter (fun r => k <=? length (rows_of Tr (rid r))) Tr.
Proof.
  intros Hne. unfold drop_short. destruct (n_timesteps Tr) as [n|l] eqn:E.
  - rewrite (n_timesteps_int Tr n Hne) in E.
    assert (Hall : forall r, In r Tr -> length (rows_of Tr (rid r)) = n).
    { intros r Hr. apply E. apply in_ids. exists r. auto. }
    destruct (n <? k) eqn:En; intros H; injection H as <-; symmetry.
    + apply filter_all_false. intros r Hr. rewrite (Hall r Hr). lia.
    + apply filter_all_true. intros r Hr. rewrite (Hall r Hr). lia.
  - apply n_timesteps_series in E. subst l.
    set (L := map (fun i => (i, length (rows_of Tr i))) (ids Tr)).
    assert (Hk : forall r, In r Tr ->
      existsb (Z.eqb (rid r)) (map fst (filter (fun p => negb (snd p <? k)) L)) = (k <=? length (rows_of Tr (rid r)))).
    { intros r Hr. destruct (k <=? length (rows_of Tr (rid r))) eqn:Ek.
      - apply existsb_exists. exists (rid r). split; [|lia]. apply in_map_iff.
        exists (rid r, length (rows_of Tr (rid r))). split; [reflexivity|]. apply filter_In. split.
        + unfold L. apply in_map_iff. exists (rid r). split; [reflexivity|]. apply in_ids. exists r. auto.
        + cbn [snd]. lia.
      - apply existsb_false_forall. intros x Hx. apply in_map_iff in Hx. destruct Hx as ((i & n) & <- & Hx).
        apply filter_In in Hx. destruct Hx as (Hx & Hn). unfold L in Hx. apply in_map_iff in Hx.
        destruct Hx as (i' & Eq & _). injection Eq as <- <-. cbn [snd fst] in *.
        destruct (rid r =? i')%Z eqn:Ei; [|reflexivity]. assert (i' = rid r) by lia. subst i'. lia. }
    destruct (length (map fst (filter (fun p => negb (snd p <? k)) L)) =? length L) eqn:El.
    + intros H. injection H as <-. symmetry. apply filter_all_true. intros r Hr.
      rewrite map_length in El.
      assert (Hall : forall p, In p L -> negb (snd p <? k) = true).
      { apply Nat.eqb_eq in El. clear - El. induction L as [|p L IH]; intros q Hq; [destruct Hq|].
        simpl in El. destruct (negb (snd p <? k)) eqn:Ep.
        - destruct Hq as [<-|Hq]; [exact Ep|]. apply IH; [simpl in El; lia|exact Hq].
        - exfalso. assert (H := filter_length_le (fun p => negb (snd p <? k)) L). simpl in El. lia. }
      specialize (Hall (rid r, length (rows_of Tr (rid r)))). cbn [snd] in Hall.
      assert (H : negb (length (rows_of Tr (rid r)) <? k) = true); [|lia]. apply Hall.
      unfold L. apply in_map_iff. exists (rid r). split; [reflexivity|]. apply in_ids. exists r. auto.
    + intros H. apply tsc_ok in H. destruct H as (_ & ->). apply filter_ext_in. exact Hk.
Qed.

(** rows carrying a new label *)
Lemma relabelled_prow (new : nat -> Z) Q Tr :
  (forall p, In p Q -> p < N) -> Relabelled (map prow (seq 0 N)) new Q Tr ->
  Tr = map (fun p => mkRow (new p) (Z.of_nat p) (rv p)) Q.
Proof.
  intros Hb H. induction H as [|p g Q Tr (r & Hr & ->) H IH]; [reflexivity|]. simpl. f_equal.
  - rewrite nth_error_map in Hr. assert (Hp : p < N) by (apply Hb; left; reflexivity).
    rewrite (nth_error_nth' _ 0) in Hr by (rewrite seq_length; exact Hp). rewrite seq_nth in Hr by exact Hp.
    injection Hr as <-. reflexivity.
  - apply IH. intros q Hq. apply Hb. right; exact Hq.
Qed.

Lemma length_rev_bij (f g : nat -> bool) : (forall p, p < N -> f p = g (rv p)) ->
  length (filter f (seq 0 N)) = length (filter g (seq 0 N)).
Proof.
  intros H. rewrite <- (rev_length (filter g _)), <- filter_rev, rev_seq, filter_map_comm, map_length.
  f_equal. apply filter_ext_in. intros p Hp. apply in_seq in Hp. apply H. lia.
Qed.

Lemma same_id_idn p q : p < N -> q < N -> same_id F p q = (idn p =? idn q)%Z.
Proof.
  intros Hp Hq. unfold same_id.
  destruct (nth_error F p) as [a|] eqn:Ea; [|apply nth_error_None in Ea; unfold N in *; lia].
  destruct (nth_error F q) as [b|] eqn:Eb; [|apply nth_error_None in Eb; unfold N in *; lia].
  rewrite (idn_nth _ _ Ea), (idn_nth _ _ Eb). reflexivity.
Qed.

Lemma nth_G k : k < N -> nth_error (map prow (seq 0 N)) k = Some (prow k).
Proof.
  intros Hk. rewrite nth_error_map, (nth_error_nth' _ 0) by (rewrite seq_length; exact Hk).
  rewrite seq_nth by exact Hk. reflexivity.
Qed.

Lemma window_split_spec P mn l :
  P <> [] -> StronglySorted lt P -> (forall p, In p P -> p < N) ->
  window_split (map prow (seq 0 N)) (map prow P) mn = Ok l ->
  l = if length (train_rows F mn (test_of P)) =? 0 then [] else [(train_rows F mn (test_of P), test_of P)].
Proof.
  intros HPne HPs HPb E. unfold window_split in E.
  set (inW := fun r : row nat => existsb (pair_eqb (rid r, rtime r)) (index (map prow P))) in E.
  assert (HinW : forall p, p < N -> inW (prow p) = nat_mem p P).
  { intros p Hp. unfold inW. destruct (nat_mem p P) eqn:Em.
    - apply existsb_exists. exists (mx - idn (rv p), Z.of_nat p)%Z. split.
      + unfold index. rewrite map_map. apply in_map_iff. exists p. split; [reflexivity|].
        apply nat_mem_in. exact Em.
      + unfold pair_eqb. simpl. rewrite !Z.eqb_refl. reflexivity.
    - apply existsb_false_forall. intros x Hx. unfold index in Hx. rewrite map_map in Hx.
      apply in_map_iff in Hx. destruct Hx as (q & <- & Hq). unfold pair_eqb. simpl.
      destruct (Z.of_nat p =? Z.of_nat q)%Z eqn:Epq; [|apply andb_false_r].
      assert (p = q) by lia. subst q. apply nat_mem_notin in Em. contradiction. }
  set (Q := filter (fun p => negb (nat_mem p P)) (seq 0 N)).
  assert (EQ : filter (fun r => negb (inW r)) (map prow (seq 0 N)) = map prow Q).
  { rewrite filter_map_comm. f_equal. apply filter_ext_in. intros p Hp. apply in_seq in Hp.
    rewrite HinW by lia. reflexivity. }
  unfold inW in EQ. rewrite EQ in E.
  destruct (tsc (map prow Q)) as [T|] eqn:ET; [|discriminate]. apply tsc_ok in ET. destruct ET as (HT & ->).
  assert (HQs : StronglySorted lt Q) by (apply filter_sorted, seq_sorted).
  assert (HQb : forall p, In p Q -> p < N) by (intros p Hp; apply filter_In in Hp; destruct Hp as (Hp & _); apply in_seq in Hp; lia).
  assert (HQin : forall p, p < N -> (In p Q <-> ~ In p P)).
  { intros p Hp. unfold Q. rewrite filter_In, negb_true_iff, in_seq. rewrite nat_mem_notin. split; [tauto|]. intros; split; [lia|assumption]. }
  rewrite !time_values_prow in E by assumption.
  destruct (assign_ids_train_test (map prow (seq 0 N)) Q P) as [[Tr Te]|] eqn:EA; [|discriminate].
  destruct (train_test_spec _ _ _ _ _ EA) as (new & HTr & HTe & Hnew).
  apply relabelled_prow in HTr; [|exact HQb]. apply relabelled_prow in HTe; [|exact HPb].
  assert (HQne : Q <> []) by (intros EQ'; apply (vr_nonempty _ HT); rewrite EQ'; reflexivity).
  assert (Ete : rev (to_numpy Te) = test_of P).
  { rewrite HTe. unfold to_numpy. rewrite map_map. reflexivity. }
  assert (Hte : StronglySorted lt (test_of P)) by (apply rev_map_rv_sorted; assumption).
  assert (Etr : forall Tr', drop_short Tr mn = Ok Tr' -> rev (to_numpy Tr') = train_rows F mn (test_of P)).
  { intros Tr' HTr'.
    (* the rows kept *)
    assert (K : exists keep : nat -> bool, Tr' = map (fun p => mkRow (new p) (Z.of_nat p) (rv p)) (filter keep Q) /\
       forall p, In p Q -> keep p = match mn with None => true
          | Some k => k <=? length (filter (fun q => (new q =? new p)%Z) Q) end).
    { destruct mn as [k|].
      - apply drop_short_spec in HTr'.
        2:{ rewrite HTr. destruct Q; [congruence|discriminate]. }
        exists (fun p => k <=? length (filter (fun q => (new q =? new p)%Z) Q)). split; [|reflexivity].
        rewrite HTr', HTr, filter_map_comm. f_equal. apply filter_ext. intros p. cbn [rid].
        unfold rows_of. rewrite filter_map_comm, map_length. cbn [rid]. reflexivity.
      - exists (fun _ => true). split; [|reflexivity]. simpl in HTr'. injection HTr' as <-.
        rewrite (filter_all_true (fun _ => true)) by reflexivity. exact HTr. }
    destruct K as (keep & -> & Hkeep).
    unfold to_numpy. rewrite map_map. cbn [rval]. change (fun x => rv x) with rv.
    apply nat_sorted_ext.
    - apply rev_map_rv_sorted; [apply filter_sorted; exact HQs|]. intros x Hx. apply filter_In in Hx. apply HQb, Hx.
    - apply filter_sorted, seq_sorted.
    - intros x. rewrite <- in_rev, in_map_iff. unfold train_rows. rewrite filter_In, in_seq. fold N.
      assert (Hmem : x < N -> mem x (test_of P) = nat_mem (rv x) P).
      { intros Hx. apply eq_true_iff_eq. change (mem x (test_of P)) with (nat_mem x (test_of P)).
        rewrite !nat_mem_in. apply test_of_in; assumption. }
      assert (Hk : x < N -> In (rv x) Q -> keep (rv x) =
          match mn with None => true | Some k => k <=? length (piece F (test_of P) x) end).
      { intros Hx HxQ. rewrite (Hkeep _ HxQ). destruct mn as [k|]; [|reflexivity]. f_equal.
        unfold Q at 1. unfold piece. fold N.
        assert (Hff : forall (f g : nat -> bool) (l : list nat), filter f (filter g l) = filter (fun y => g y && f y) l).
        { clear. intros f g l. induction l as [|y l IH]; [reflexivity|]. simpl.
          destruct (g y); simpl; rewrite IH; reflexivity. }
        rewrite Hff. clear Hff. apply length_rev_bij. intros q Hq.
        apply eq_true_iff_eq. rewrite andb_true_iff, negb_true_iff, nat_mem_notin, forallb_forall.
        rewrite <- (HQin q Hq).
        assert (Hpc : (forall y, In y (seq (Nat.min x (rv q)) (Nat.max x (rv q) - Nat.min x (rv q) + 1)) ->
             negb (mem y (test_of P)) && same_id F y x = true) <->
             (forall k', Nat.min q (rv x) <= k' <= Nat.max q (rv x) -> In k' Q /\ idn (rv k') = idn x)).
        { split.
          - intros H k' Hk'. specialize (H (rv k')). rewrite in_seq in H.
            assert (Hk'N : k' < N) by (unfold rv in *; lia).
            specialize (H ltac:(unfold rv in *; lia)). apply andb_prop in H. destruct H as (H1 & H2).
            rewrite negb_true_iff in H1. rewrite same_id_idn in H2 by (unfold rv; lia). split; [|lia].
            apply HQin; [exact Hk'N|]. intros Hin.
            change (nat_mem (rv k') (test_of P) = false) in H1. rewrite nat_mem_notin in H1. apply H1.
            apply test_of_in; [exact HPb|unfold rv; lia|]. replace (rv (rv k')) with k' by (unfold rv; lia). exact Hin.
          - intros H y Hy. apply in_seq in Hy. assert (HyN : y < N) by (unfold rv in *; lia).
            specialize (H (rv y) ltac:(unfold rv in *; lia)). destruct H as (H1 & H2).
            replace (rv (rv y)) with y in H2 by (unfold rv; lia).
            rewrite same_id_idn by assumption. apply andb_true_intro. split; [|lia].
            rewrite negb_true_iff. change (nat_mem y (test_of P) = false). rewrite nat_mem_notin.
            intros Hin. apply test_of_in in Hin; [|exact HPb|exact HyN].
            apply HQin in H1; [contradiction|unfold rv; lia]. }
        rewrite Hpc. clear Hpc.
        assert (Hid : forall a, a < N -> option_map rid (nth_error (map prow (seq 0 N)) a) = Some (mx - idn (rv a))%Z).
        { intros a Ha. rewrite (nth_G a Ha). reflexivity. }
        assert (HrvN : rv x < N) by (unfold rv; lia).
        assert (Erv : rv (rv x) = x) by (unfold rv; lia).
        assert (HnotP : forall a, In a Q -> ~ In a P).
        { intros a Ha. apply HQin; [apply HQb; exact Ha|exact Ha]. }
        split.
        - intros (HqQ & Hn). apply Z.eqb_eq in Hn.
          assert (HqA : In q (Q ++ P)) by (apply in_or_app; left; exact HqQ).
          assert (HxA : In (rv x) (Q ++ P)) by (apply in_or_app; left; exact HxQ).
          destruct (le_lt_dec q (rv x)) as [Hle|Hlt].
          + rewrite (Hnew q (rv x) Hle HqA HxA) in Hn. intros k' Hk'.
            assert (HL := Hn (rv x) ltac:(lia)). destruct (Hn k' ltac:(lia)) as (_ & H2 & H3).
            destruct HL as (_ & _ & H3').
            split; [apply H2; exact HqQ|].
            rewrite Hid in H3, H3' by lia. rewrite (Hid q Hq) in H3, H3'. rewrite Erv in H3'.
            injection H3 as H3. injection H3' as H3'. lia.
          + symmetry in Hn. rewrite (Hnew (rv x) q ltac:(lia) HxA HqA) in Hn. intros k' Hk'.
            destruct (Hn k' ltac:(lia)) as (_ & H2 & H3).
            split; [apply H2; exact HxQ|].
            rewrite Hid in H3 by lia. rewrite (Hid (rv x) HrvN) in H3. rewrite Erv in H3.
            injection H3 as H3. lia.
        - intros H. assert (HqQ : In q Q) by (apply (H q); lia). split; [exact HqQ|]. apply Z.eqb_eq.
          assert (HqA : In q (Q ++ P)) by (apply in_or_app; left; exact HqQ).
          assert (HxA : In (rv x) (Q ++ P)) by (apply in_or_app; left; exact HxQ).
          destruct (le_lt_dec q (rv x)) as [Hle|Hlt]; [|symmetry].
          + apply (Hnew q (rv x) Hle HqA HxA). intros k' Hk'.
            destruct (H k' ltac:(lia)) as (H1 & H2). destruct (H q ltac:(lia)) as (_ & H2').
            split; [apply in_or_app; left; exact H1|]. split; [tauto|].
            rewrite !Hid by lia. do 2 f_equal. lia.
          + apply (Hnew (rv x) q ltac:(lia) HxA HqA). intros k' Hk'.
            destruct (H k' ltac:(lia)) as (H1 & H2).
            split; [apply in_or_app; left; exact H1|]. split; [tauto|].
            rewrite !Hid by lia. rewrite Erv. do 2 f_equal. lia. }
      split.
      + intros (p & <- & Hp). apply filter_In in Hp. destruct Hp as (HpQ & Hkp).
        assert (HpN := HQb p HpQ). assert (Hr : rv (rv p) = p) by (unfold rv; lia).
        assert (HrN : rv p < N) by (unfold rv; lia).
        split; [lia|]. rewrite (Hmem HrN), Hr.
        replace (nat_mem p P) with false by (symmetry; apply nat_mem_notin; apply HQin; assumption).
        cbn [negb andb]. rewrite <- Hk; rewrite ?Hr; assumption.
      + intros (Hx & Hc). apply andb_prop in Hc. destruct Hc as (Hc1 & Hc2).
        assert (HxN : x < N) by lia. rewrite (Hmem HxN) in Hc1. apply negb_true_iff in Hc1. rewrite nat_mem_notin in Hc1.
        assert (HxQ : In (rv x) Q) by (apply HQin; [unfold rv; lia|exact Hc1]).
        exists (rv x). split; [unfold rv; lia|]. apply filter_In. split; [exact HxQ|].
        rewrite (Hk HxN HxQ). exact Hc2. }
  destruct (drop_short Tr mn) as [Tr'|] eqn:ED; [|discriminate].
  rewrite (Etr Tr' eq_refl), Ete in E.
  rewrite (nat_sort_id (test_of P) Hte) in E.
  rewrite (nat_sort_id (train_rows F mn (test_of P))) in E by (apply filter_sorted, seq_sorted).
  destruct (length (train_rows F mn (test_of P)) =? 0); injection E as <-; reflexivity.
Qed.

Lemma window_fold_spec k w o mn splits :
  1 <= w -> window_fold k F w o mn = Ok splits ->
  splits = filter (fun s => negb (length (fst s) =? 0))
             (map (fun te => (train_rows F mn te, te)) (windows_from_end F w o (rev (ids F)))).
Proof.
  intros Hw E. unfold window_fold in E.
  destruct (forallb _ _); [discriminate|].
  destruct (tsc (reversed_indices F)) as [G'|] eqn:EG; [|discriminate].
  destruct (check_non_overlapping F); [|discriminate].
  destruct (check_const_time_delta k F); [|discriminate].
  apply tsc_ok in EG. destruct EG as (HG & _). rewrite G_eq in *.
  destruct (iter_timevalue_window KInt (map prow (seq 0 N)) (Z.of_nat w) (Z.of_nat (w + o)) true) as [ws|] eqn:EW; [|discriminate].
  destruct (map_result _ ws) as [l|] eqn:EM; [|discriminate]. injection E as <-.
  assert (Hc : exists d, check_const_time_delta KInt (map prow (seq 0 N)) = Ok d).
  { unfold iter_timevalue_window in EW. destruct (check_const_time_delta KInt _); [eauto|discriminate]. }
  destruct Hc as (d & Hd).
  rewrite (iter_windows_per_series _ _ _ _ HG (proj1 (Nat2Z.inj_lt 0 w) ltac:(lia)) (proj1 (Nat2Z.inj_lt 0 (w+o)) ltac:(lia)) d Hd) in EW.
  injection EW as <-. rewrite !Nat2Z.id in EM. rewrite ids_G in EM.
  rewrite flat_map_concat_map, map_map in EM.
  rewrite (map_ext _ (fun i => map (map prow) (full_windows w (w + o) (P_of i)))) in EM
    by (intros i; rewrite rows_of_G, full_windows_map; reflexivity).
  apply map_result_inv in EM.
  unfold windows_from_end.
  assert (EQ : flat_map (fun i => map (@rev nat) (full_windows w (w + o) (rev (pos_of F i)))) (rev (ids F))
             = map test_of (flat_map (fun i => full_windows w (w + o) (P_of i)) (rev (ids F)))).
  { clear EM. induction (rev (ids F)) as [|i r IH]; [reflexivity|]. simpl. rewrite map_app, <- IH. f_equal.
    rewrite pos_of_rev, full_windows_map, map_map. reflexivity. }
  rewrite EQ. clear EQ. rewrite <- flat_map_concat_map in EM.
  set (Ws := flat_map (fun i => full_windows w (w + o) (P_of i)) (rev (ids F))).
  assert (EMs : Forall2 (fun P b => window_split (map prow (seq 0 N)) (map prow P) mn = Ok b) Ws l).
  { unfold Ws. revert EM.
    assert (EQ : flat_map (fun i => map (map prow) (full_windows w (w + o) (P_of i))) (rev (ids F))
                = map (map prow) (flat_map (fun i => full_windows w (w + o) (P_of i)) (rev (ids F)))).
    { induction (rev (ids F)) as [|i r IH]; [reflexivity|]. simpl. rewrite map_app, <- IH. reflexivity. }
    rewrite EQ. clear. revert l. induction (flat_map (fun i => full_windows w (w + o) (P_of i)) (rev (ids F))) as [|P Ps IH];
      intros l H; simpl in H; inversion H; subst; constructor; auto. }
  assert (HWs : forall P, In P Ws -> P <> [] /\ StronglySorted lt P /\ (forall p, In p P -> p < N)).
  { intros P HP. unfold Ws in HP. apply in_flat_map in HP. destruct HP as (i & _ & HP).
    destruct (P_of_spec i) as (S & B).
    destruct (full_windows_sub lt w (w + o) (P_of i) P S HP) as (H1 & H2 & H3). split; [|split; auto].
    intros ->. simpl in H3. lia. }
  clear EM HG Hd. clearbody Ws. induction EMs as [|P b Ws l HPb Hr IH]; [reflexivity|].
  simpl. destruct (HWs P (or_introl eq_refl)) as (H1 & H2 & H3).
  apply (window_split_spec P mn b H1 H2 H3) in HPb. rewrite HPb.
  rewrite (IH (fun P' HP' => HWs P' (or_intror HP'))).
  destruct (length (train_rows F mn (test_of P)) =? 0); reflexivity.
Qed.

End Window.

(** ** windows do not overlap *)

Lemma NoDup_flat_map_disjoint {A B} (f : A -> list B) l :
  NoDup l -> (forall a, In a l -> NoDup (f a)) ->
  (forall a b x, In a l -> In b l -> In x (f a) -> In x (f b) -> a = b) -> NoDup (flat_map f l).
Proof.
  induction 1 as [|a l Hni Hnd IH]; intros Hf Hd; simpl; [constructor|].
  assert (H1 : NoDup (flat_map f l)).
  { apply IH; [intros b Hb; apply Hf; right; exact Hb|].
    intros b c x Hb Hc. apply Hd; right; assumption. }
  assert (H2 : NoDup (f a)) by (apply Hf; left; reflexivity).
  assert (H3 : forall x, In x (f a) -> ~ In x (flat_map f l)).
  { intros x Hx Hx'. apply in_flat_map in Hx'. destruct Hx' as (b & Hb & Hxb).
    assert (a = b) by (apply (Hd a b x); auto; [left; reflexivity|right; exact Hb]). subst b. contradiction. }
  clear - H1 H2 H3. induction H2 as [|x r Hni Hnd IH]; simpl; [exact H1|].
  constructor.
  - intros Hc. apply in_app_or in Hc. destruct Hc as [Hc|Hc]; [contradiction|].
    apply (H3 x); [left; reflexivity|exact Hc].
  - apply IH. intros y Hy. apply H3. right; exact Hy.
Qed.

Lemma in_firstn_nth {A} (x : A) w : forall l, In x (firstn w l) -> exists a, a < w /\ nth_error l a = Some x.
Proof.
  induction w as [|w IH]; intros [|y l] H; simpl in H; try contradiction.
  destruct H as [->|H]; [exists 0; split; [lia|reflexivity]|].
  destruct (IH l H) as (a & Ha & E). exists (S a). split; [lia|exact E].
Qed.

Lemma nth_skipn {A} (l : list A) : forall n a, nth_error (skipn n l) a = nth_error l (n + a).
Proof.
  induction l as [|x l IH]; intros [|n] a; simpl; try reflexivity.
  - destruct a; reflexivity.
  - apply IH.
Qed.

Lemma NoDup_sub {A} (l1 l2 l3 : list A) : NoDup (l1 ++ l2 ++ l3) -> NoDup l2.
Proof.
  intros H. apply NoDup_app_r in H. apply (NoDup_concat [l2; l3]); [simpl; rewrite app_nil_r; exact H|left; reflexivity].
Qed.

Lemma full_windows_disjoint {A} w o (l : list A) : w <= o -> NoDup l -> NoDup (concat (full_windows w o l)).
Proof.
  intros Hwo Hl. unfold full_windows. rewrite <- flat_map_concat_map.
  apply NoDup_flat_map_disjoint.
  - apply NoDup_filter, seq_NoDup.
  - intros j _. apply (NoDup_sub (firstn (j * o) l) _ (skipn w (skipn (j * o) l))).
    rewrite firstn_skipn, firstn_skipn. exact Hl.
  - intros a b x _ _ Ha Hb. apply in_firstn_nth in Ha. apply in_firstn_nth in Hb.
    destruct Ha as (u & Hu & Eu), Hb as (v & Hv & Ev). rewrite nth_skipn in Eu, Ev.
    rewrite NoDup_nth_error in Hl.
    assert (E : a * o + u = b * o + v).
    { apply Hl; [apply nth_error_Some; congruence|congruence]. }
    destruct (lt_eq_lt_dec a b) as [[H|H]|H]; [nia|exact H|nia].
Qed.

Lemma in_pos_of {V} (F : list (row V)) i p : In p (pos_of F i) <-> id_at F p = Some i.
Proof.
  unfold pos_of, id_at. rewrite filter_In, in_seq. destruct (nth_error F p) as [r|] eqn:E; simpl.
  - split.
    + intros (_ & H). f_equal. lia.
    + intros H. injection H as <-. split; [|lia].
      assert (p < length F) by (apply nth_error_Some; congruence). lia.
  - split; [intros (_ & H); discriminate|discriminate].
Qed.

Lemma flat_map_concat_rev {A} (l : list (list A)) : Permutation (concat (map (@rev A) l)) (concat l).
Proof.
  induction l as [|x l IH]; [reflexivity|]. simpl. apply Permutation_app; [|exact IH].
  symmetry. apply Permutation_rev.
Qed.

Lemma windows_disjoint {V} (F : list (row V)) w o visited :
  NoDup visited -> NoDup (concat (windows_from_end F w o visited)).
Proof.
  intros Hn. unfold windows_from_end.
  assert (E : concat (flat_map (fun i => map (@rev nat) (full_windows w (w + o) (rev (pos_of F i)))) visited)
            = flat_map (fun i => concat (map (@rev nat) (full_windows w (w + o) (rev (pos_of F i))))) visited).
  { clear Hn. induction visited as [|i r IH]; [reflexivity|]. simpl. rewrite concat_app, IH. reflexivity. }
  rewrite E. apply NoDup_flat_map_disjoint; [exact Hn| |].
  - intros i _. apply (Permutation_NoDup (l := concat (full_windows w (w + o) (rev (pos_of F i))))).
    + symmetry. apply flat_map_concat_rev.
    + apply full_windows_disjoint; [lia|]. apply NoDup_rev. apply NoDup_filter, seq_NoDup.
  - assert (Hin : forall i x, In x (concat (map (@rev nat) (full_windows w (w + o) (rev (pos_of F i))))) -> id_at F x = Some i).
    { intros i x Hx. apply in_pos_of.
      apply (Permutation_in _ (flat_map_concat_rev _)) in Hx. apply in_concat in Hx. destruct Hx as (y & Hy & Hx).
      unfold full_windows in Hy. apply in_map_iff in Hy. destruct Hy as (j & <- & _).
      apply in_firstn_nth in Hx. destruct Hx as (a & _ & Ea). rewrite nth_skipn in Ea.
      apply nth_error_In in Ea. apply in_rev in Ea. exact Ea. }
    intros a b x _ _ Ha Hb. apply Hin in Ha. apply Hin in Hb. congruence.
Qed.

Lemma window_fold_disjoint {V} (F : list (row V)) k w o mn splits :
  ValidRows F -> IdsSorted F -> 1 <= w -> window_fold k F w o mn = Ok splits ->
  NoDup (concat (map snd splits)).
Proof.
  intros HV HS Hw E. apply (window_fold_spec F HV HS) in E; [|exact Hw]. rewrite E. clear E.
  assert (H := windows_disjoint F w o (rev (ids F)) ltac:(apply NoDup_rev; apply np_unique_NoDup)).
  induction (windows_from_end F w o (rev (ids F))) as [|te r IH]; [constructor|]. simpl in *.
  destruct (negb _); simpl.
  - assert (Hr : NoDup (concat r)) by (apply NoDup_app_r in H; exact H). specialize (IH Hr).
    assert (Hincl : incl (concat (map snd (filter (fun s => negb (length (fst s) =? 0)) (map (fun te => (train_rows F mn te, te)) r)))) (concat r)).
    { intros x Hx. apply in_concat in Hx. destruct Hx as (y & Hy & Hx). apply in_concat. exists y. split; [|exact Hx].
      apply in_map_iff in Hy. destruct Hy as (s & <- & Hs). apply filter_In in Hs. destruct Hs as (Hs & _).
      apply in_map_iff in Hs. destruct Hs as (t & <- & Ht). exact Ht. }
    revert IH Hincl. generalize (concat (map snd (filter (fun s => negb (length (fst s) =? 0)) (map (fun te => (train_rows F mn te, te)) r)))).
    clear - H. intros L HL Hincl. induction te as [|x te IHt]; simpl in *; [exact HL|].
    inversion H as [|? ? Hni Hnd]; subst. constructor; [|apply IHt; exact Hnd].
    intros Hx. apply Hni. apply in_or_app. apply in_app_or in Hx. destruct Hx as [Hx|Hx]; [left; exact Hx|right; apply Hincl; exact Hx].
  - apply IH. apply NoDup_app_r in H. exact H.
Qed.
