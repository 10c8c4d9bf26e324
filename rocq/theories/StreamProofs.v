(** * Proofs about StreamingDMD *)

From Coq Require Import List ZArith Bool Arith Lia Permutation Sorted.
From Verif Require Import Np TscModel NpFacts TscSpec TscBlocks TscProofs TscDt TscShift StreamModel StreamSpec.
Import ListNotations.
Open Scope Z_scope.

Section Pairs.
Context {V : Type}.
Notation frame := (list (row V)).

Lemma Before_app (l F : frame) a b : Before F a b -> Before (l ++ F) a b.
Proof. intros (x & m & r & ->). exists (l ++ x), m, r. now rewrite <- app_assoc. Qed.

Lemma valid_suffix (l F : frame) : F <> [] -> ValidRows (l ++ F) -> ValidRows F.
Proof.
  intros Hne [H1 H2 H3 H4 H5]. constructor; auto.
  - intros r Hr; apply H2, in_or_app; auto.
  - intros r Hr; apply H3, in_or_app; auto.
  - intros x a m b r c E Eid Hin. apply (H4 (l ++ x) a m b r c); auto.
    rewrite E. now rewrite <- app_assoc.
  - intros a b Hb. apply H5. now apply Before_app.
Qed.

Lemma sorted_suffix (l F : frame) : IdsSorted (l ++ F) -> IdsSorted F.
Proof. intros H a b Hb. apply H. now apply Before_app. Qed.

Lemma later_batch k d (F : frame) d' ps :
  ValidRows F -> IdsSorted F -> stream_partial_fit k (Some d) F = Ok (d', ps) ->
  d' = d /\ ps = snapshot_pairs F.
Proof.
  intros HV HS. unfold stream_partial_fit.
  destruct (delta_time k F) as [[o|l]|e]; try discriminate.
  destruct (match o with Some x => negb (x =? d) | None => false end); [discriminate|].
  destruct (length F <? 2)%nat; [discriminate|].
  destruct (shift_matrices k F) as [[L R]|e] eqn:E; [|discriminate].
  intro H; injection H as <- <-. split; [reflexivity|].
  apply (shift_matrices_pairs F k L R HV); auto.
Qed.

Lemma first_batch k (F : frame) d ps :
  ValidRows F -> IdsSorted F -> stream_partial_fit k None F = Ok (d, ps) ->
  exists a b rest, F = a :: b :: rest /\ rid a = rid b /\ ps = (rval a, rval b) :: snapshot_pairs rest.
Proof.
  intros HV HS. unfold stream_partial_fit.
  destruct (negb (n_timeseries (firstn 2 F) =? 1)%nat) eqn:En; [discriminate|].
  destruct (check_const_time_delta k (firstn 2 F)) as [d0|e] eqn:Ec; [|discriminate].
  destruct (degenerate_ids F); [discriminate|].
  destruct F as [|a [|b rest]]; try discriminate. simpl firstn in *; simpl skipn.
  intro H. exists a, b, rest. split; [reflexivity|].
  assert (Eid : rid a = rid b).
  { apply negb_false_iff, Nat.eqb_eq in En. unfold n_timeseries, ids, ids_index in En.
    cbn -[Z.ltb Z.eqb] in En. destruct (rid a <? rid b) eqn:E1; [discriminate|].
    destruct (rid a =? rid b) eqn:E2; [now apply Z.eqb_eq|discriminate]. }
  split; [exact Eid|].
  destruct rest as [|c rest'].
  - injection H as _ <-. reflexivity.
  - destruct (length (c :: rest') <? 2)%nat; [discriminate|].
    destruct (shift_matrices k (c :: rest')) as [[L R]|e] eqn:E; [|discriminate].
    injection H as _ <-. f_equal.
    apply (shift_matrices_pairs (c :: rest') k L R); auto.
    + apply (valid_suffix [a; b]); [discriminate|exact HV].
    + left. apply (sorted_suffix [a; b]). exact HS.
Qed.

Lemma first_series_two (a b : row V) rest : ValidRows (a :: b :: rest) -> rid a = rid b ->
  (length (rows_of (a :: b :: rest) (rid a)) = 2%nat <->
   match rest with [] => True | c :: _ => rid c <> rid a end).
Proof.
  intros HV Eid. unfold rows_of; simpl. rewrite Eid, Z.eqb_refl; simpl.
  destruct rest as [|c rest']; [simpl; tauto|]. simpl.
  destruct (rid c =? rid b) eqn:Ec.
  - apply Z.eqb_eq in Ec. split; [simpl; lia|congruence].
  - apply Z.eqb_neq in Ec. split; [auto|]. intros _.
    replace (filter (fun r => rid r =? rid b) rest') with (@nil (row V)); [reflexivity|].
    symmetry. destruct (filter (fun r => rid r =? rid b) rest') as [|x xs] eqn:Ef; [reflexivity|exfalso].
    assert (Hx : In x (filter (fun r => rid r =? rid b) rest')) by (rewrite Ef; simpl; auto).
    apply filter_In in Hx as [Hin Hid]. apply Z.eqb_eq in Hid.
    apply in_split in Hin as (l1 & l2 & ->).
    apply Ec.
    pose proof (vr_contig _ HV [a] b (c :: l1) x l2 c) as H.
    rewrite H; auto; simpl; auto.
Qed.

Lemma snapshot_pairs_cons2 (a b : row V) rest : rid a = rid b ->
  snapshot_pairs (a :: b :: rest) = (rval a, rval b) ::
    match rest with c :: _ => if rid b =? rid c then [(rval b, rval c)] else [] | [] => [] end
    ++ snapshot_pairs rest.
Proof.
  intro E. cbn [snapshot_pairs]. rewrite E, Z.eqb_refl. f_equal.
  destruct rest as [|c rest']; [reflexivity|]. destruct (rid b =? rid c); reflexivity.
Qed.

Lemma first_batch_complete k (F : frame) d ps i :
  ValidRows F -> IdsSorted F -> stream_partial_fit k None F = Ok (d, ps) ->
  hd_error (ids_index F) = Some i ->
  (ps = snapshot_pairs F <-> length (rows_of F i) = 2%nat).
Proof.
  intros HV HS H Hi. destruct (first_batch k F d ps HV HS H) as (a & b & rest & -> & Eid & ->).
  injection Hi as <-. rewrite snapshot_pairs_cons2 by exact Eid.
  rewrite first_series_two by assumption.
  destruct rest as [|c rest']; [simpl; tauto|].
  destruct (rid b =? rid c) eqn:E.
  - apply Z.eqb_eq in E. split; [|congruence].
    intro Hl. apply (f_equal (@length _)) in Hl. cbn [length app] in Hl. lia.
  - apply Z.eqb_neq in E. split; [congruence|reflexivity].
Qed.

End Pairs.

Section Compression.
Context {K D : Type} (leb : K -> K -> bool).
Hypothesis total : forall a b, leb a b = true \/ leb b a = true.
Hypothesis trans : forall a b c, leb a b = true -> leb b c = true -> leb a c = true.

Lemma insert_perm x (l : list (K * D)) : Permutation (x :: l) (insert_dir leb x l).
Proof.
  induction l as [|y r IH]; simpl; [apply Permutation_refl|].
  destruct (leb (fst x) (fst y)); [apply Permutation_refl|].
  eapply Permutation_trans; [apply perm_swap|]. now apply perm_skip.
Qed.

Lemma argsort_perm (l : list (K * D)) : Permutation l (argsort leb l).
Proof.
  induction l as [|x l IH]; simpl; [constructor|].
  eapply Permutation_trans; [apply perm_skip, IH|apply insert_perm].
Qed.

Let le (a b : K * D) := leb (fst a) (fst b) = true.

Lemma insert_sorted x (l : list (K * D)) : StronglySorted le l -> StronglySorted le (insert_dir leb x l).
Proof.
  induction l as [|y r IH]; simpl; intro H.
  - constructor; constructor.
  - apply StronglySorted_inv in H as [Hs Hf].
    destruct (leb (fst x) (fst y)) eqn:E.
    + constructor; [constructor; assumption|]. constructor; [exact E|].
      eapply Forall_impl; [|exact Hf]. intros a Ha. unfold le in *. eapply trans; eauto.
    + constructor; [now apply IH|].
      apply Forall_forall. intros a Ha.
      apply (Permutation_in _ (Permutation_sym (insert_perm x r))) in Ha as [<-|Ha].
      * destruct (total (fst x) (fst y)); [congruence|assumption].
      * rewrite Forall_forall in Hf. now apply Hf.
Qed.

Lemma argsort_sorted (l : list (K * D)) : StronglySorted le (argsort leb l).
Proof. induction l; simpl; [constructor|now apply insert_sorted]. Qed.

Lemma sorted_split r (l : list (K * D)) a b : StronglySorted le l -> In a (firstn r l) -> In b (skipn r l) -> le a b.
Proof.
  revert l; induction r; intros [|x l] Hs; simpl; try contradiction.
  apply StronglySorted_inv in Hs as [Hs Hf]. intros [<-|Ha] Hb.
  - rewrite Forall_forall in Hf. apply Hf. rewrite <- (firstn_skipn r l). apply in_or_app; auto.
  - now apply (IHr l).
Qed.

Lemma compress_smallest r (l : list (K * D)) : KeepsSmallest leb l (compress leb (Some r) l) /\
  length (compress leb (Some r) l) = Nat.min r (length l).
Proof.
  unfold compress. destruct (r <? length l)%nat eqn:E.
  - apply Nat.ltb_lt in E. split.
    + exists (skipn r (argsort leb l)). split.
      * rewrite firstn_skipn. apply argsort_perm.
      * intros a b Ha Hb. apply (sorted_split r (argsort leb l)); auto. apply argsort_sorted.
    + rewrite firstn_length. now rewrite <- (Permutation_length (argsort_perm l)).
  - apply Nat.ltb_ge in E. split; [|lia].
    exists []. split; [now rewrite app_nil_r|]. intros a b _ [].
Qed.

End Compression.
