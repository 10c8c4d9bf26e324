(** * Rows selected by time value and the rows of another collection. *)

From Coq Require Import List ZArith Lia Bool Sorted Permutation.
Import ListNotations.
From Verif Require Import Np NpFacts TscModel TscSpec TscProofs TscOps ChkModel ChkSpec ChkProofs AccProofs TscDt TscRegular ReconProofs.
Open Scope Z_scope.

Definition lab_lt (a b : Z * Z) : Prop := fst a < fst b \/ (fst a = fst b /\ snd a < snd b).

Lemma sorted_labels_unique (l m : list (Z * Z)) : StronglySorted lab_lt l -> StronglySorted lab_lt m ->
  (forall x, In x l <-> In x m) -> l = m.
Proof.
  intros H. revert m. induction H as [|a l Hl IH Ha]; intros m Hm HI.
  - destruct m as [|b m]; [reflexivity|]. exfalso. apply (HI b). left; reflexivity.
  - destruct m as [|b m]; [exfalso; apply (HI a); left; reflexivity|].
    inversion Hm as [|? ? Hm' Hb]; subst. rewrite Forall_forall in Ha, Hb.
    assert (E : a = b).
    { destruct (proj1 (HI a) (or_introl eq_refl)) as [E|E]; [symmetry; exact E|].
      destruct (proj2 (HI b) (or_introl eq_refl)) as [E'|E']; [exact E'|].
      specialize (Ha _ E'). specialize (Hb _ E). unfold lab_lt in *. lia. }
    subst b. f_equal. apply IH; [exact Hm'|]. intros x. specialize (HI x). cbn in HI. split; intros Hx.
    + destruct (proj1 HI (or_intror Hx)) as [E|E]; [|exact E]. subst x. specialize (Ha _ Hx). unfold lab_lt in Ha. lia.
    + destruct (proj2 HI (or_intror Hx)) as [E|E]; [|exact E]. subst x. specialize (Hb _ Hx). unfold lab_lt in Hb. lia.
Qed.

Lemma sorted_labels_nodup (l : list (Z * Z)) : StronglySorted lab_lt l -> NoDup l.
Proof.
  induction 1 as [|a l Hl IH Ha]; constructor; [|exact IH]. intros H. rewrite Forall_forall in Ha. specialize (Ha _ H).
  unfold lab_lt in Ha. lia.
Qed.

Lemma sorted_filter {A} (lt : A -> A -> Prop) (P : A -> bool) l : StronglySorted lt l -> StronglySorted lt (filter P l).
Proof.
  induction 1 as [|a l Hl IH Ha]; [constructor|]. cbn. destruct (P a); [|exact IH]. constructor; [exact IH|].
  rewrite Forall_forall in *. intros x Hx. apply filter_In in Hx. apply Ha, Hx.
Qed.

Lemma index_sorted {V} (F : list (row V)) : TimeIncreasing F -> IdsSorted F -> StronglySorted lab_lt (index F).
Proof.
  intros HT HS. unfold index. induction F as [|r F IH]; [constructor|]. cbn. constructor.
  - apply IH.
    + intros a b (l & m & q & E). apply HT. exists (r :: l), m, q. rewrite E. reflexivity.
    + intros a b (l & m & q & E). apply HS. exists (r :: l), m, q. rewrite E. reflexivity.
  - rewrite Forall_forall. intros x Hx. apply in_map_iff in Hx. destruct Hx as (b & <- & Hb).
    apply in_split in Hb. destruct Hb as (m & q & ->).
    assert (HB : Before (r :: m ++ b :: q) r b) by (exists [], m, q; reflexivity).
    specialize (HS _ _ HB). specialize (HT _ _ HB). unfold lab_lt. cbn [fst snd]. destruct (Z.eq_dec (rid r) (rid b)) as [E|E]; [specialize (HT E)|]; lia.
Qed.

Lemma index_select {V} (F : list (row V)) ts :
  index (select_time_values F ts) = filter (fun p => existsb (Z.eqb (snd p)) ts) (index F).
Proof.
  unfold index, select_time_values. induction F as [|r F IH]; [reflexivity|]. cbn. destruct (existsb (Z.eqb (rtime r)) ts); cbn; rewrite IH; reflexivity.
Qed.

Lemma lexsorted_index {V W} (F : list (row V)) (U : list (row W)) : index U = index F -> is_lexsorted U = is_lexsorted F.
Proof.
  unfold is_lexsorted. revert U. induction F as [|r F IH]; intros [|u U] E; try discriminate; [reflexivity|].
  destruct F as [|r' F]; destruct U as [|u' U]; try discriminate; [reflexivity|].
  injection E as E1 E2 E3 E4 E5. 
  change (row_le u u' && forallb (fun p => row_le (fst p) (snd p)) (combine (u' :: U) U)
          = row_le r r' && forallb (fun p => row_le (fst p) (snd p)) (combine (r' :: F) F)).
  assert (IH' := IH (u' :: U)). cbn [tl] in IH'. rewrite IH'.
  - f_equal. unfold row_le. cbn [fst snd]. rewrite E1, E2, E3, E4. reflexivity.
  - unfold index. cbn. rewrite E3, E4. f_equal. exact E5.
Qed.

Lemma existsb_time {V} (G : list (row V)) t : existsb (Z.eqb t) (time_values G) = true <-> exists g, In g G /\ rtime g = t.
Proof.
  rewrite existsb_exists. unfold time_values. split.
  - intros (x & Hx & E). rewrite in_np_unique in Hx. unfold time_index in Hx. apply in_map_iff in Hx. destruct Hx as (g & Eg & Hg).
    exists g. split; [exact Hg|]. lia.
  - intros (g & Hg & E). exists t. split; [|lia]. rewrite in_np_unique. unfold time_index. apply in_map_iff. exists g. split; assumption.
Qed.

Section Two.
Context {V W : Type}.
Variables (F : list (row V)) (G : list (row W)).
Hypothesis HF : StronglySorted lab_lt (index F).
Hypothesis HG : StronglySorted lab_lt (index G).
Hypothesis HI : incl (index G) (index F).

(** every row of F at a time that occurs in G is also a row of G *)
Definition Covered : Prop := forall r g, In r F -> In g G -> rtime r = rtime g -> In (rid r, rtime r) (index G).

Lemma in_selected x : In x (index (select_time_values F (time_values G))) <->
  In x (index F) /\ exists g, In g G /\ rtime g = snd x.
Proof. rewrite index_select, filter_In, existsb_time. reflexivity. Qed.

Lemma selected_incl : incl (index G) (index (select_time_values F (time_values G))).
Proof.
  intros x Hx. apply in_selected. split; [apply HI, Hx|]. unfold index in Hx. apply in_map_iff in Hx.
  destruct Hx as (g & <- & Hg). exists g. split; [exact Hg|reflexivity].
Qed.

Lemma selected_covered : Covered -> index (select_time_values F (time_values G)) = index G.
Proof.
  intros HC. apply sorted_labels_unique; [|exact HG|].
  - rewrite index_select. apply sorted_filter. exact HF.
  - intros x. split; [|apply selected_incl]. intros Hx. apply in_selected in Hx. destruct Hx as (Hx & g & Hg & E).
    unfold index in Hx. apply in_map_iff in Hx. destruct Hx as (r & <- & Hr). apply (HC r g Hr Hg). symmetry. exact E.
Qed.

Lemma selected_more : (exists r g, In r F /\ In g G /\ rtime r = rtime g /\ ~ In (rid r, rtime r) (index G)) ->
  (length G < length (select_time_values F (time_values G)))%nat.
Proof.
  intros (r & g & Hr & Hg & E & HN).
  assert (Hin : In (rid r, rtime r) (index (select_time_values F (time_values G)))).
  { apply in_selected. split; [apply (in_map (fun a => (rid a, rtime a))); exact Hr|]. exists g. split; [exact Hg|symmetry; exact E]. }
  assert (H : (length ((rid r, rtime r) :: index G) <= length (index (select_time_values F (time_values G))))%nat).
  { apply NoDup_incl_length.
    - constructor; [exact HN|]. apply sorted_labels_nodup. exact HG.
    - intros x [<-|Hx]; [exact Hin|]. apply selected_incl, Hx. }
  cbn in H. unfold index in H. rewrite !map_length in H. exact H.
Qed.

End Two.

(** ** Validation in fit for every kind of time values *)

Lemma span_multiple_ok z d : 0 < d -> span_is_multiple (z * d) d = true.
Proof.
  intros Hd. unfold span_is_multiple, rint_div.
  replace (z * d * 100000) with (z * 100000 * d) by ring.
  rewrite Z.div_mul, Z.mod_mul by lia. cbv zeta. replace (2 * 0 <? d) with true by lia.
  rewrite Z.mod_mul by lia. reflexivity.
Qed.

Lemma fit_attrs_regular {V W} k (last : bool) (X : list (row V)) (U : option (list (row W))) d :
  ValidRows X -> (forall i, Occurs X i -> Regular X i d) -> Aligned X d ->
  (forall U', U = Some U' -> last = true /\ index U' = index X) ->
  fit_attrs k last X U = Ok d.
Proof.
  intros HV HR HA HU. unfold fit_attrs.
  replace (match U with None => Ok tt | Some _ => _ end) with (@Ok unit tt).
  2:{ destruct U as [U'|]; [|reflexivity]. destruct (HU U' eq_refl) as [-> E]. rewrite E.
      rewrite (proj2 (index_eqb_eq _ _) eq_refl). reflexivity. }
  rewrite (delta_time_regular k X d HV HR).
  assert (Hsp := span_exists X (vr_nonempty _ HV)).
  destruct Hsp as (t0 & t1 & [(r & Hr & E0) _] & (q & Hq & E1) & _ & E).
  destruct (HA q r Hq Hr) as (z & Hz). rewrite E. replace (t1 - t0) with (z * d) by lia.
  rewrite span_multiple_ok; [reflexivity|].
  apply (regular_pos X (rid r) d HV). apply HR. exists r. split; [exact Hr|reflexivity].
Qed.
