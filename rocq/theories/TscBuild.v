(** * Proofs about from_tensor and assign_ids_train_test. *)

From Coq Require Import List ZArith Bool Arith Lia Sorted Permutation.
From Coq Require Import ZifyBool ZifyNat.
Import ListNotations.
From Verif Require Import Np NpFacts TscModel TscSpec TscBlocks TscProofs TscDt TscShift TscOps.
Close Scope Z_scope.
Open Scope nat_scope.

Section Build.
Context {V : Type}.
Notation frame := (list (row V)).

(** ** sort_index *)

Lemma insert_row_perm (a : row V) l : Permutation (insert_row a l) (a :: l).
Proof.
  induction l as [|b l IH]; simpl; [reflexivity|].
  destruct (row_le a b); [reflexivity|].
  rewrite IH. apply perm_swap.
Qed.

Lemma sort_index_perm (l : frame) : Permutation (sort_index l) l.
Proof.
  induction l as [|a l IH]; simpl; [reflexivity|].
  rewrite insert_row_perm. constructor. exact IH.
Qed.

Definition rle (a b : row V) : Prop := row_le a b = true.

Lemma row_le_total a b : @row_le V a b = false -> row_le b a = true.
Proof. unfold row_le. lia. Qed.

Lemma insert_row_sorted (a : row V) l : StronglySorted rle l -> StronglySorted rle (insert_row a l).
Proof.
  induction l as [|b l IH]; intros H; simpl.
  - constructor; constructor.
  - inversion H as [|? ? Hs Hf]; subst. destruct (row_le a b) eqn:E.
    + constructor; [exact H|]. constructor; [exact E|].
      rewrite Forall_forall in *. intros c Hc. specialize (Hf c Hc).
      unfold rle, row_le in *. lia.
    + constructor; [apply IH; exact Hs|]. rewrite Forall_forall in *. intros c Hc.
      apply (Permutation_in _ (insert_row_perm a l)) in Hc. destruct Hc as [<-|Hc].
      * apply row_le_total. exact E.
      * apply Hf. exact Hc.
Qed.

Lemma sort_index_sorted (l : frame) : StronglySorted rle (sort_index l).
Proof. induction l as [|a l IH]; simpl; [constructor|]. apply insert_row_sorted. exact IH. Qed.

Lemma sorted_before (F : frame) a b : StronglySorted rle F -> Before F a b -> rle a b.
Proof.
  intros H (l & m & r & ->). induction l as [|x l IH]; simpl in H; inversion H as [|? ? Hs Hf]; subst.
  - rewrite Forall_forall in Hf. apply Hf. apply in_or_app. right; left; reflexivity.
  - apply IH. exact Hs.
Qed.

Lemma sorted_valid (F : frame) :
  StronglySorted rle F -> F <> [] -> NoDup (index F) ->
  (forall r, In r F -> 0 <= rid r)%Z -> (forall r, In r F -> 0 <= rtime r)%Z -> ValidRows F.
Proof.
  intros Hs Hne Hnd Hi Ht. constructor; auto.
  - intros l a m b r c E Hab Hc.
    apply in_split in Hc. destruct Hc as (m1 & m2 & Em).
    assert (H1 : rle a c). { apply (sorted_before F); [exact Hs|]. exists l, m1, (m2 ++ b :: r).
      rewrite E, Em, <- app_assoc. reflexivity. }
    assert (H2 : rle c b). { apply (sorted_before F); [exact Hs|]. exists (l ++ a :: m1), m2, r.
      rewrite E, Em, <- !app_assoc. reflexivity. }
    unfold rle, row_le in *. lia.
  - intros a b Hb Hab. assert (H := sorted_before F a b Hs Hb).
    destruct Hb as (l & m & r & ->). unfold index in Hnd. rewrite map_app in Hnd. simpl in Hnd.
    apply NoDup_remove_2 in Hnd.
    assert (rtime a <> rtime b).
    { intros Et. apply Hnd. rewrite map_app. apply in_or_app; right. apply in_or_app; right. left.
      congruence. }
    unfold rle, row_le in H. lia.
Qed.

(** ** from_tensor *)

(** the labelled rows of one series: times zipped with values *)
Definition tensor_rows (i : list Z) (t : list Z) (tensor : list (list V)) : frame :=
  flat_map (fun p => series_rows (fst p) (combine t (snd p))) (combine i tensor).

Lemma zip_rows_app i1 i2 t1 t2 (v1 v2 : list V) :
  length i1 = length t1 -> length i1 = length v1 ->
  zip_rows (i1 ++ i2) (t1 ++ t2) (v1 ++ v2) = zip_rows i1 t1 v1 ++ zip_rows i2 t2 v2.
Proof.
  intros H1 H2. unfold zip_rows. rewrite combine_app by exact H1.
  rewrite combine_app by (rewrite combine_length; lia). apply map_app.
Qed.

Lemma zip_rows_repeat x t (v : list V) :
  length t = length v -> zip_rows (repeat x (length v)) t v = series_rows x (combine t v).
Proof.
  revert t. induction v as [|y v IH]; intros [|s t] H; simpl in H; try lia; [reflexivity|].
  unfold zip_rows in *. simpl. rewrite IH by lia. reflexivity.
Qed.

Lemma zip_tensor n t (i : list Z) : forall tensor : list (list V),
  length i = length tensor -> length t = n -> (forall s, In s tensor -> length s = n) ->
  zip_rows (np_repeat i n) (np_tile t (length tensor)) (concat tensor) = tensor_rows i t tensor.
Proof.
  induction i as [|x i IH]; intros [|s tensor] Hl Ht Hs; simpl in Hl; try lia; [reflexivity|].
  cbn [length np_tile concat]. change (np_repeat (x :: i) n) with (repeat x n ++ np_repeat i n).
  assert (Es : length s = n) by (apply Hs; left; reflexivity).
  rewrite zip_rows_app by (rewrite repeat_length; lia).
  unfold tensor_rows. cbn [combine flat_map fst snd]. f_equal.
  - rewrite <- Es. apply zip_rows_repeat. lia.
  - apply IH; auto. intros s' Hs'. apply Hs. right; exact Hs'.
Qed.

Lemma in_combine_nth {A B} (l : list A) : forall (m : list B) x y,
  In (x, y) (combine l m) <-> exists k, nth_error l k = Some x /\ nth_error m k = Some y.
Proof.
  induction l as [|a l IH]; intros [|b m] x y; simpl.
  - split; [intros []|]. intros ([|k] & H & _); discriminate.
  - split; [intros []|]. intros ([|k] & H & _); discriminate.
  - split; [intros []|]. intros ([|k] & _ & H); discriminate.
  - rewrite IH. split.
    + intros [E|(k & H1 & H2)].
      * injection E as <- <-. exists 0; auto.
      * exists (S k); auto.
    + intros ([|k] & H1 & H2); simpl in *.
      * left. congruence.
      * right. exists k; auto.
Qed.

Lemma in_tensor_rows i t (tensor : list (list V)) r :
  In r (tensor_rows i t tensor) <->
  exists a b s, nth_error i a = Some (rid r) /\ nth_error tensor a = Some s /\
                nth_error t b = Some (rtime r) /\ nth_error s b = Some (rval r).
Proof.
  unfold tensor_rows. rewrite in_flat_map. split.
  - intros ((x & s) & Hp & Hr). apply in_combine_nth in Hp. destruct Hp as (a & Ha & Hs).
    simpl in Hr. unfold series_rows in Hr. apply in_map_iff in Hr. destruct Hr as ((tt & v) & <- & Hq).
    apply in_combine_nth in Hq. destruct Hq as (b & Hb & Hv). exists a, b, s. simpl. auto.
  - intros (a & b & s & Ha & Hs & Hb & Hv). exists (rid r, s). split.
    + apply in_combine_nth. exists a; auto.
    + simpl. unfold series_rows. apply in_map_iff. exists (rtime r, rval r). split; [apply row_eta|].
      apply in_combine_nth. exists b; auto.
Qed.

Lemma index_series_rows x (s : list (Z * V)) : index (series_rows x s) = map (fun p => (x, fst p)) s.
Proof. unfold index, series_rows. rewrite map_map. reflexivity. Qed.

Lemma tensor_index_nodup i t : forall tensor : list (list V),
  NoDup i -> NoDup t -> length i = length tensor ->
  (forall s, In s tensor -> length s = length t) -> NoDup (index (tensor_rows i t tensor)).
Proof.
  induction i as [|x i IH]; intros [|s tensor] Hi Ht Hl Hs; simpl in Hl; try lia; [constructor|].
  inversion Hi as [|? ? Hni Hi']; subst.
  unfold tensor_rows, index. cbn [combine flat_map fst snd]. rewrite map_app.
  assert (Es : length s = length t) by (apply Hs; left; reflexivity).
  change (map (fun r : row V => (rid r, rtime r)) (series_rows x (combine t s)))
    with (index (series_rows x (combine t s))). rewrite index_series_rows.
  replace (map (fun p => (x, fst p)) (combine t s)) with (map (fun y => (x, y)) t).
  2:{ rewrite <- (map_fst_combine t s) at 1 by lia. rewrite map_map. reflexivity. }
  assert (Hd : forall l (l' : list (Z * Z)), NoDup l -> NoDup l' -> (forall z, In z l -> ~ In z l') -> NoDup (l ++ l')).
  { intros l l' H1 H2 H3. induction l as [|z l IHl]; [exact H2|]. inversion H1; subst. simpl. constructor.
    - intros Hin. apply in_app_or in Hin. destruct Hin; [contradiction|]. apply (H3 z); [left; reflexivity|assumption].
    - apply IHl; auto. intros y Hy. apply H3. right; exact Hy. }
  apply Hd.
  - apply FinFun.Injective_map_NoDup; [|exact Ht]. intros p q E. congruence.
  - apply (IH tensor); auto. intros s' Hs'. apply Hs. right; exact Hs'.
  - intros z Hz Hin. apply in_map_iff in Hz. destruct Hz as (y & <- & _).
    apply in_map_iff in Hin. destruct Hin as (r & Er & Hr).
    apply (in_tensor_rows i t tensor) in Hr. destruct Hr as (a & _ & _ & Ha & _).
    apply nth_error_In in Ha. apply Hni. injection Er as <- _. exact Ha.
Qed.

Lemma tensor_rows_length i t : forall tensor : list (list V),
  length i = length tensor -> (forall s, In s tensor -> length s = length t) ->
  length (tensor_rows i t tensor) = length tensor * length t.
Proof.
  induction i as [|x i IH]; intros [|s tensor] Hl Hs; simpl in Hl; try lia; [reflexivity|].
  unfold tensor_rows. cbn [combine flat_map fst snd]. rewrite app_length.
  unfold series_rows at 1. rewrite map_length, combine_length, (Hs s) by (left; reflexivity).
  fold (tensor_rows i t tensor). rewrite IH by (try lia; intros s' Hs'; apply Hs; right; exact Hs').
  simpl. lia.
Qed.

Definition opt_ids (m : nat) (o : option (list Z)) : list Z :=
  match o with None => np_arange m | Some l => l end.

Lemma from_tensor_spec (tensor : list (list V)) n oi ot :
  let i := opt_ids (length tensor) oi in
  let t := opt_ids n ot in
  tensor <> [] -> 1 <= n -> (forall s, In s tensor -> length s = n) ->
  length i = length tensor -> NoDup i -> (forall x, In x i -> 0 <= x)%Z ->
  length t = n -> NoDup t -> (forall x, In x t -> 0 <= x)%Z ->
  exists F, from_tensor tensor n oi ot = Ok F /\ ValidRows F /\ IdsSorted F /\
    length F = length tensor * n /\
    forall r, In r F <->
      exists a b s, nth_error i a = Some (rid r) /\ nth_error tensor a = Some s /\
                    nth_error t b = Some (rtime r) /\ nth_error s b = Some (rval r).
Proof.
  intros i t Hne Hn Hs Hli Hndi Hi Hlt Hndt Ht.
  exists (sort_index (tensor_rows i t tensor)).
  set (R := tensor_rows i t tensor).
  assert (HP := sort_index_perm R).
  assert (Hin : forall r, In r (sort_index R) <-> In r R).
  { intros r. split; apply Permutation_in; [|symmetry]; exact HP. }
  assert (HlenR : length R = length tensor * n).
  { unfold R. rewrite tensor_rows_length; [lia|lia|]. intros s Hs'. rewrite Hs by exact Hs'. lia. }
  assert (HndR : NoDup (index R)).
  { apply tensor_index_nodup; auto. intros s Hs'. rewrite Hs by exact Hs'. lia. }
  assert (HV : ValidRows (sort_index R)).
  { apply sorted_valid.
    - apply sort_index_sorted.
    - intros E. assert (El := Permutation_length HP). rewrite E, HlenR in El. simpl in El.
      destruct tensor; [congruence|]. simpl in El. lia.
    - apply (Permutation_NoDup (l := index R)); [|exact HndR]. apply Permutation_map. symmetry. exact HP.
    - intros r Hr. apply Hin, in_tensor_rows in Hr. destruct Hr as (a & _ & _ & Ha & _).
      apply nth_error_In in Ha. apply Hi. exact Ha.
    - intros r Hr. apply Hin, in_tensor_rows in Hr. destruct Hr as (_ & b & _ & _ & _ & Hb & _).
      apply nth_error_In in Hb. apply Ht. exact Hb. }
  split; [|split; [exact HV|split; [|split]]].
  - unfold from_tensor.
    assert (E1 : (match oi with
         | None => Ok (np_arange (length tensor))
         | Some l => if negb (length l =? length tensor) then Err ValueError
                     else if negb (length (np_unique l) =? length l) then Err ValueError
                     else Ok l end) = Ok i).
    { unfold i, opt_ids in *. destruct oi as [l|]; [|reflexivity].
      rewrite Hli, Nat.eqb_refl. cbn [negb].
      rewrite (proj2 (np_unique_length_NoDup l) Hndi). rewrite Hli, Nat.eqb_refl. reflexivity. }
    rewrite E1.
    assert (E2 : (match ot with
             | None => Ok (np_arange n)
             | Some t => if negb (length t =? n) then Err ValueError else Ok t
             end) = Ok t).
    { unfold t, opt_ids in *. destruct ot as [l|]; [|reflexivity].
      rewrite Hlt, Nat.eqb_refl. reflexivity. }
    rewrite E2. rewrite zip_tensor by (auto; lia). apply tsc_ok. split; [exact HV|reflexivity].
  - intros a b Hb. assert (H := sorted_before _ a b (sort_index_sorted R) Hb).
    unfold rle, row_le in H. lia.
  - rewrite (Permutation_length HP). exact HlenR.
  - intros r. rewrite Hin. apply in_tensor_rows.
Qed.

Lemma from_tensor_dup_ids (tensor : list (list V)) n l ot :
  length l = length tensor -> ~ NoDup l -> from_tensor tensor n (Some l) ot = Err ValueError.
Proof.
  intros Hl Hnd. unfold from_tensor. rewrite Hl, Nat.eqb_refl. cbn [negb].
  destruct (length (np_unique l) =? length l) eqn:E.
  - exfalso. apply Hnd, np_unique_length_NoDup. lia.
  - rewrite <- Hl, E. reflexivity.
Qed.

(** ** assign_ids_train_test *)

Lemma nat_mem_in x l : nat_mem x l = true <-> In x l.
Proof. apply existsb_eqb_in. Qed.

Lemma nat_mem_notin x l : nat_mem x l = false <-> ~ In x l.
Proof. apply existsb_eqb_notin. Qed.

(** picking a strictly increasing list of positions gives the entries there *)
Lemma strictly_inc_cons x l : strictly_inc (x :: l) = true ->
  strictly_inc l = true /\ forall y, In y l -> x < y.
Proof.
  revert x. induction l as [|z l IH]; intros x H; [split; [reflexivity|intros y []]|].
  change ((x <? z) && strictly_inc (z :: l) = true) in H. apply andb_prop in H. destruct H as [H1 H2].
  split; [exact H2|]. intros y [<-|Hy]; [lia|].
  destruct (IH z H2) as [_ H]. specialize (H y Hy). lia.
Qed.

Lemma pick_from_positions {A} (l : list A) : forall s pos,
  strictly_inc pos = true -> (forall p, In p pos -> s <= p < s + length l) ->
  map Some (pick_from (fun i => nat_mem i pos) s l) = map (fun p => nth_error l (p - s)) pos.
Proof.
  induction l as [|x l IH]; intros s pos Hi Hb.
  - destruct pos as [|p pos]; [reflexivity|]. specialize (Hb p (or_introl eq_refl)). simpl in Hb. lia.
  - rewrite pick_from_cons. destruct pos as [|p pos].
    { simpl. rewrite pick_from_ext with (Q := fun i => nat_mem i []) by reflexivity.
      rewrite IH; [reflexivity|reflexivity|intros p []]. }
    destruct (strictly_inc_cons p pos Hi) as [Hi' Hlt].
    destruct (Nat.eq_dec p s) as [->|Hne].
    + replace (nat_mem s (s :: pos)) with true by (symmetry; apply nat_mem_in; left; reflexivity).
      cbn [app map]. rewrite Nat.sub_diag. f_equal.
      rewrite pick_from_ext with (Q := fun i => nat_mem i pos).
      * rewrite IH; auto.
        -- apply map_ext_in. intros q Hq. specialize (Hlt q Hq).
           replace (q - s) with (S (q - S s)) by lia. reflexivity.
        -- intros q Hq. specialize (Hlt q Hq). specialize (Hb q (or_intror Hq)). simpl in Hb. lia.
      * intros i Hi2. unfold nat_mem. cbn [existsb]. replace (i =? s) with false by lia. reflexivity.
    + assert (Hp := Hb p (or_introl eq_refl)).
      replace (nat_mem s (p :: pos)) with false.
      2:{ symmetry. apply nat_mem_notin. intros [E|Hin]; [lia|]. specialize (Hlt s Hin). lia. }
      cbn [app]. rewrite IH; auto.
      * apply map_ext_in. intros q Hq.
        assert (s < q). { destruct Hq as [<-|Hq]; [lia|]. specialize (Hlt q Hq). lia. }
        replace (q - s) with (S (q - S s)) by lia. reflexivity.
      * intros q Hq. specialize (Hb q Hq). simpl in Hb.
        assert (s < q). { destruct Hq as [<-|Hq]; [lia|]. specialize (Hlt q Hq). lia. } lia.
Qed.

(** cumulated 0/1 masks *)
Definition b2n (b : bool) : nat := if b then 1 else 0.

Lemma cumsum_nth (m : list bool) : forall acc k, k < length m ->
  nth k (cumsum_from acc (map b2n m)) 0 = acc + list_sum (map b2n (firstn (S k) m)).
Proof.
  induction m as [|b m IH]; intros acc k Hk; simpl in Hk; [lia|].
  destruct k as [|k].
  - cbn [map cumsum_from nth firstn]. rewrite list_sum_cons. simpl. lia.
  - cbn [map cumsum_from nth]. rewrite IH by lia. cbn [firstn map]. rewrite list_sum_cons. simpl. lia.
Qed.

Definition psum (m : list bool) (k : nat) : nat := list_sum (map b2n (firstn k m)).

Lemma psum_step (m : list bool) k : psum m (S k) = psum m k + b2n (nth k m false).
Proof.
  unfold psum. revert k. induction m as [|b m IH]; intros k.
  - rewrite !firstn_nil. destruct k; reflexivity.
  - destruct k as [|k].
    + cbn [firstn map nth]. rewrite list_sum_cons. simpl. lia.
    + cbn [firstn map nth]. cbn [firstn] in IH. rewrite !list_sum_cons. rewrite IH. lia.
Qed.

Lemma psum_mono (m : list bool) p q : p <= q -> psum m p <= psum m q.
Proof. intros H. induction H as [|q H IH]; [lia|]. rewrite psum_step. lia. Qed.

Lemma psum_eq (m : list bool) p q : p <= q ->
  (psum m (S p) = psum m (S q) <-> forall k, p < k <= q -> nth k m false = false).
Proof.
  intros H. induction H as [|q H IH].
  - split; [intros _ k Hk; lia|reflexivity].
  - assert (Hm := psum_mono m (S p) (S q) ltac:(lia)). rewrite (psum_step m (S q)). split.
    + intros E. destruct (nth (S q) m false) eqn:Eq; simpl in E; [lia|].
      assert (E' : psum m (S p) = psum m (S q)) by lia. rewrite IH in E'.
      intros k Hk. destruct (Nat.eq_dec k (S q)) as [->|]; [exact Eq|]. apply E'. lia.
    + intros Hk. rewrite (Hk (S q)) by lia. simpl. rewrite Nat.add_0_r. apply IH.
      intros k Hk'. apply Hk. lia.
Qed.

Lemma nth_map_seq {A} (f : nat -> A) n k d : k < n -> nth k (map f (seq 0 n)) d = f k.
Proof.
  intros H. rewrite (nth_indep _ d (f 0)) by (rewrite map_length, seq_length; exact H).
  rewrite map_nth, seq_nth by exact H. reflexivity.
Qed.

Lemma nth_map_d {A B} (f : A -> B) l k d d' : f d = d' -> nth k (map f l) d' = f (nth k l d).
Proof. intros <-. apply map_nth. Qed.

Lemma nth_combine {A B} (l : list A) (m : list B) k a b :
  length l = length m -> nth k (combine l m) (a, b) = (nth k l a, nth k m b).
Proof. apply combine_nth. Qed.

Lemma bool_diff_length l : length (bool_diff l) = length l - 1.
Proof. unfold bool_diff. rewrite map_length, combine_length. destruct l; cbn [tl length]; lia. Qed.

Lemma bool_diff_nth l : forall k, S k < length l ->
  nth k (bool_diff l) false = xorb (nth k l false) (nth (S k) l false).
Proof.
  induction l as [|a [|b l] IH]; intros k Hk; simpl in Hk; try lia.
  destruct k as [|k]; [reflexivity|].
  change (bool_diff (a :: b :: l)) with (xorb a b :: bool_diff (b :: l)).
  cbn [nth]. rewrite IH by (simpl; lia). reflexivity.
Qed.

Definition tt_mask (F : frame) (train test : list nat) (k : nat) : bool :=
  xorb (nat_mem (k - 1) test) (nat_mem k test)
  || negb (nth k (ids_index F) 0 =? nth (k - 1) (ids_index F) 0)%Z
  || (negb (nat_mem k train) && negb (nat_mem k test)).

Definition mask_list (F : frame) (train test : list nat) : list bool :=
  let n := length F in
  let mask_test := map (fun i => nat_mem i test) (seq 0 n) in
  let change_fold := false :: bool_diff mask_test in
  let change_id := false :: map (fun d => negb (d =? 0)%Z) (np_diff (ids_index F)) in
  let dropped := map (fun i => negb (nat_mem i train) && negb (nat_mem i test)) (seq 0 n) in
  map (fun p => (fst (fst p) || snd (fst p)) || snd p) (combine (combine change_fold change_id) dropped).

Lemma new_ids_mask (F : frame) train test :
  train_test_new_ids F train test = np_cumsum (map b2n (mask_list F train test)).
Proof. reflexivity. Qed.

Lemma mask_list_length (F : frame) train test : length (mask_list F train test) = length F.
Proof.
  unfold mask_list. rewrite map_length, !combine_length. cbn [length].
  rewrite bool_diff_length, !map_length, np_diff_length, seq_length.
  unfold ids_index. rewrite map_length. lia.
Qed.

Lemma mask_list_nth (F : frame) train test k :
  1 <= k < length F -> nth k (mask_list F train test) false = tt_mask F train test k.
Proof.
  intros Hk. unfold mask_list.
  set (A := false :: bool_diff (map (fun i => nat_mem i test) (seq 0 (length F)))).
  set (B := false :: map (fun d => negb (d =? 0)%Z) (np_diff (ids_index F))).
  set (C := map (fun i => negb (nat_mem i train) && negb (nat_mem i test)) (seq 0 (length F))).
  assert (LA : length A = length F).
  { unfold A. cbn [length]. rewrite bool_diff_length, map_length, seq_length. lia. }
  assert (LB : length B = length F).
  { unfold B. cbn [length]. rewrite map_length, np_diff_length. unfold ids_index. rewrite map_length. lia. }
  assert (LC : length C = length F) by (unfold C; rewrite map_length, seq_length; reflexivity).
  set (f := fun p : bool * bool * bool => (fst (fst p) || snd (fst p)) || snd p).
  rewrite (nth_map_d f _ k (false, false, false) false eq_refl). unfold f. rewrite !combine_nth by (rewrite ?combine_length; lia). cbn [fst snd].
  unfold tt_mask. destruct k as [|k]; [lia|]. replace (S k - 1) with k by lia.
  unfold A, B, C. cbn [nth].
  rewrite bool_diff_nth by (rewrite map_length, seq_length; lia).
  rewrite !nth_map_seq by lia. f_equal. f_equal.
  rewrite (nth_map_d (fun d => negb (d =? 0)%Z) _ k 0%Z false eq_refl). f_equal.
  rewrite np_diff_nth by (unfold ids_index; rewrite map_length; lia).
  destruct (nth (S k) (ids_index F) 0 =? nth k (ids_index F) 0)%Z eqn:E; lia.
Qed.

Definition idat (F : frame) (k : nat) : Z := nth k (ids_index F) 0%Z.

Lemma new_ids_eq (F : frame) train test p q :
  (forall x, In x train -> ~ In x test) ->
  p <= q -> q < length F -> (In p train \/ In p test) ->
  nth p (train_test_new_ids F train test) 0 = nth q (train_test_new_ids F train test) 0 <->
  forall k, p <= k <= q ->
    (In k train \/ In k test) /\ (In k train <-> In p train) /\ idat F k = idat F p.
Proof.
  intros Hd Hpq Hq Hp. rewrite new_ids_mask. unfold np_cumsum.
  rewrite !cumsum_nth by (rewrite mask_list_length; lia). cbn [Nat.add].
  fold (psum (mask_list F train test) (S p)). fold (psum (mask_list F train test) (S q)).
  rewrite (psum_eq _ p q Hpq).
  assert (Hmem : forall k, (nat_mem k train = true <-> In k train) /\ (nat_mem k test = true <-> In k test))
    by (intros k; split; apply nat_mem_in).
  split.
  - intros H k Hk.
    assert (Hgo : forall j, p + j <= q -> (In (p + j) train \/ In (p + j) test) /\
        (In (p + j) train <-> In p train) /\ idat F (p + j) = idat F p).
    { induction j as [|j IH]; intros Hj.
      - rewrite Nat.add_0_r. tauto.
      - destruct IH as (I1 & I2 & I3); [lia|].
        assert (Hm := H (p + S j) ltac:(lia)). rewrite mask_list_nth in Hm by lia.
        unfold tt_mask in Hm. replace (p + S j - 1) with (p + j) in Hm by lia.
        apply orb_false_elim in Hm. destruct Hm as [Hm Hm3]. apply orb_false_elim in Hm.
        destruct Hm as [Hm1 Hm2]. apply negb_false_iff, Z.eqb_eq in Hm2.
        destruct (Hmem (p + j)) as [M1 M2]. destruct (Hmem (p + S j)) as [M3 M4].
        assert (Hsel : In (p + S j) train \/ In (p + S j) test).
        { destruct (nat_mem (p + S j) train) eqn:E1; [left; tauto|].
          destruct (nat_mem (p + S j) test) eqn:E2; [right; tauto|]. discriminate. }
        split; [exact Hsel|]. split.
        + assert (Hsame : In (p + j) test <-> In (p + S j) test).
          { destruct (nat_mem (p + j) test), (nat_mem (p + S j) test); simpl in Hm1;
              try discriminate; intuition congruence. }
          specialize (Hd (p + j)) as Hd1. specialize (Hd (p + S j)) as Hd2. tauto.
        + unfold idat in *. congruence. }
    specialize (Hgo (k - p) ltac:(lia)). replace (p + (k - p)) with k in Hgo by lia. exact Hgo.
  - intros H k Hk. rewrite mask_list_nth by lia. unfold tt_mask.
    destruct (H k ltac:(lia)) as (A1 & A2 & A3). destruct (H (k - 1) ltac:(lia)) as (B1 & B2 & B3).
    destruct (Hmem (k - 1)) as [M1 M2]. destruct (Hmem k) as [M3 M4].
    specialize (Hd (k - 1)) as Hd1. specialize (Hd k) as Hd2.
    unfold idat in *. rewrite A3, B3, Z.eqb_refl. cbn [negb]. rewrite orb_false_r.
    destruct (nat_mem (k - 1) test) eqn:E1, (nat_mem k test) eqn:E2, (nat_mem k train) eqn:E3; simpl; auto;
      exfalso; intuition congruence.
Qed.

Lemma zip_rows_nth i t (v : list V) k r :
  nth_error (zip_rows i t v) k = Some r <->
  nth_error i k = Some (rid r) /\ nth_error t k = Some (rtime r) /\ nth_error v k = Some (rval r).
Proof.
  unfold zip_rows. revert t v k. induction i as [|x i IH]; intros [|y t] [|z v] [|k]; simpl;
    try (split; [discriminate|intros (?&?&?); discriminate]).
  - split.
    + intros E. injection E as <-. auto.
    + intros (E1 & E2 & E3). injection E1 as ->. injection E2 as ->. injection E3 as ->.
      rewrite row_eta. reflexivity.
  - apply IH.
Qed.

Lemma map_some_forall2 {A B} (P : A -> B -> Prop) pos (G : list B) (f : A -> option B) :
  map Some G = map f pos -> (forall p g, In p pos -> f p = Some g -> P p g) -> Forall2 P pos G.
Proof.
  revert G. induction pos as [|p pos IH]; intros [|g G] E H; simpl in E; try discriminate; constructor.
  - injection E as E _. apply H; [left; reflexivity|congruence].
  - injection E as _ E. apply IH; [exact E|]. intros q h Hq. apply H. right; exact Hq.
Qed.

Lemma train_test_spec (F : frame) train test Tr Te :
  assign_ids_train_test F train test = Ok (Tr, Te) ->
  exists new : nat -> Z,
    Relabelled F new train Tr /\ Relabelled F new test Te /\
    forall p q, p <= q -> In p (train ++ test) -> In q (train ++ test) ->
      (new p = new q <->
       forall k, p <= k <= q ->
         In k (train ++ test) /\ (In k train <-> In p train) /\
         option_map rid (nth_error F k) = option_map rid (nth_error F p)).
Proof.
  unfold assign_ids_train_test.
  destruct (negb (strictly_inc train && strictly_inc test)) eqn:E1; [discriminate|].
  destruct (existsb (fun i => nat_mem i test) train) eqn:E2; [discriminate|].
  destruct (existsb (fun i => length F <=? i) (train ++ test)) eqn:E3; [discriminate|].
  intros E. injection E as <- <-.
  apply negb_false_iff, andb_prop in E1. destruct E1 as [I1 I2].
  assert (Hd : forall x, In x train -> ~ In x test).
  { intros x Hx. rewrite existsb_false_forall in E2. apply nat_mem_notin. apply E2. exact Hx. }
  assert (Hr : forall x, In x (train ++ test) -> x < length F).
  { intros x Hx. rewrite existsb_false_forall in E3. specialize (E3 x Hx). lia. }
  set (new := fun k => Z.of_nat (nth k (train_test_new_ids F train test) 0)).
  assert (Hlen : length (train_test_new_ids F train test) = length F).
  { rewrite new_ids_mask. unfold np_cumsum. rewrite cumsum_from_length, map_length. apply mask_list_length. }
  assert (Hpick : forall pos, strictly_inc pos = true -> (forall p, In p pos -> p < length F) ->
    Relabelled F new pos
      (pick (fun i => nat_mem i pos)
            (zip_rows (map Z.of_nat (train_test_new_ids F train test)) (time_index F) (to_numpy F)))).
  { intros pos Hi Hp. rewrite pick_is_pick_from.
    assert (Hz : length (zip_rows (map Z.of_nat (train_test_new_ids F train test)) (time_index F) (to_numpy F)) = length F).
    { unfold zip_rows, time_index, to_numpy. rewrite map_length, !combine_length, !map_length. lia. }
    eapply map_some_forall2.
    - apply pick_from_positions; [exact Hi|]. intros p Hpp. rewrite Hz. specialize (Hp p Hpp). lia.
    - intros p g Hpp Eg. cbv beta in Eg. rewrite Nat.sub_0_r in Eg. apply zip_rows_nth in Eg.
      destruct Eg as (G1 & G2 & G3).
      destruct (nth_error F p) as [r|] eqn:Er.
      2:{ apply nth_error_None in Er. specialize (Hp p Hpp). lia. }
      exists r. split; [reflexivity|].
      unfold time_index in G2. rewrite nth_error_map, Er in G2. simpl in G2. injection G2 as G2.
      unfold to_numpy in G3. rewrite nth_error_map, Er in G3. simpl in G3. injection G3 as G3.
      rewrite nth_error_map in G1.
      destruct (nth_error (train_test_new_ids F train test) p) as [z|] eqn:Ez; [|discriminate].
      simpl in G1. injection G1 as G1. apply nth_error_nth with (d := 0) in Ez.
      rewrite <- (row_eta g). unfold new. rewrite Ez, G1, <- G2, <- G3. reflexivity. }
  exists new. split; [|split].
  - apply Hpick; [exact I1|]. intros p Hp. apply Hr. apply in_or_app; left; exact Hp.
  - apply Hpick; [exact I2|]. intros p Hp. apply Hr. apply in_or_app; right; exact Hp.
  - intros p q Hpq Hp Hq. apply in_app_or in Hp as Hp'.
    assert (HqF := Hr q Hq).
    assert (H := new_ids_eq F train test p q Hd Hpq HqF Hp').
    assert (Hid : forall k, k < length F -> option_map rid (nth_error F k) = Some (idat F k)).
    { intros k Hk. unfold idat, ids_index. rewrite <- nth_error_map.
      apply nth_error_nth'. rewrite map_length. exact Hk. }
    unfold new. transitivity (nth p (train_test_new_ids F train test) 0 = nth q (train_test_new_ids F train test) 0); [lia|].
    rewrite H. split; intros Hk k Hkk; specialize (Hk k Hkk).
    + rewrite !Hid by lia. rewrite in_app_iff. intuition congruence.
    + rewrite !Hid in Hk by lia. rewrite in_app_iff in Hk. intuition congruence.
Qed.

Lemma train_test_total (F : frame) train test :
  strictly_inc train = true -> strictly_inc test = true ->
  (forall x, In x train -> ~ In x test) -> (forall x, In x (train ++ test) -> x < length F) ->
  exists Tr Te, assign_ids_train_test F train test = Ok (Tr, Te).
Proof.
  intros I1 I2 Hd Hr. unfold assign_ids_train_test. rewrite I1, I2. cbn [andb negb].
  replace (existsb (fun i => nat_mem i test) train) with false.
  2:{ symmetry. apply existsb_false_forall. intros x Hx. apply nat_mem_notin. apply Hd. exact Hx. }
  replace (existsb (fun i => length F <=? i) (train ++ test)) with false.
  2:{ symmetry. apply existsb_false_forall. intros x Hx. specialize (Hr x Hx). lia. }
  eauto.
Qed.

End Build.
