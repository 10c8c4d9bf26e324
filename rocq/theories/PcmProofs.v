(** * Lemmas for the attributes of PCManifold objects. *)

From Coq Require Import List ZArith Bool Lia PeanoNat.
From Verif Require Import Np PcmModel PcmSpec.
Import ListNotations.
Local Open Scope nat_scope.

Lemma update_length {A} (l : list A) i a : length (update l i a) = length l.
Proof. revert i; induction l as [|b l IH]; destruct i; simpl; auto. Qed.

Lemma update_nth {A} (l : list A) i a j d : i < length l ->
  nth j (update l i a) d = if j =? i then a else nth j l d.
Proof.
  revert i j; induction l as [|b l IH]; intros [|i] [|j] H; simpl in *; try lia; auto.
  apply IH; lia.
Qed.

Lemma nth_snoc {A} (l : list A) a j d : nth j (l ++ [a]) d = if j =? length l then a else nth j l d.
Proof.
  destruct (Nat.eqb_spec j (length l)) as [->|N].
  - rewrite app_nth2, Nat.sub_diag by lia. reflexivity.
  - destruct (Nat.lt_ge_cases j (length l)); [now rewrite app_nth1|].
    rewrite app_nth2, !nth_overflow; auto; simpl; lia.
Qed.

Definition obj s p := nth p (objs s) (Pcm 0 0).
Definition dic s p := nth (dist_kwargs (obj s p)) (dicts s) empty_dict.

Record Inv (s : heap) (rh : list op) : Prop := {
  inv_objs : length (objs s) = n_objs rh;
  inv_kernels : length (kernels s) = n_kernels rh;
  inv_dk : forall p, p < n_objs rh -> dist_kwargs (obj s p) < length (dicts s);
  inv_kernel : forall p, p < n_objs rh -> kernel (obj s p) = kernel_of rh p /\ kernel_of rh p < n_kernels rh;
  inv_cut : forall p, p < n_objs rh -> d_cut_off (dic s p) = Some (expected_cut_off rh p);
  inv_owner : forall p q, p < n_objs rh -> q < n_objs rh ->
    (dist_kwargs (obj s p) = dist_kwargs (obj s q) <-> owner rh p = owner rh q);
  inv_owner_le : forall p, p < n_objs rh -> owner rh p <= p;
  inv_owner_id : forall p, n_objs rh <= p -> owner rh p = p;
  inv_eps : forall k, k < n_kernels rh -> nth k (kernels s) NaN = expected_epsilon rh k }.

Lemma inv_init : Inv empty_heap [].
Proof. constructor; simpl; intros; try lia. Qed.

Lemma lookup s rh p : Inv s rh ->
  nth_error (objs s) p = if p <? n_objs rh then Some (obj s p) else None.
Proof.
  intro I. rewrite <- (inv_objs s rh I). destruct (Nat.ltb_spec p (length (objs s))) as [H|H].
  - unfold obj. now apply nth_error_nth'.
  - now apply nth_error_None.
Qed.

(** Appending an object. *)
Ltac split_last :=
  match goal with
  | |- context [?p =? ?n] => destruct (Nat.eqb_spec p n); subst
  end.

Lemma inv_newkernel s rh e : Inv s rh -> Inv (fst (step s (NewKernel e))) (NewKernel e :: rh).
Proof.
  intros [I1 I2 I3 I4 I5 I6 I7 I8 I9]. constructor; simpl; unfold dic, obj in *; simpl; auto.
  - rewrite app_length. simpl. lia.
  - intros p Hp. destruct (I4 p Hp). split; auto.
  - intros k Hk. rewrite nth_snoc, I2. destruct (Nat.eqb_spec k (n_kernels rh)); auto. apply I9. lia.
Qed.

Lemma inv_new s rh ok k kw : Inv s rh -> Inv (fst (step s (New ok k kw))) (New ok k kw :: rh).
Proof.
  intros I. assert (I0 := I). destruct I as [I1 I2 I3 I4 I5 I6 I7 I8 I9]. simpl. unfold do_new.
  assert (Same : forall h, n_objs (New ok k kw :: rh) = n_objs rh -> n_kernels (New ok k kw :: rh) = n_kernels rh ->
    (forall p, p < n_objs rh -> kernel_of (New ok k kw :: rh) p = kernel_of rh p) ->
    (forall k', k' < n_kernels rh -> expected_epsilon (New ok k kw :: rh) k' = expected_epsilon rh k') ->
    h = s -> Inv h (New ok k kw :: rh)).
  { intros h E1 E2 E3 E4 ->. constructor; rewrite ?E1, ?E2; auto.
    - intros p Hp. rewrite E3 by auto. auto.
    - intros p Hp. rewrite I5 by auto. cbn. destruct (Nat.eqb_spec p (n_objs rh)); auto; lia.
    - intros k' Hk. rewrite E4 by auto. auto. }
  destruct ok; simpl; [|apply Same; auto].
  destruct k as [ka|].
  - rewrite I2. destruct (Nat.ltb_spec ka (n_kernels rh)) as [Hk|Hk]; simpl.
    + constructor; cbn -[Nat.eqb Nat.ltb]; replace (ka <? n_kernels rh) with true by (symmetry; apply Nat.ltb_lt; lia); simpl andb;
        unfold dic, obj in *; cbn -[Nat.eqb Nat.ltb]; auto.
      * rewrite app_length. simpl. lia.
      * intros p Hp. rewrite app_length, nth_snoc, I1. split_last; cbn; [lia|]. assert (H := I3 p). lia.
      * intros p Hp. rewrite nth_snoc, I1. split_last; cbn; auto. apply I4. lia.
      * intros p Hp. rewrite !nth_snoc, I1. destruct (Nat.eqb_spec p (n_objs rh)); subst; cbn -[Nat.eqb].
        { now rewrite Nat.eqb_refl. }
        { assert (Hp' : p < n_objs rh) by lia.
          destruct (Nat.eqb_spec (dist_kwargs (nth p (objs s) (Pcm 0 0))) (length (dicts s))) as [E|E]; auto.
          specialize (I3 p Hp'). lia. }
      * intros p q Hp Hq. rewrite !nth_snoc, I1.
        destruct (Nat.eqb_spec p (n_objs rh)), (Nat.eqb_spec q (n_objs rh)); subst; cbn.
        { tauto. }
        { rewrite (I8 (n_objs rh)) by lia. assert (q < n_objs rh) by lia. specialize (I3 q H). specialize (I7 q H). lia. }
        { rewrite (I8 (n_objs rh)) by lia. assert (p < n_objs rh) by lia. specialize (I3 p H). specialize (I7 p H). lia. }
        { apply I6; lia. }
      * intros p Hp. destruct (Nat.eq_dec p (n_objs rh)) as [->|N]; [rewrite I8; lia|apply I7; lia].
      * intros p Hp. apply I8. lia.
    + apply Same; cbn -[Nat.ltb]; replace (ka <? n_kernels rh) with false by (symmetry; apply Nat.ltb_ge; lia); auto.
  - simpl. constructor; cbn -[Nat.eqb Nat.ltb]; unfold dic, obj in *; cbn -[Nat.eqb Nat.ltb]; auto.
    * rewrite app_length. simpl. lia.
    * rewrite app_length. simpl. lia.
    * intros p Hp. rewrite app_length, nth_snoc, I1. split_last; cbn; [lia|]. assert (H := I3 p). lia.
    * intros p Hp. rewrite nth_snoc, I1. split_last; cbn; auto.
      destruct (I4 p) as [H1 H2]; [lia|]. split; auto.
    * intros p Hp. rewrite !nth_snoc, I1. destruct (Nat.eqb_spec p (n_objs rh)); subst; cbn -[Nat.eqb].
      { now rewrite Nat.eqb_refl. }
      { assert (Hp' : p < n_objs rh) by lia.
        destruct (Nat.eqb_spec (dist_kwargs (nth p (objs s) (Pcm 0 0))) (length (dicts s))) as [E|E]; auto.
        specialize (I3 p Hp'). lia. }
    * intros p q Hp Hq. rewrite !nth_snoc, I1.
      destruct (Nat.eqb_spec p (n_objs rh)), (Nat.eqb_spec q (n_objs rh)); subst; cbn.
      { tauto. }
      { rewrite (I8 (n_objs rh)) by lia. assert (q < n_objs rh) by lia. specialize (I3 q H). specialize (I7 q H). lia. }
      { rewrite (I8 (n_objs rh)) by lia. assert (p < n_objs rh) by lia. specialize (I3 p H). specialize (I7 p H). lia. }
      { apply I6; lia. }
    * intros p Hp. destruct (Nat.eq_dec p (n_objs rh)) as [->|N]; [rewrite I8; lia|apply I7; lia].
    * intros p Hp. apply I8. lia.
    * intros k Hk. rewrite nth_snoc, I2. split_last; auto. apply I9. lia.
Qed.

Lemma set_defaults_cut d v : d_cut_off d = Some v -> d_cut_off (set_defaults d) = Some v.
Proof. unfold set_defaults. simpl. now intros ->. Qed.

Lemma inv_view s rh q : Inv s rh -> Inv (fst (step s (View q))) (View q :: rh).
Proof.
  intros I. assert (I0 := I). destruct I as [I1 I2 I3 I4 I5 I6 I7 I8 I9]. simpl. unfold do_view.
  rewrite (lookup s rh q I0).
  destruct (Nat.ltb_spec q (n_objs rh)) as [Hq|Hq].
  - constructor; cbn -[Nat.eqb Nat.ltb]; replace (q <? n_objs rh) with true by (symmetry; apply Nat.ltb_lt; lia);
      unfold dic in *; unfold obj in *; cbn -[Nat.eqb Nat.ltb]; auto.
    + rewrite app_length. simpl. lia.
    + intros p Hp. rewrite update_length, nth_snoc, I1. split_last; [now apply I3|apply I3; lia].
    + intros p Hp. rewrite nth_snoc, I1. split_last; apply I4; lia.
    + intros p Hp. rewrite nth_snoc, I1. rewrite update_nth by (apply I3; lia).
      assert (U : forall r, r < n_objs rh ->
        d_cut_off (if dist_kwargs (nth r (objs s) (Pcm 0 0)) =? dist_kwargs (nth q (objs s) (Pcm 0 0))
         then set_defaults (nth (dist_kwargs (nth q (objs s) (Pcm 0 0))) (dicts s) empty_dict)
         else nth (dist_kwargs (nth r (objs s) (Pcm 0 0))) (dicts s) empty_dict) = Some (expected_cut_off rh r)).
      { intros r Hr. destruct (Nat.eqb_spec (dist_kwargs (nth r (objs s) (Pcm 0 0))) (dist_kwargs (nth q (objs s) (Pcm 0 0)))) as [E|E].
        - apply set_defaults_cut. rewrite <- E. now apply I5.
        - now apply I5. }
      destruct (Nat.eqb_spec p (n_objs rh)); subst; apply U; lia.
    + intros p r Hp Hr. rewrite !nth_snoc, I1.
      destruct (Nat.eqb_spec p (n_objs rh)), (Nat.eqb_spec r (n_objs rh)); subst; cbn; try tauto; apply I6; lia.
    + intros p Hp. destruct (Nat.eqb_spec p (n_objs rh)) as [E|E]; cbn.
      * specialize (I7 q Hq). lia.
      * apply I7. lia.
    + intros p Hp. destruct (Nat.eqb_spec p (n_objs rh)) as [E|E]; cbn; [lia|]. apply I8. lia.
  - cbn. constructor; cbn -[Nat.eqb Nat.ltb]; replace (q <? n_objs rh) with false by (symmetry; apply Nat.ltb_ge; lia); auto.
Qed.

Lemma inv_pickle s rh q : Inv s rh -> Inv (fst (step s (Pickle q))) (Pickle q :: rh).
Proof.
  intros I. assert (I0 := I). destruct I as [I1 I2 I3 I4 I5 I6 I7 I8 I9]. simpl. unfold do_pickle.
  rewrite (lookup s rh q I0).
  destruct (Nat.ltb_spec q (n_objs rh)) as [Hq|Hq].
  - constructor; cbn -[Nat.eqb Nat.ltb]; replace (q <? n_objs rh) with true by (symmetry; apply Nat.ltb_lt; lia);
      unfold dic in *; unfold obj in *; cbn -[Nat.eqb Nat.ltb]; auto.
    + rewrite app_length. simpl. lia.
    + rewrite app_length. simpl. lia.
    + intros p Hp. rewrite app_length, nth_snoc, I1. split_last; cbn; [lia|]. assert (H := I3 p). lia.
    + intros p Hp. rewrite nth_snoc, I1. split_last; cbn; auto.
      destruct (I4 p) as [H1 H2]; [lia|]. split; auto.
    + intros p Hp. rewrite !nth_snoc, I1. destruct (Nat.eqb_spec p (n_objs rh)); subst; cbn -[Nat.eqb].
      { rewrite Nat.eqb_refl. now apply I5. }
      { assert (Hp' : p < n_objs rh) by lia.
        destruct (Nat.eqb_spec (dist_kwargs (nth p (objs s) (Pcm 0 0))) (length (dicts s))) as [E|E]; auto.
        specialize (I3 p Hp'). lia. }
    + intros p r Hp Hr. rewrite !nth_snoc, I1.
      destruct (Nat.eqb_spec p (n_objs rh)), (Nat.eqb_spec r (n_objs rh)); subst; cbn.
      { tauto. }
      { rewrite (I8 (n_objs rh)) by lia. assert (r < n_objs rh) by lia. specialize (I3 r H). specialize (I7 r H). lia. }
      { rewrite (I8 (n_objs rh)) by lia. assert (p < n_objs rh) by lia. specialize (I3 p H). specialize (I7 p H). lia. }
      { apply I6; lia. }
    + intros p Hp. destruct (Nat.eq_dec p (n_objs rh)) as [->|N]; [rewrite I8; lia|apply I7; lia].
    + intros p Hp. apply I8. lia.
    + intros k Hk. rewrite nth_snoc, I2. destruct (Nat.eqb_spec k (n_kernels rh)); cbn; [|apply I9; lia].
      destruct (I4 q Hq) as [-> H2]. now apply I9.
  - cbn. constructor; cbn -[Nat.eqb Nat.ltb]; replace (q <? n_objs rh) with false by (symmetry; apply Nat.ltb_ge; lia); auto.
Qed.

(** Setting values: only the contents of the dictionary and of the kernel change. *)
Lemma inv_set_gen s rh o' q v (cut : bool) e (eps : bool) : Inv s rh -> q < n_objs rh ->
  n_objs (o' :: rh) = n_objs rh -> n_kernels (o' :: rh) = n_kernels rh ->
  (forall p, owner (o' :: rh) p = owner rh p) -> (forall p, kernel_of (o' :: rh) p = kernel_of rh p) ->
  (forall p, expected_cut_off (o' :: rh) p = if cut && (owner rh q =? owner rh p) then v else expected_cut_off rh p) ->
  (forall k, expected_epsilon (o' :: rh) k = if eps && (kernel_of rh q =? k) then e else expected_epsilon rh k) ->
  let d := dic s q in
  Inv (Heap (objs s)
        (if cut then update (dicts s) (dist_kwargs (obj s q)) (Dict (Some v) (d_kmin d) (d_backend d)) else dicts s)
        (if eps then update (kernels s) (kernel (obj s q)) e else kernels s)) (o' :: rh).
Proof.
  intros [I1 I2 I3 I4 I5 I6 I7 I8 I9] Hq E1 E2 E3 E4 E5 E6 d.
  assert (L : length (if cut then update (dicts s) (dist_kwargs (obj s q)) (Dict (Some v) (d_kmin d) (d_backend d)) else dicts s)
    = length (dicts s)) by (destruct cut; auto using update_length).
  constructor; rewrite ?E1, ?E2; cbn [objs dicts kernels]; auto.
  - destruct eps; rewrite ?update_length; auto.
  - intros p Hp. rewrite L. now apply I3.
  - intros p Hp. rewrite E4. now apply I4.
  - intros p Hp. rewrite E5. unfold dic, obj in *. cbn. destruct cut; cbn; [|now apply I5].
    rewrite update_nth by now apply I3.
    destruct (Nat.eqb_spec (dist_kwargs (nth p (objs s) (Pcm 0 0))) (dist_kwargs (nth q (objs s) (Pcm 0 0)))) as [E|E].
    + apply I6 in E; auto. rewrite E, Nat.eqb_refl. reflexivity.
    + rewrite I5 by auto. destruct (Nat.eqb_spec (owner rh q) (owner rh p)) as [N|N]; auto.
      symmetry in N. apply I6 in N; auto. contradiction.
  - intros p r Hp Hr. rewrite !E3. unfold obj in *. cbn. now apply I6.
  - intros p Hp. rewrite E3. now apply I7.
  - intros p Hp. rewrite E3. now apply I8.
  - intros k Hk. rewrite E6. destruct (I4 q Hq) as [K1 K2]. destruct eps; cbn; [|now apply I9].
    rewrite K1, update_nth by now rewrite I2.
    rewrite (Nat.eqb_sym k). destruct (kernel_of rh q =? k); auto.
Qed.

Lemma inv_same s rh o' : Inv s rh ->
  n_objs (o' :: rh) = n_objs rh -> n_kernels (o' :: rh) = n_kernels rh ->
  (forall p, owner (o' :: rh) p = owner rh p) -> (forall p, kernel_of (o' :: rh) p = kernel_of rh p) ->
  (forall p, expected_cut_off (o' :: rh) p = expected_cut_off rh p) ->
  (forall k, expected_epsilon (o' :: rh) k = expected_epsilon rh k) -> Inv s (o' :: rh).
Proof.
  intros [I1 I2 I3 I4 I5 I6 I7 I8 I9] E1 E2 E3 E4 E5 E6.
  constructor; rewrite ?E1, ?E2; auto; intros; rewrite ?E3, ?E4, ?E5, ?E6; auto.
Qed.

Lemma heap_eta s : Heap (objs s) (dicts s) (kernels s) = s.
Proof. now destruct s. Qed.

Lemma inv_set s rh q v : Inv s rh -> Inv (fst (step s (SetCutOff q v))) (SetCutOff q v :: rh).
Proof.
  intros I. simpl. unfold do_set_cut_off. rewrite (lookup s rh q I).
  destruct (Nat.ltb_spec q (n_objs rh)) as [Hq|Hq].
  - destruct (nonpositive v) eqn:N; cbn.
    + apply inv_same; auto. intro p. cbn -[Nat.ltb]. now rewrite N, andb_false_r.
    + apply (inv_set_gen s rh (SetCutOff q v) q v true NaN false I Hq); auto.
      intro p. cbn -[Nat.ltb]. replace (q <? n_objs rh) with true by (symmetry; apply Nat.ltb_lt; lia). now rewrite N.
  - cbn. apply inv_same; auto. intro p. cbn -[Nat.ltb].
    now replace (q <? n_objs rh) with false by (symmetry; apply Nat.ltb_ge; lia).
Qed.

Lemma inv_seteps s rh q e : Inv s rh -> Inv (fst (step s (SetEpsilon q e))) (SetEpsilon q e :: rh).
Proof.
  intros I. simpl. unfold do_set_epsilon. rewrite (lookup s rh q I).
  destruct (Nat.ltb_spec q (n_objs rh)) as [Hq|Hq].
  - apply (inv_set_gen s rh (SetEpsilon q e) q NaN false e true I Hq); auto.
    intro p. cbn -[Nat.ltb]. now replace (q <? n_objs rh) with true by (symmetry; apply Nat.ltb_lt; lia).
  - cbn. apply inv_same; auto. intro p. cbn -[Nat.ltb].
    now replace (q <? n_objs rh) with false by (symmetry; apply Nat.ltb_ge; lia).
Qed.

Lemma inv_optimize s rh q v e b : Inv s rh -> Inv (fst (step s (Optimize q v e b))) (Optimize q v e b :: rh).
Proof.
  intros I. simpl. unfold do_optimize. rewrite (lookup s rh q I).
  destruct (Nat.ltb_spec q (n_objs rh)) as [Hq|Hq].
  - destruct b; [|apply inv_same; auto].
    unfold do_set_cut_off. rewrite (lookup s rh q I).
    replace (q <? n_objs rh) with true by (symmetry; apply Nat.ltb_lt; lia).
    destruct (nonpositive v) eqn:N.
    + cbn. apply inv_same; auto; intro p; cbn -[Nat.ltb]; now rewrite N, andb_false_r.
    + unfold do_set_epsilon. cbn [objs]. rewrite (lookup s rh q I).
      replace (q <? n_objs rh) with true by (symmetry; apply Nat.ltb_lt; lia). cbn [fst kernels dicts].
      apply (inv_set_gen s rh (Optimize q v e true) q v true e true I Hq); auto;
        intro p; cbn -[Nat.ltb]; replace (q <? n_objs rh) with true by (symmetry; apply Nat.ltb_lt; lia); now rewrite N.
  - cbn. destruct b; apply inv_same; auto; intro p; cbn -[Nat.ltb];
      now replace (q <? n_objs rh) with false by (symmetry; apply Nat.ltb_ge; lia).
Qed.

Lemma inv_step s rh o : Inv s rh -> Inv (fst (step s o)) (o :: rh).
Proof.
  destruct o; intros I.
  - now apply inv_newkernel.
  - now apply inv_new.
  - now apply inv_view.
  - now apply inv_pickle.
  - now apply inv_set.
  - now apply inv_seteps.
  - now apply inv_optimize.
Qed.

Lemma run_snoc h o : run (h ++ [o]) = fst (step (run h) o).
Proof. unfold run. now rewrite fold_left_app. Qed.

Lemma inv_run h : Inv (run h) (rev h).
Proof.
  induction h as [|o h IH] using rev_ind; [apply inv_init|].
  rewrite run_snoc, rev_unit. now apply inv_step.
Qed.

Lemma cut_off_expected h p : get_cut_off (run h) p =
  if p <? n_objs (rev h) then Some (expected_cut_off (rev h) p) else None.
Proof.
  unfold get_cut_off, get_params. rewrite (lookup _ _ p (inv_run h)).
  destruct (Nat.ltb_spec p (n_objs (rev h))) as [H|H]; auto. cbn.
  assert (E := inv_cut _ _ (inv_run h) p H). unfold dic in E. now rewrite E.
Qed.

Lemma epsilon_expected h p : get_epsilon (run h) p =
  if p <? n_objs (rev h) then Some (expected_epsilon (rev h) (kernel_of (rev h) p)) else None.
Proof.
  unfold get_epsilon. rewrite (lookup _ _ p (inv_run h)).
  destruct (Nat.ltb_spec p (n_objs (rev h))) as [H|H]; auto. cbn.
  destruct (inv_kernel _ _ (inv_run h) p H) as [E1 E2]. rewrite E1. now rewrite (inv_eps _ _ (inv_run h)).
Qed.
