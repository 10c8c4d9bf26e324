(** * Proofs for C30 and C31. *)

From Coq Require Import List ZArith Bool Arith Lia Sorting Permutation.
From Verif Require Import Np QoiModel QoiSpec.
Import ListNotations.
Open Scope Z_scope.

Lemma zmem_In x l : zmem x l = true <-> In x l.
Proof.
  unfold zmem. rewrite existsb_exists. split.
  - intros (y & Hy & E). apply Z.eqb_eq in E. subst. exact Hy.
  - intros H. exists x. split; [exact H|apply Z.eqb_refl].
Qed.

Section Take.
Context {A B : Type}.

Lemma take_idx_app (i1 i2 : list nat) (l : list A) : take_idx (i1 ++ i2) l = take_idx i1 l ++ take_idx i2 l.
Proof. unfold take_idx. apply flat_map_app. Qed.

Lemma take_idx_cons i (idx : list nat) (l : list A) :
  take_idx (i :: idx) l = match nth_error l i with Some x => [x] | None => [] end ++ take_idx idx l.
Proof. reflexivity. Qed.

Lemma take_idx_combine (idx : list nat) (a : list A) (b : list B) :
  length a = length b -> combine (take_idx idx a) (take_idx idx b) = take_idx idx (combine a b).
Proof.
  intros HL. induction idx as [|i idx IH]; [reflexivity|].
  cbn. destruct (nth_error a i) as [x|] eqn:Ea.
  - assert (Hi : (i < length a)%nat) by (apply nth_error_Some; congruence).
    destruct (nth_error b i) as [y|] eqn:Eb.
    2:{ apply nth_error_None in Eb. lia. }
    assert (Ec : nth_error (combine a b) i = Some (x, y)).
    { clear - Ea Eb. revert b i Ea Eb. induction a as [|u a IH]; intros [|v b] [|i] Ea Eb; try discriminate; cbn in *.
      - congruence.
      - apply IH; assumption. }
    rewrite Ec. cbn. f_equal. exact IH.
  - apply nth_error_None in Ea.
    assert (Eb : nth_error b i = None) by (apply nth_error_None; lia).
    assert (Ec : nth_error (combine a b) i = None) by (apply nth_error_None; rewrite combine_length; lia).
    rewrite Eb, Ec. cbn. exact IH.
Qed.

Lemma take_idx_length (idx : list nat) (l : list A) :
  (forall i, In i idx -> (i < length l)%nat) -> length (take_idx idx l) = length idx.
Proof.
  induction idx as [|i idx IH]; intros H; [reflexivity|]. cbn.
  destruct (nth_error l i) eqn:E.
  - cbn. f_equal. apply IH. intros j Hj. apply H. right. exact Hj.
  - apply nth_error_None in E. specialize (H i (or_introl eq_refl)). lia.
Qed.

Lemma take_idx_nth (idx : list nat) (l : list A) :
  (forall i, In i idx -> (i < length l)%nat) ->
  forall j, nth_error (take_idx idx l) j
            = match nth_error idx j with Some i => nth_error l i | None => None end.
Proof.
  induction idx as [|i idx IH]; intros H j; [destruct j; reflexivity|]. cbn.
  destruct (nth_error l i) eqn:E.
  - destruct j as [|j]; cbn; [congruence|]. apply IH. intros k Hk. apply H. right. exact Hk.
  - apply nth_error_None in E. specialize (H i (or_introl eq_refl)). lia.
Qed.

Lemma take_idx_seq (l : list A) : forall k p, take_idx (seq (length p) k) (p ++ l) = firstn k l.
Proof.
  induction l as [|x l IH]; intros k p.
  - rewrite firstn_nil. destruct k; [reflexivity|]. cbn [seq]. rewrite take_idx_cons.
    assert (E : forall n m, (length p <= m)%nat -> take_idx (seq m n) (p ++ []) = []).
    { induction n as [|n IHn]; intros m Hm; [reflexivity|]. cbn [seq]. rewrite take_idx_cons.
      assert (E : nth_error (p ++ []) m = None) by (apply nth_error_None; rewrite app_length; cbn; lia).
      rewrite E. cbn. apply IHn. lia. }
    rewrite (E k (S (length p))) by lia. rewrite nth_error_app2 by lia. rewrite Nat.sub_diag. reflexivity.
  - destruct k as [|k]; [reflexivity|]. cbn [seq]. rewrite take_idx_cons, nth_error_app2 by lia.
    rewrite Nat.sub_diag. cbn [nth_error app firstn]. f_equal. specialize (IH k (p ++ [x])). rewrite app_length in IH. cbn in IH.
    rewrite Nat.add_1_r, <- app_assoc in IH. exact IH.
Qed.

Lemma take_idx_all (l : list A) : take_idx (seq 0 (length l)) l = l.
Proof. etransitivity; [exact (take_idx_seq l (length l) [])|]. apply firstn_all. Qed.

Lemma take_idx_perm (i1 i2 : list nat) (l : list A) :
  Permutation i1 i2 -> Permutation (take_idx i1 l) (take_idx i2 l).
Proof.
  induction 1 as [|x i1 i2 H IH|x y i|i1 i2 i3 H1 IH1 H2 IH2]; cbn.
  - constructor.
  - apply Permutation_app_head. exact IH.
  - rewrite !app_assoc. apply Permutation_app_tail. apply Permutation_app_comm.
  - eapply Permutation_trans; eassumption.
Qed.

Lemma take_idx_sub (idx : list nat) (l : list A) x : In x (take_idx idx l) -> In x l.
Proof.
  intros H. apply in_flat_map in H. destruct H as (i & _ & H).
  destruct (nth_error l i) eqn:E; [|destruct H]. destruct H as [<-|[]]. eapply nth_error_In; eauto.
Qed.
End Take.

(** ** C30 *)

Section Qoi.
Context {D : Type}.

Lemma project_seq (all select : list Z) : forall k,
  map fst (filter (fun p => zmem (snd p) select) (combine (seq k (length all)) all))
  = map (Nat.add k) (project_indices all select).
Proof.
  unfold project_indices, enumerate. induction all as [|x all IH]; intros k; [reflexivity|].
  cbn [length seq combine filter]. cbn [snd].
  rewrite <- (seq_shift (length all) 0).
  assert (E : forall j, map fst (filter (fun p => zmem (snd p) select) (combine (seq (S j) (length all)) all))
             = map (Nat.add (S j)) (project_indices all select)) by (intros j; exact (IH (S j))).
  rewrite seq_shift. destruct (zmem x select); cbn [map fst].
  - rewrite (E k), (E 0%nat). rewrite map_map. f_equal; [lia|].
    apply map_ext. intros a. lia.
  - rewrite (E k), (E 0%nat). rewrite map_map. apply map_ext. intros a. lia.
Qed.

Lemma project_cons x all select :
  project_indices (x :: all) select
  = (if zmem x select then [0%nat] else []) ++ map S (project_indices all select).
Proof.
  unfold project_indices at 1, enumerate. cbn [length seq combine filter snd].
  pose proof (project_seq all select 1) as E. cbn [Nat.add] in E.
  change (map (fun m => S m) (project_indices all select)) with (map S (project_indices all select)) in E.
  destruct (zmem x select); cbn; rewrite E; reflexivity.
Qed.

Lemma take_idx_S {A : Type} (idx : list nat) (x : A) l : take_idx (map S idx) (x :: l) = take_idx idx l.
Proof.
  induction idx as [|i idx IH]; [reflexivity|]. cbn [map]. rewrite !take_idx_cons, IH. reflexivity.
Qed.

Lemma take_project {A : Type} (all select : list Z) : forall (rows : list A),
  length rows = length all ->
  take_idx (project_indices all select) rows
  = map snd (filter (fun p => zmem (fst p) select) (combine all rows)).
Proof.
  induction all as [|x all IH]; intros [|r rows] HL; try discriminate HL; [reflexivity|].
  cbn in HL. injection HL as HL. rewrite project_cons, take_idx_app, take_idx_S, (IH rows HL).
  cbn. destruct (zmem x select); reflexivity.
Qed.

Lemma project_length (all select : list Z) :
  length (project_indices all select) = length (filter (fun x => zmem x select) all).
Proof.
  induction all as [|x all IH]; [reflexivity|]. rewrite project_cons, app_length, map_length, IH.
  cbn. destruct (zmem x select); reflexivity.
Qed.

Lemma filter_map_fst (q all : list Z) : forall (rows : list D), length rows = length all ->
  map fst (filter (fun p => zmem (fst p) q) (combine all rows)) = filter (fun x => zmem x q) all.
Proof.
  induction all as [|x all IH]; intros [|r rows] HL; try discriminate HL; [reflexivity|].
  cbn in *. injection HL as HL. destruct (zmem x q); cbn; rewrite (IH rows HL); reflexivity.
Qed.

Lemma combine_map (l : list (Z * D)) : combine (map fst l) (map snd l) = l.
Proof. induction l as [|[a b] l IH]; cbn; congruence. Qed.

Lemma perm_length_filter (q all : list Z) :
  NoDup all -> NoDup q -> (forall x, In x q -> In x all) ->
  length (filter (fun x => zmem x q) all) = length q.
Proof.
  intros Na Nq Hs. apply Permutation_length. apply NoDup_Permutation.
  - apply NoDup_filter. exact Na.
  - exact Nq.
  - intros x. rewrite filter_In, zmem_In. split; [tauto|]. intros H. split; auto.
Qed.

Lemma storage_order_iff (q all : list Z) : NoDup all ->
  (StorageOrder all q <-> q = filter (fun x => zmem x q) all).
Proof.
  intros Na. split.
  - intros (keep & HL & E). rewrite E at 1.
    assert (H : forall pre l k, length k = length l -> NoDup (pre ++ l) ->
              (forall x, In x l -> (zmem x q = true <-> In x (map snd (filter fst (combine k l))))) ->
              map snd (filter fst (combine k l)) = filter (fun x => zmem x q) l).
    { clear. intros pre l. revert pre. induction l as [|x l IH]; intros pre [|b k] HL N H; try discriminate HL; [reflexivity|].
      cbn in HL. injection HL as HL. cbn.
      assert (Nx : ~ In x l) by (apply NoDup_remove_2 in N; intros Hx; apply N; apply in_or_app; right; exact Hx).
      assert (Hsub : forall k' y, In y (map snd (filter fst (combine k' l))) -> In y l).
      { intros k' y Hy. apply in_map_iff in Hy. destruct Hy as ([c z] & <- & Hy).
        apply filter_In in Hy. destruct Hy as [Hy _]. apply in_combine_r in Hy. exact Hy. }
      assert (IHl : map snd (filter fst (combine k l)) = filter (fun x => zmem x q) l).
      { apply (IH (pre ++ [x])); [exact HL|rewrite <- app_assoc; exact N|].
        intros y Hy. rewrite (H y (or_intror Hy)). cbn. destruct b; cbn; [|tauto].
        split; [|tauto]. intros [->|Hy']; [contradiction|exact Hy']. }
      pose proof (H x (or_introl eq_refl)) as Hx. cbn in Hx.
      destruct b; cbn in Hx |- *.
      - assert (zmem x q = true) as -> by (apply Hx; left; reflexivity). f_equal. exact IHl.
      - destruct (zmem x q) eqn:Ez; [|exact IHl].
        exfalso. apply Nx. apply (Hsub k). apply Hx. reflexivity. }
    apply (H [] all keep HL Na). intros x _. rewrite zmem_In, <- E. reflexivity.
  - intros E. exists (map (fun x => zmem x q) all). split; [apply map_length|].
    rewrite E at 1. clear E Na. induction all as [|x all IH]; [reflexivity|]. cbn.
    destruct (zmem x q); cbn; rewrite IH; reflexivity.
Qed.

(** the spectral prediction: names requested, data in storage order *)
Lemma predict_modes_ok (all q : list Z) (rows : list D) :
  NoDup all -> NoDup q -> (forall x, In x q -> In x all) -> length rows = length all ->
  predict_modes all (Some q) rows
  = Ok (combine q (map snd (filter (fun p => zmem (fst p) q) (combine all rows)))).
Proof.
  intros Na Nq Hs HL. unfold predict_modes, validate_qois.
  assert (forallb (fun x => zmem x all) q = true) as ->.
  { apply forallb_forall. intros x Hx. apply zmem_In. auto. }
  cbn. unfold project_rows. rewrite project_length, perm_length_filter, Nat.eqb_refl by assumption.
  cbn. rewrite take_project by exact HL. reflexivity.
Qed.

Lemma modes_correct_if (all q : list Z) (rows : list D) out :
  NoDup all -> StorageOrder all q -> length rows = length all ->
  predict_modes all (Some q) rows = Ok out -> CorrectSelection all rows q out.
Proof.
  intros Na HS HL H. apply storage_order_iff in HS; [|exact Na].
  assert (Nq : NoDup q) by (rewrite HS; apply NoDup_filter; exact Na).
  assert (Hs : forall x, In x q -> In x all) by (intros x Hx; rewrite HS in Hx; apply filter_In in Hx; tauto).
  rewrite predict_modes_ok in H by assumption. injection H as <-.
  assert (E : combine q (map snd (filter (fun p => zmem (fst p) q) (combine all rows)))
              = filter (fun p => zmem (fst p) q) (combine all rows)).
  { etransitivity; [|apply combine_map]. f_equal. rewrite filter_map_fst by exact HL. exact HS. }
  rewrite E. split.
  - rewrite filter_map_fst by exact HL. symmetry. exact HS.
  - intros x d Hd. apply filter_In in Hd. tauto.
Qed.

Lemma loc_columns_ok (frame : list (Z * D)) names : forall out,
  loc_columns frame names = Ok out ->
  map fst out = names /\ forall p, In p out -> In p frame.
Proof.
  induction names as [|x names IH]; intros out H; cbn in H.
  - injection H as <-. split; [reflexivity|]. intros p [].
  - destruct (find (fun p => fst p =? x) frame) as [p|] eqn:E; [|discriminate H].
    destruct (loc_columns frame names) as [l|e]; cbn in H; [|discriminate H]. injection H as <-.
    destruct (IH l eq_refl) as [H1 H2]. apply find_some in E. destruct E as [E1 E2].
    apply Z.eqb_eq in E2. split; [cbn; congruence|].
    intros p' [<-|Hp]; auto.
Qed.

Lemma loc_columns_total (frame : list (Z * D)) names :
  (forall x, In x names -> In x (map fst frame)) -> exists out, loc_columns frame names = Ok out.
Proof.
  induction names as [|x names IH]; intros H; cbn; [eauto|].
  destruct (find (fun p => fst p =? x) frame) as [p|] eqn:E.
  - destruct IH as [l ->]; [intros y Hy; apply H; right; exact Hy|]. cbn. eauto.
  - exfalso. assert (Hx := H x (or_introl eq_refl)). apply in_map_iff in Hx. destruct Hx as (p & <- & Hp).
    pose proof (find_none _ _ E p Hp) as Hn. cbn in Hn. rewrite Z.eqb_refl in Hn. discriminate.
Qed.

Lemma loc_correct (all q : list Z) (cols : list D) :
  length cols = length all -> (forall x, In x q -> In x all) ->
  exists out, predict_loc all (Some q) cols = Ok out /\ CorrectSelection all cols q out.
Proof.
  intros HL Hs. unfold predict_loc, validate_qois.
  assert (forallb (fun x => zmem x all) q = true) as ->.
  { apply forallb_forall. intros x Hx. apply zmem_In. auto. }
  cbn. destruct (loc_columns_total (combine all cols) q) as [out Ho].
  { intros x Hx. apply Hs in Hx. clear - Hx HL. revert cols HL. induction all as [|y all IH]; intros [|c cols] HL; try discriminate; cbn in *; [contradiction|].
    injection HL as HL. destruct Hx as [->|Hx]; [auto|]. right. apply IH; assumption. }
  exists out. split; [exact Ho|]. destruct (loc_columns_ok _ _ _ Ho) as [H1 H2]. split; [exact H1|].
  intros n d Hd. apply H2. exact Hd.
Qed.

End Qoi.

Lemma modes_correct_iff (all q : list Z) :
  NoDup all -> NoDup q -> (forall x, In x q -> In x all) ->
  ((forall (D : Type) (rows : list D) out, length rows = length all ->
      predict_modes all (Some q) rows = Ok out -> CorrectSelection all rows q out)
   <-> StorageOrder all q).
Proof.
  intros Na Nq Hs. split.
  - intros H. apply storage_order_iff; [exact Na|].
    (* the data of a feature is its own name *)
    specialize (H Z all _ eq_refl (predict_modes_ok all q all Na Nq Hs eq_refl)).
    destruct H as [_ H].
    assert (E : map snd (filter (fun p => zmem (fst p) q) (combine all all)) = filter (fun x => zmem x q) all).
    { clear. induction all as [|x all IH]; [reflexivity|]. cbn. destruct (zmem x q); cbn; rewrite IH; reflexivity. }
    rewrite E in H. pose proof (perm_length_filter q all Na Nq Hs) as HL.
    assert (HD : forall x y, In (x, y) (combine all all) -> x = y).
    { clear. induction all as [|z all IH]; cbn; [contradiction|]. intros x y [E|Hx]; [congruence|]. apply IH. exact Hx. }
    assert (HC : forall x y, In (x, y) (combine q (filter (fun x => zmem x q) all)) -> x = y) by (intros x y Hxy; apply HD, H, Hxy).
    symmetry in HL. revert HL HC. generalize (filter (fun x => zmem x q) all). clear.
    induction q as [|x q IH]; intros [|y l] HL HC; try discriminate HL; [reflexivity|].
    cbn in HL. injection HL as HL. f_equal.
    + apply HC. left. reflexivity.
    + apply IH; [exact HL|]. intros a b Hab. apply HC. right. exact Hab.
  - intros HS D rows out HL H. eapply modes_correct_if; eassumption.
Qed.

(** ** C31 *)

Section Sort.
Context {K D E : Type}.
Variable le : K -> K -> Prop.
Variable argsort : list K -> list nat.
Hypothesis HA : IsArgsort le argsort.

Lemma argsort_range l i : In i (argsort l) -> (i < length l)%nat.
Proof.
  intros H. destruct (HA l) as [HP _]. apply (Permutation_in _ HP) in H. apply in_seq in H. lia.
Qed.

Lemma sorted_of_nth (R : K -> K -> Prop) (l : list K) :
  (forall i j x y, (i < j)%nat -> nth_error l i = Some x -> nth_error l j = Some y -> R x y) ->
  StronglySorted R l.
Proof.
  induction l as [|a l IH]; intros H; constructor.
  - apply IH. intros i j x y Hij Hx Hy. apply (H (S i) (S j) x y); [lia|exact Hx|exact Hy].
  - apply Forall_forall. intros y Hy. apply In_nth_error in Hy. destruct Hy as [j Hj].
    apply (H 0%nat (S j) a y); [lia|reflexivity|exact Hj].
Qed.

Lemma take_sorted l : StronglySorted le (take_idx (argsort l) l).
Proof.
  apply sorted_of_nth. intros i j x y Hij Hx Hy.
  rewrite take_idx_nth in Hx, Hy by (apply argsort_range).
  destruct (nth_error (argsort l) i) as [a|] eqn:Ea; [|discriminate].
  destruct (nth_error (argsort l) j) as [b|] eqn:Eb; [|discriminate].
  destruct (HA l) as [_ HS]. exact (HS i j a b x y Hij Ea Eb Hx Hy).
Qed.

Lemma take_rev {A : Type} (idx : list nat) (l : list A) : take_idx (rev idx) l = rev (take_idx idx l).
Proof.
  induction idx as [|i idx IH]; [reflexivity|]. cbn [rev].
  rewrite take_idx_app, IH, !take_idx_cons, rev_app_distr.
  destruct (nth_error l i); reflexivity.
Qed.

Lemma rev_sorted (R : K -> K -> Prop) l : StronglySorted R l -> StronglySorted (fun x y => R y x) (rev l).
Proof.
  induction 1 as [|a l HS IH HF]; cbn; [constructor|].
  assert (G : forall m, StronglySorted (fun x y => R y x) m -> Forall (fun x => R a x) m ->
               StronglySorted (fun x y => R y x) (m ++ [a])).
  { clear. induction m as [|b m IH]; intros H1 H2; cbn; [repeat constructor|].
    apply StronglySorted_inv in H1. destruct H1 as [H1 H3]. inversion H2; subst. constructor; [auto|].
    apply Forall_app. split; [exact H3|]. constructor; [assumption|constructor]. }
  apply G; [exact IH|]. apply Forall_rev. exact HF.
Qed.

Lemma sort_ok values (right : list D) (left : option (list E)) asc v r l :
  sort_eigenpairs argsort values right left asc = Ok (v, r, l) ->
  Permutation (combine v r) (combine values right)
  /\ match left, l with
     | None, None => True
     | Some l0, Some l1 => Permutation (combine (combine v r) l1) (combine (combine values right) l0)
     | _, _ => False
     end
  /\ (if asc then StronglySorted le v else StronglySorted (fun x y => le y x) v).
Proof.
  unfold sort_eigenpairs.
  destruct (length values =? length right)%nat eqn:E1; cbn; [|discriminate]. apply Nat.eqb_eq in E1.
  intros H.
  destruct (match left with Some l => negb (length values =? length l)%nat | None => false end) eqn:E2; [discriminate|].
  injection H as <- <- <-.
  set (idx := if asc then argsort values else rev (argsort values)).
  assert (HP : Permutation idx (seq 0 (length values))).
  { destruct (HA values) as [HP _]. unfold idx. destruct asc; [exact HP|].
    eapply Permutation_trans; [apply Permutation_sym, Permutation_rev|exact HP]. }
  split; [|split].
  - rewrite take_idx_combine by exact E1.
    assert (HL : length (combine values right) = length values) by (rewrite combine_length; lia).
    rewrite <- HL in HP. eapply Permutation_trans; [apply take_idx_perm; exact HP|].
    rewrite take_idx_all. apply Permutation_refl.
  - destruct left as [l0|]; [|exact I]. apply negb_false_iff, Nat.eqb_eq in E2.
    rewrite take_idx_combine by exact E1.
    assert (HL : length (combine values right) = length values) by (rewrite combine_length; lia).
    rewrite take_idx_combine by lia.
    assert (HL2 : length (combine (combine values right) l0) = length values) by (rewrite combine_length; lia).
    rewrite <- HL2 in HP. eapply Permutation_trans; [apply take_idx_perm; exact HP|].
    rewrite take_idx_all. apply Permutation_refl.
  - unfold idx. destruct asc; [apply take_sorted|]. rewrite take_rev. apply rev_sorted, take_sorted.
Qed.

End Sort.

Lemma sorted_impl {A : Type} (R S : A -> A -> Prop) l :
  (forall x y, In x l -> In y l -> R x y -> S x y) -> StronglySorted R l -> StronglySorted S l.
Proof.
  intros H. induction 1 as [|a l HS IH HF]; constructor.
  - apply IH. intros x y Hx Hy. apply H; right; assumption.
  - apply Forall_forall. intros y Hy. rewrite Forall_forall in HF. apply H; [left; reflexivity|right; exact Hy|auto].
Qed.

Lemma perm_combine_fst {A B : Type} (a b : list A) (c d : list B) :
  length a = length c -> length b = length d -> Permutation (combine a c) (combine b d) -> Permutation a b.
Proof.
  intros H1 H2 HP.
  assert (E : forall (x : list A) (y : list B), length x = length y -> map fst (combine x y) = x).
  { clear. induction x as [|u x IH]; intros [|v y] H; try discriminate; cbn in *; [reflexivity|].
    f_equal. apply IH. congruence. }
  rewrite <- (E a c H1), <- (E b d H2). apply Permutation_map. exact HP.
Qed.

(** An instance of the oracle: insertion sort of (value, position). *)
Section Instance.
Context {K : Type}.
Variable leb : K -> K -> bool.
Hypothesis leb_total : forall x y, leb x y = false -> leb y x = true.
Hypothesis leb_trans : forall x y z, leb x y = true -> leb y z = true -> leb x z = true.

Fixpoint ins (x : K * nat) (l : list (K * nat)) : list (K * nat) :=
  match l with
  | [] => [x]
  | y :: r => if leb (fst x) (fst y) then x :: l else y :: ins x r
  end.
Definition isort (l : list (K * nat)) : list (K * nat) := fold_right ins [] l.
Definition ins_argsort (l : list K) : list nat := map snd (isort (combine l (seq 0 (length l)))).

Lemma ins_perm x l : Permutation (ins x l) (x :: l).
Proof.
  induction l as [|y l IH]; cbn; [apply Permutation_refl|]. destruct (leb (fst x) (fst y)); [apply Permutation_refl|].
  eapply Permutation_trans; [apply perm_skip; exact IH|]. apply perm_swap.
Qed.

Lemma isort_perm l : Permutation (isort l) l.
Proof.
  induction l as [|x l IH]; cbn; [constructor|]. eapply Permutation_trans; [apply ins_perm|].
  apply perm_skip. exact IH.
Qed.

Definition le_fst (x y : K * nat) : Prop := leb (fst x) (fst y) = true.

Lemma ins_sorted x l : StronglySorted le_fst l -> StronglySorted le_fst (ins x l).
Proof.
  induction l as [|y l IH]; cbn; intros H; [repeat constructor|].
  apply StronglySorted_inv in H. destruct H as [H1 H2].
  destruct (leb (fst x) (fst y)) eqn:E.
  - constructor; [constructor; assumption|]. constructor; [exact E|].
    eapply Forall_impl; [|exact H2]. intros z Hz. unfold le_fst in *. eauto.
  - constructor; [auto|]. apply Forall_forall. intros z Hz.
    apply (Permutation_in _ (ins_perm x l)) in Hz. destruct Hz as [<-|Hz].
    + apply leb_total. exact E.
    + rewrite Forall_forall in H2. auto.
Qed.

Lemma isort_sorted l : StronglySorted le_fst (isort l).
Proof. induction l as [|x l IH]; cbn; [constructor|]. apply ins_sorted. exact IH. Qed.

Lemma sorted_nth {A : Type} (R : A -> A -> Prop) l : StronglySorted R l ->
  forall i j x y, (i < j)%nat -> nth_error l i = Some x -> nth_error l j = Some y -> R x y.
Proof.
  induction 1 as [|a l HS IH HF]; intros i j x y Hij Hx Hy; [destruct i; discriminate|].
  destruct j as [|j]; [lia|]. destruct i as [|i]; cbn in Hx, Hy.
  - injection Hx as <-. rewrite Forall_forall in HF. apply HF. eapply nth_error_In; eauto.
  - eapply (IH i j); eauto; lia.
Qed.

Lemma in_enum (l : list K) : forall k x i, In (x, i) (combine l (seq k (length l))) -> nth_error l (i - k) = Some x /\ (k <= i)%nat.
Proof.
  induction l as [|a l IH]; intros k x i H; [destruct H|]. cbn in H. destruct H as [H|H].
  - injection H as <- <-. rewrite Nat.sub_diag. auto.
  - apply IH in H. destruct H as [H1 H2]. split; [|lia]. replace (i - k)%nat with (S (i - S k)) by lia. exact H1.
Qed.

Lemma ins_argsort_spec : IsArgsort (fun x y => leb x y = true) ins_argsort.
Proof.
  intros l. set (L := isort (combine l (seq 0 (length l)))).
  assert (HP : Permutation L (combine l (seq 0 (length l)))) by apply isort_perm.
  split.
  - unfold ins_argsort. fold L. eapply Permutation_trans; [apply Permutation_map; exact HP|].
    assert (E : forall (a : list K) (b : list nat), length a = length b -> map snd (combine a b) = b).
    { clear. induction a as [|u a IH]; intros [|v b] H; try discriminate; cbn in *; [reflexivity|].
      f_equal. apply IH. congruence. }
    rewrite E by (rewrite seq_length; reflexivity). apply Permutation_refl.
  - intros i j a b x y Hij Ha Hb Hx Hy. unfold ins_argsort in Ha, Hb. fold L in Ha, Hb.
    rewrite nth_error_map in Ha, Hb.
    destruct (nth_error L i) as [[x' a']|] eqn:Ei; [|discriminate Ha]. injection Ha as ->.
    destruct (nth_error L j) as [[y' b']|] eqn:Ej; [|discriminate Hb]. injection Hb as ->.
    assert (Q : forall z c n, nth_error L n = Some (z, c) -> nth_error l c = Some z).
    { intros z c n Hn. apply nth_error_In in Hn. apply (Permutation_in _ HP) in Hn.
      apply in_enum in Hn. rewrite Nat.sub_0_r in Hn. tauto. }
    rewrite (Q _ _ _ Ei) in Hx. rewrite (Q _ _ _ Ej) in Hy. injection Hx as <-. injection Hy as <-.
    exact (sorted_nth le_fst L (isort_sorted _) i j (x', a) (y', b) Hij Ei Ej).
Qed.
End Instance.

Definition complex_leb (x y : Z * Z) : bool :=
  (fst x <? fst y) || ((fst x =? fst y) && (snd x <=? snd y)).

Lemma complex_leb_le x y : complex_leb x y = true <-> complex_le x y.
Proof.
  unfold complex_leb, complex_le. rewrite orb_true_iff, andb_true_iff, Z.ltb_lt, Z.eqb_eq, Z.leb_le. reflexivity.
Qed.

Lemma complex_argsort : IsArgsort complex_le (ins_argsort complex_leb).
Proof.
  intros l. destruct (ins_argsort_spec complex_leb) with (l := l) as [H1 H2].
  - intros x y H. apply complex_leb_le. destruct (Z.lt_trichotomy (fst x) (fst y)) as [L|[L|L]].
    + exfalso. assert (complex_leb x y = true) by (apply complex_leb_le; left; exact L). congruence.
    + right. split; [congruence|]. destruct (Z.le_gt_cases (snd x) (snd y)) as [M|M]; [|lia].
      exfalso. assert (complex_leb x y = true) by (apply complex_leb_le; right; auto). congruence.
    + left. exact L.
  - intros x y z A B. apply complex_leb_le in A, B. apply complex_leb_le. unfold complex_le in *. lia.
  - split; [exact H1|]. intros i j a b x y Hij Ha Hb Hx Hy. apply complex_leb_le. eapply H2; eauto.
Qed.

Lemma nonneg_magnitude x y :
  0 <= fst x -> snd x = 0 -> 0 <= fst y -> snd y = 0 -> complex_le x y -> abs2 x <= abs2 y.
Proof. unfold complex_le, abs2. destruct x as [a b], y as [c d]; cbn. intros. subst. nia. Qed.
