(** * Proofs for C32, C33, C34. *)

From Coq Require Import List ZArith Bool Arith Lia.
From Verif Require Import Np DistModel DistSpec.
Import ListNotations.
Open Scope Z_scope.

Lemma in_enum_k {A : Type} (l : list A) : forall k i x,
  In (i, x) (combine (seq k (length l)) l) <-> (k <= i)%nat /\ nth_error l (i - k) = Some x.
Proof.
  induction l as [|a l IH]; intros k i x; cbn.
  - split; [intros []|]. intros [_ H]. destruct (i - k)%nat; discriminate.
  - rewrite IH. split.
    + intros [E|[H1 H2]].
      * injection E as <- <-. rewrite Nat.sub_diag. auto.
      * split; [lia|]. replace (i - k)%nat with (S (i - S k)) by lia. exact H2.
    + intros [H1 H2]. destruct (Nat.eq_dec i k) as [->|N].
      * left. rewrite Nat.sub_diag in H2. cbn in H2. congruence.
      * right. split; [lia|]. replace (i - k)%nat with (S (i - S k)) in H2 by lia. exact H2.
Qed.

Lemma in_enumerate {A : Type} (l : list A) i x : In (i, x) (enumerate l) <-> nth_error l i = Some x.
Proof. unfold enumerate. rewrite in_enum_k, Nat.sub_0_r. intuition lia. Qed.

Lemma enumerate_fst {A : Type} (l : list A) : map fst (enumerate l) = seq 0 (length l).
Proof.
  unfold enumerate. generalize 0%nat as k. induction l as [|a l IH]; intros k; cbn; [reflexivity|]. f_equal. apply IH.
Qed.

Lemma enumerate_map {A B : Type} (f : A -> B) (l : list A) :
  enumerate (map f l) = map (fun p => (fst p, f (snd p))) (enumerate l).
Proof.
  unfold enumerate. rewrite map_length. generalize 0%nat as k.
  induction l as [|a l IH]; intros k; cbn; [reflexivity|]. f_equal. apply IH.
Qed.

Lemma nodup_filter_fst {A : Type} (f : nat * A -> bool) (l : list (nat * A)) :
  NoDup (map fst l) -> NoDup (map fst (filter f l)).
Proof.
  induction l as [|a l IH]; cbn; intros H; [constructor|]. inversion H as [|? ? H1 H2]; subst.
  destruct (f a); cbn; [|auto]. constructor; [|auto].
  intros Hin. apply H1. apply in_map_iff in Hin. destruct Hin as (b & E & Hb). apply filter_In in Hb.
  rewrite <- E. apply in_map. tauto.
Qed.

Lemma nodup_enum_filter {A : Type} (f : nat * A -> bool) (l : list A) :
  NoDup (map fst (filter f (enumerate l))).
Proof. apply nodup_filter_fst. rewrite enumerate_fst. apply seq_NoDup. Qed.

Lemma nth_map_row {A : Type} (f : A -> list (nat * Z)) (l : list A) i y :
  nth_error l i = Some y -> row_of (map f l) i = f y.
Proof.
  intros H. unfold row_of. apply nth_error_nth. rewrite nth_error_map, H. reflexivity.
Qed.

Section Proofs.
Context {P : Type}.
Variable eu : P -> P -> Z.
Hypothesis eu_pos : forall x y, 0 <= eu x y.

(** ** C32 *)

Lemma mvalue_nonneg m d : 0 <= d -> 0 <= mvalue m d.
Proof. destruct m; cbn; nia. Qed.

Lemma mvalue_lt m d c : 0 <= d -> 0 < c -> (mvalue m d < mvalue m c <-> d < c).
Proof. destruct m; cbn; nia. Qed.

Lemma brute_stores inv m c X Y n rows :
  inv < 0 ->
  brute_call eu inv m (Some c) X Y = Ok (Sparse n rows) ->
  0 < c /\ n = length X /\ StoresExactly eu X (query_points X Y) (fun d => d < c) (mvalue m) rows.
Proof.
  intros Hinv. unfold brute_call, set_cut_off.
  destruct (Z.eqb_spec c 0) as [->|Hc0]; cbn.
  { destruct (length X <=? 1)%nat; discriminate. }
  destruct (Z.ltb_spec c 0) as [Hc|Hc]; [discriminate|]. cbn.
  destruct (length X <=? 1)%nat; [discriminate|]. intros H. injection H as <- <-.
  assert (Hcp : 0 < c) by lia. split; [exact Hcp|]. split; [reflexivity|].
  unfold dense2csr, full_matrix. rewrite map_map. split; [rewrite map_length; reflexivity|].
  intros i y Hy. rewrite (nth_map_row _ _ _ _ Hy). unfold csr_row.
  split.
  - rewrite map_map. cbn [fst snd].
    apply (nodup_enum_filter (fun p => negb (snd p =? 0))).
  - intros j v. rewrite !map_map. rewrite enumerate_map. rewrite in_map_iff.
    assert (HV : forall d, 0 <= d ->
       let e := drop_large (mvalue m c) (mark_zero inv (mvalue m d)) in
       (negb (e =? 0) = true <-> d < c) /\ (d < c -> unmark inv e = mvalue m d)).
    { intros d Hd. cbn. pose proof (mvalue_lt m d c Hd Hcp) as HL. pose proof (mvalue_nonneg m d Hd) as HN.
      assert (HC : 0 < mvalue m c) by (destruct m; cbn; nia).
      unfold mark_zero. destruct (Z.eqb_spec (mvalue m d) 0) as [E0|E0].
      - unfold drop_large. assert (mvalue m c <=? inv = false) as -> by (apply Z.leb_gt; lia).
        split.
        + rewrite negb_true_iff, Z.eqb_neq. split; [|lia]. intros _. apply HL. lia.
        + intros _. unfold unmark. rewrite Z.eqb_refl. congruence.
      - unfold drop_large. destruct (Z.leb_spec (mvalue m c) (mvalue m d)) as [L|L].
        + rewrite Z.eqb_refl. cbn. split; [split; [discriminate|]|]; intros Hlt; exfalso; apply HL in Hlt; lia.
        + assert (mvalue m d =? 0 = false) as -> by (apply Z.eqb_neq; exact E0). cbn.
          split; [split; [intros _; apply HL; exact L|reflexivity]|]. intros _. unfold unmark.
          assert (mvalue m d =? inv = false) as -> by (apply Z.eqb_neq; lia). reflexivity. }
    split.
    + intros ((j', e) & E & Hin). cbn in E. injection E as -> <-. apply filter_In in Hin.
      destruct Hin as [Hin Hnz]. apply in_map_iff in Hin. destruct Hin as ((j2, x) & E & Hin). cbn in E.
      injection E as -> <-. apply in_enumerate in Hin. exists x. split; [exact Hin|]. cbn in Hnz.
      destruct (HV (eu x y) (eu_pos x y)) as [H1 H2]. unfold mdist in Hnz.
      assert (Hlt : eu x y < c) by (apply H1; exact Hnz). split; [exact Hlt|]. cbn. unfold mdist. apply H2. exact Hlt.
    + intros (x & Hx & Hlt & ->). destruct (HV (eu x y) (eu_pos x y)) as [H1 H2].
      eexists (j, _). cbn. split; [f_equal; apply H2; exact Hlt|]. apply filter_In. split.
      * apply in_map_iff. exists (j, x). split; [reflexivity|]. apply in_enumerate. exact Hx.
      * cbn. apply H1. exact Hlt.
Qed.

Lemma radius_stores m c ref Y :
  StoresExactly eu ref Y (fun d => d <= c) (mvalue m)
    (map (fun y => map (fun p => (fst p, mvalue m (snd p))) (radius_query eu ref c y)) Y).
Proof.
  split; [apply map_length|]. intros i y Hy. rewrite (nth_map_row _ _ _ _ Hy). unfold radius_query.
  rewrite (map_map (fun p => (fst p, eu (snd p) y))). cbn [fst snd]. split.
  - rewrite map_map. cbn [fst snd]. apply (nodup_enum_filter (fun p => eu (snd p) y <=? c)).
  - intros j v. rewrite in_map_iff. split.
    + intros ((j', x) & E & Hin). cbn in E. injection E as -> <-. apply filter_In in Hin. destruct Hin as [Hin Hle].
      apply in_enumerate in Hin. cbn in Hle. apply Z.leb_le in Hle. eauto.
    + intros (x & Hx & Hle & ->). exists (j, x). split; [reflexivity|]. apply filter_In.
      split; [apply in_enumerate; exact Hx|]. cbn. apply Z.leb_le. exact Hle.
Qed.

Lemma tree_stores knn m c X Y st n rows :
  tree_call eu knn m (Some c) None None X Y = (st, Ok (Sparse n rows)) ->
  0 < c /\ n = length X /\ StoresExactly eu X (query_points X Y) (fun d => d <= c) (mvalue m) rows.
Proof.
  unfold tree_call, set_cut_off. destruct (Z.eqb_spec c 0) as [->|Hc0]; cbn.
  { destruct (length X <=? 1)%nat; [discriminate|]. destruct Y; discriminate. }
  destruct (Z.ltb_spec c 0) as [Hc|Hc]; [discriminate|].
  destruct (length X <=? 1)%nat; [discriminate|].
  intros H. assert (E : match Y with Some _ => X | None => X end = X) by (destruct Y; reflexivity).
  rewrite E in H. injection H as <- <- <-. split; [lia|]. split; [reflexivity|]. apply radius_stores.
Qed.

(** ** C33 *)

Hypothesis eu_sym : forall x y, eu x y = eu y x.
Hypothesis eu_refl : forall x, eu x x = 0.
Variable knn : list P -> P -> nat -> list nat.
Hypothesis HK : KnnOracle eu knn.

Lemma set_entry_sub c v row e : In e (set_entry c v row) -> e = (c, v) \/ In e row.
Proof.
  induction row as [|[c' v'] row IH]; cbn [set_entry].
  - intros [<-|[]]; auto.
  - destruct (c <? c')%nat; [intros [<-|H]; auto|].
    destruct (c =? c')%nat; [intros [<-|H]; cbn; auto|].
    intros [<-|H]; [cbn; auto|]. destruct (IH H); cbn; auto.
Qed.

Lemma set_entry_in c v row : In (c, v) (set_entry c v row).
Proof.
  induction row as [|[c' v'] row IH]; cbn [set_entry]; [left; reflexivity|].
  destruct (c <? c')%nat; [left; reflexivity|]. destruct (c =? c')%nat; [left; reflexivity|]. right. exact IH.
Qed.

Lemma set_entry_keep c v c' v' row :
  In (c, v) row -> (c = c' -> v = v') -> In (c, v) (set_entry c' v' row).
Proof.
  induction row as [|[a b] row IH]; cbn [set_entry]; [intros []|]. intros H Hv.
  destruct (c' <? a)%nat; [right; exact H|]. destruct (Nat.eqb_spec c' a) as [->|N].
  - destruct H as [E|H]; [|right; exact H]. injection E as -> ->. left. rewrite Hv by reflexivity. reflexivity.
  - destruct H as [E|H]; [left; exact E|]. right. apply IH; assumption.
Qed.

Lemma set_entries_sub es : forall row e, In e (set_entries es row) -> In e es \/ In e row.
Proof.
  induction es as [|[c v] es IH]; intros row e H; cbn in H; [auto|].
  apply IH in H. destruct H as [H|H]; [left; right; exact H|].
  apply set_entry_sub in H. destruct H as [->|H]; [left; left; reflexivity|auto].
Qed.

Lemma set_entries_in (es : list (nat * Z)) : forall row c v,
  (forall v', In (c, v') es -> v' = v) -> In (c, v) es \/ In (c, v) row -> In (c, v) (set_entries es row).
Proof.
  induction es as [|[c' v'] es IH]; intros row c v Hu H; cbn.
  - destruct H as [[]|H]; exact H.
  - apply IH; [intros w Hw; apply Hu; right; exact Hw|].
    destruct H as [[E|H]|H].
    + injection E as -> ->. right. apply set_entry_in.
    + left. exact H.
    + right. apply set_entry_keep; [exact H|]. intros ->. symmetry. apply Hu. left. reflexivity.
Qed.

(** The triples are true distances. *)
Lemma kmin_triples_in X Y k rows i c d :
  In ((i, c), d) (kmin_triples eu knn X Y k rows) <->
  exists row y x, nth_error rows i = Some row /\ (length row < k)%nat /\ nth_error Y i = Some y /\
    In c (knn X y k) /\ nth_error X c = Some x /\ eu x y <> 0 /\ d = eu x y.
Proof.
  unfold kmin_triples. rewrite in_flat_map. split.
  - intros ((i', row) & Hrow & H). cbn [fst snd] in H. apply in_enumerate in Hrow.
    destruct (Nat.ltb_spec (length row) k) as [HL|HL]; [|destruct H].
    apply in_flat_map in H. destruct H as (y & Hy & H). cbn [fst snd] in *. unfold point_at in Hy.
    destruct (nth_error Y i') as [y'|] eqn:Ey; [|destruct Hy]. destruct Hy as [->|[]].
    apply in_flat_map in H. destruct H as (c' & Hc & H).
    apply in_flat_map in H. destruct H as (x & Hx & H). unfold point_at in Hx.
    destruct (nth_error X c') as [x'|] eqn:Ex; [|destruct Hx]. destruct Hx as [->|[]].
    destruct (Z.eqb_spec (eu x y) 0) as [E|E]; [destruct H|]. destruct H as [H|[]].
    injection H as <- <- <-. exists row, y, x. repeat split; assumption.
  - intros (row & y & x & Hrow & HL & Hy & Hc & Hx & E & ->). exists (i, row).
    split; [apply in_enumerate; exact Hrow|]. cbn [fst snd]. apply Nat.ltb_lt in HL. rewrite HL.
    apply in_flat_map. exists y. split; [unfold point_at; rewrite Hy; left; reflexivity|].
    apply in_flat_map. exists c. split; [exact Hc|].
    apply in_flat_map. exists x. split; [unfold point_at; rewrite Hx; left; reflexivity|].
    apply Z.eqb_neq in E. rewrite E. left. reflexivity.
Qed.

Lemma swap_triples_in l i c d : In ((i, c), d) (swap_triples l) <-> In ((c, i), d) l.
Proof.
  unfold swap_triples. rewrite in_map_iff. split.
  - intros (((a, b), e) & E & H). cbn in E. injection E as <- <- <-. exact H.
  - intros H. exists ((c, i), d). split; [reflexivity|exact H].
Qed.

(** Rows of points within the radius that have at least k entries contain k nearest ones. *)
Lemma enough_within X Y c rows k i y :
  StoresExactly eu X Y (fun d => d <= c) (fun d => d) rows ->
  nth_error Y i = Some y -> (k <= length (row_of rows i))%nat -> (k <= length X)%nat ->
  forall j, In j (knn X y k) -> exists x, nth_error X j = Some x /\ In (j, eu x y) (row_of rows i).
Proof.
  intros [_ HS] Hy HL HkX j Hj. destruct (HS i y Hy) as [HN HI].
  destruct (HK X y k HkX) as (K1 & K2 & K3 & K4).
  destruct (nth_error X j) as [x|] eqn:Ex.
  2:{ apply nth_error_None in Ex. specialize (K3 j Hj). lia. }
  exists x. split; [reflexivity|]. apply HI. exists x. split; [exact Ex|]. split; [|reflexivity].
  destruct (Z.le_gt_cases (eu x y) c) as [L|L]; [exact L|]. exfalso.
  (* all columns of the row are in knn without j *)
  assert (Hincl : incl (map fst (row_of rows i)) (remove Nat.eq_dec j (knn X y k))).
  { intros b Hb. apply in_map_iff in Hb. destruct Hb as ((b', v) & E & Hb). cbn in E. subst b'.
    apply HI in Hb. destruct Hb as (xb & Hxb & Hle & _).
    destruct (in_dec Nat.eq_dec b (knn X y k)) as [Hin|Hout].
    - apply in_in_remove; [|exact Hin]. intros ->. rewrite Ex in Hxb. injection Hxb as <-. lia.
    - exfalso. specialize (K4 j b x xb Hj Hout Ex Hxb). lia. }
  pose proof (NoDup_incl_length HN Hincl) as Hlen. rewrite map_length in Hlen.
  pose proof (remove_length_lt Nat.eq_dec (knn X y k) j Hj). lia.
Qed.

Lemma rows_nth (rows : list (list (nat * Z))) i : (i < length rows)%nat -> nth_error rows i = Some (row_of rows i).
Proof. intros H. unfold row_of. apply nth_error_nth'. exact H. Qed.

Lemma stores_true X Y c rows :
  StoresExactly eu X Y (fun d => d <= c) (fun d => d) rows ->
  forall i y, nth_error Y i = Some y -> forall j v, In (j, v) (row_of rows i) ->
  exists x, nth_error X j = Some x /\ v = eu x y.
Proof. intros [_ HS] i y Hy j v H. apply (HS i y Hy) in H. destruct H as (x & Hx & _ & E). eauto. Qed.

Lemma ensure_kmin_nearest X Y c rows k out :
  StoresExactly eu X (query_points X Y) (fun d => d <= c) (fun d => d) rows -> 0 < c ->
  (k <= length X)%nat ->
  ensure_kmin eu knn X Y k (length X) rows = Ok out ->
  HasNearest eu X (query_points X Y) k (fun d => d) out.
Proof.
  intros HS Hc HkX. unfold ensure_kmin. set (Q := query_points X Y) in *.
  destruct (existsb (fun row => (length row <? k)%nat) rows) eqn:EX.
  2:{ intros H. injection H as <-. split; [apply HS|]. intros i y Hy. split.
      - exists (knn X y k). split; [apply HK; exact HkX|]. intros j Hj.
        apply (enough_within X Q c rows k i y HS Hy); [|exact HkX|exact Hj].
        destruct (Nat.le_gt_cases k (length (row_of rows i))) as [L|L]; [exact L|].
        exfalso. assert (existsb (fun row => (length row <? k)%nat) rows = true); [|congruence].
        apply existsb_exists. exists (row_of rows i). split; [|apply Nat.ltb_lt; exact L].
        apply nth_In. destruct HS as [HL _]. rewrite HL. apply nth_error_Some. congruence.
      - apply (stores_true X Q c rows HS i y Hy). }
  destruct (match Y with None => false | Some Y0 => _ end); [discriminate|].
  destruct (length X <? k)%nat; [discriminate|].
  set (T0 := kmin_triples eu knn X Q k rows).
  set (T := match Y with None => T0 ++ swap_triples T0 | Some _ => T0 end).
  intros H. injection H as <-. destruct HS as [HL HS0]. assert (HS : StoresExactly eu X Q (fun d => d <= c) (fun d => d) rows) by (split; assumption).
  assert (HT : forall i a d y, In ((i, a), d) T -> nth_error Q i = Some y ->
               exists x, nth_error X a = Some x /\ d = eu x y).
  { intros i a d y Hin Hy. unfold T in Hin.
    assert (H0 : In ((i, a), d) T0 -> exists x, nth_error X a = Some x /\ d = eu x y).
    { intros Hin0. apply kmin_triples_in in Hin0. destruct Hin0 as (row & y' & x & _ & _ & Hy' & _ & Hx & _ & ->).
      rewrite Hy in Hy'. injection Hy' as <-. eauto. }
    destruct Y as [Y|]; [auto|]. apply in_app_or in Hin. destruct Hin as [Hin|Hin]; [auto|].
    apply (proj1 (swap_triples_in _ _ _ _)) in Hin. apply kmin_triples_in in Hin.
    destruct Hin as (row & y' & x & _ & _ & Hy' & _ & Hx & _ & ->).
    unfold Q, query_points in *. rewrite Hy in Hx. injection Hx as <-. exists y'. split; [exact Hy'|]. apply eu_sym. }
  split.
  { rewrite map_length. unfold enumerate. rewrite combine_length, seq_length, HL. apply Nat.min_id. }
  intros i y Hy.
  assert (Hi : (i < length rows)%nat) by (rewrite HL; apply nth_error_Some; congruence).
  set (es := map (fun t => (snd (fst t), snd t)) (filter (fun t => (fst (fst t) =? i)%nat) T)).
  assert (Erow : row_of (map (fun p => set_entries (map (fun t => (snd (fst t), snd t))
                   (filter (fun t => (fst (fst t) =? fst p)%nat) T)) (snd p)) (enumerate rows)) i
                 = set_entries es (row_of rows i)).
  { apply (nth_map_row (fun p => set_entries (map (fun t => (snd (fst t), snd t))
                   (filter (fun t => (fst (fst t) =? fst p)%nat) T)) (snd p)) (enumerate rows) i (i, row_of rows i)).
    unfold enumerate. clear - Hi. 
    assert (G : forall (l : list (list (nat * Z))) k j x, nth_error l j = Some x ->
                nth_error (combine (seq k (length l)) l) j = Some ((k + j)%nat, x)).
    { induction l as [|a l IH]; intros k [|j] x Hx; try discriminate; cbn in *.
      - rewrite Nat.add_0_r. congruence.
      - rewrite (IH (S k) j x Hx). f_equal. f_equal. lia. }
    apply (G rows 0%nat i). apply rows_nth. exact Hi. }
  rewrite Erow.
  assert (Hes : forall a d, In (a, d) es <-> In ((i, a), d) T).
  { intros a d. unfold es. rewrite in_map_iff. split.
    - intros (((i', a'), d') & E & Hin). cbn in E. injection E as -> ->. apply filter_In in Hin.
      destruct Hin as [Hin E]. cbn in E. apply Nat.eqb_eq in E. subst i'. exact Hin.
    - intros Hin. exists ((i, a), d). split; [reflexivity|]. apply filter_In. split; [exact Hin|]. cbn. apply Nat.eqb_refl. }
  split.
  - exists (knn X y k). split; [apply HK; exact HkX|]. intros j Hj.
    destruct (HK X y k HkX) as (_ & _ & K3 & _).
    destruct (nth_error X j) as [x|] eqn:Ex.
    2:{ apply nth_error_None in Ex. specialize (K3 j Hj). lia. }
    exists x. split; [reflexivity|]. apply set_entries_in.
    + intros v' Hv'. apply Hes in Hv'. destruct (HT i j v' y Hv' Hy) as (x' & Hx' & ->).
      rewrite Ex in Hx'. congruence.
    + destruct (Nat.le_gt_cases k (length (row_of rows i))) as [L|L].
      * right. destruct (enough_within X Q c rows k i y HS Hy L HkX j Hj) as (x' & Hx' & Hin).
        rewrite Ex in Hx'. injection Hx' as <-. exact Hin.
      * destruct (Z.eq_dec (eu x y) 0) as [E|E].
        -- right. apply (HS0 i y Hy). exists x. split; [exact Ex|]. split; [lia|reflexivity].
        -- left. apply Hes. unfold T.
           assert (In ((i, j), eu x y) T0).
           { apply kmin_triples_in. exists (row_of rows i), y, x. repeat split; try assumption. apply rows_nth. exact Hi. }
           destruct Y; [assumption|]. apply in_or_app. left. assumption.
  - intros j v Hin. apply set_entries_sub in Hin. destruct Hin as [Hin|Hin].
    + apply Hes in Hin. exact (HT i j v y Hin Hy).
    + exact (stores_true X Q c rows HS i y Hy j v Hin).
Qed.

Lemma kmin_nearest c k X Y st n rows :
  tree_call eu knn Euclidean (Some c) (Some k) None X Y = (st, Ok (Sparse n rows)) ->
  (k <= length X)%nat ->
  HasNearest eu X (query_points X Y) k (fun d => d) rows.
Proof.
  unfold tree_call, set_cut_off. destruct (Z.eqb_spec c 0) as [->|Hc0]; cbv beta iota.
  { destruct (k =? 0)%nat; [discriminate|]. destruct (length X <=? 1)%nat; [discriminate|].
    destruct Y; [destruct (0 <? k)%nat|destruct (1 <? k)%nat]; discriminate. }
  destruct (Z.ltb_spec c 0) as [Hc|Hc]; [discriminate|].
  destruct (Nat.eqb_spec k 0) as [|Hk]; [discriminate|].
  destruct (length X <=? 1)%nat; [discriminate|].
  assert (EX : match Y with Some _ => X | None => X end = X) by (destruct Y; reflexivity).
  cbv beta zeta iota delta [mvalue]. rewrite EX. intros H HkX.
  pose proof (radius_stores Euclidean c X (query_points X Y)) as HS. cbv beta zeta iota delta [mvalue] in HS.
  set (rows0 := map (fun y => map (fun p => (fst p, snd p)) (radius_query eu X c y)) (query_points X Y)) in *.
  assert (HC : 0 < c) by lia.
  destruct (match Y with Some _ => (0 <? k)%nat | None => (1 <? k)%nat end) eqn:EA.
  - destruct (ensure_kmin eu knn X Y k (length X) rows0) as [rs|e] eqn:EE; [|discriminate].
    injection H as <- <- <-. exact (ensure_kmin_nearest X Y c rows0 k rs HS HC HkX EE).
  - injection H as <- <- <-. destruct Y as [Y|].
    { apply Nat.ltb_ge in EA. lia. }
    apply Nat.ltb_ge in EA. assert (k = 1)%nat by lia. subst k. cbn in *. split; [apply HS|].
    intros i y Hy. split.
    + exists [i]. split.
      * split; [reflexivity|]. split; [repeat constructor; intros []|].
        split; [intros i' [<-|[]]; apply nth_error_Some; congruence|].
        intros i' j a b [<-|[]] _ Ha Hb. rewrite Hy in Ha. injection Ha as <-. rewrite eu_refl. apply eu_pos.
      * intros j [<-|[]]. exists y. split; [exact Hy|]. destruct HS as [_ HS]. apply (HS i y Hy).
        exists y. split; [exact Hy|]. rewrite eu_refl. split; [lia|reflexivity].
    + exact (stores_true X X c rows0 HS i y Hy).
Qed.

Lemma kmin_succeeds m c k X Y :
  0 < c -> (1 <= k)%nat -> (k <= length X)%nat -> (2 <= length X)%nat ->
  exists st n rows, tree_call eu knn m (Some c) (Some k) None X Y = (st, Ok (Sparse n rows)).
Proof.
  intros Hc Hk HkX HX. unfold tree_call, set_cut_off.
  assert (c =? 0 = false) as -> by (apply Z.eqb_neq; lia).
  assert (c <? 0 = false) as -> by (apply Z.ltb_ge; lia).
  assert ((k =? 0)%nat = false) as -> by (apply Nat.eqb_neq; lia).
  assert ((length X <=? 1)%nat = false) as -> by (apply Nat.leb_gt; lia).
  assert (EX : match Y with Some _ => X | None => X end = X) by (destruct Y; reflexivity). rewrite EX.
  destruct (match Y with Some _ => (0 <? k)%nat | None => (1 <? k)%nat end); [|eauto].
  unfold ensure_kmin. destruct (existsb _ _); [|eauto].
  assert ((length X <? k)%nat = false) as -> by (apply Nat.ltb_ge; lia).
  destruct Y as [Y|]; [|cbn; eauto]. cbn. rewrite map_length, !Nat.eqb_refl. cbn. eauto.
Qed.

End Proofs.

(** ** C34 *)

Section Cache.
Context {P : Type}.
Variable eu : P -> P -> Z.
Variable knn : list P -> P -> nat -> list nat.

Fixpoint state_after m c k (st : option (list P)) (calls : list (list P * option (list P))) : option (list P) :=
  match calls with
  | [] => st
  | (X, Y) :: r => state_after m c k (fst (tree_call eu knn m c k st X Y)) r
  end.

Lemma pairwise_independent m c k st X :
  snd (tree_call eu knn m c k st X None) = snd (tree_call eu knn m c k None X None).
Proof.
  unfold tree_call. destruct (set_cut_off m c) as [cut|e]; [|reflexivity].
  destruct (match k with Some n => (n =? 0)%nat | None => false end); [reflexivity|].
  destruct (length X <=? 1)%nat; [reflexivity|]. reflexivity.
Qed.

Definition ref_of (st : option (list P)) (X : list P) (Y : option (list P)) : list P :=
  match Y, st with Some _, Some r => r | _, _ => X end.

Lemma state_step m c k st X Y cut :
  set_cut_off m c = Ok cut -> match k with Some n => (1 <= n)%nat | None => True end ->
  (2 <= length X)%nat -> fst (tree_call eu knn m c k st X Y) = Some (ref_of st X Y).
Proof.
  intros Hc Hk HX. unfold tree_call. rewrite Hc.
  assert (match k with Some n => (n =? 0)%nat | None => false end = false) as ->.
  { destruct k; [|reflexivity]. apply Nat.eqb_neq. lia. }
  assert ((length X <=? 1)%nat = false) as -> by (apply Nat.leb_gt; lia).
  fold (ref_of st X Y).
  destruct cut, c; cbn;
    repeat match goal with
           | |- context [if ?b then _ else _] => destruct b
           | |- context [match ensure_kmin ?a ?b ?c ?d ?e ?f ?g with _ => _ end] => destruct (ensure_kmin a b c d e f g)
           | |- context [match k with _ => _ end] => destruct k
           end; reflexivity.
Qed.

Lemma state_keeps m c k cut calls : forall R,
  set_cut_off m c = Ok cut -> match k with Some n => (1 <= n)%nat | None => True end ->
  (forall X Y, In (X, Y) calls -> (2 <= length X)%nat /\ Y <> None) ->
  state_after m c k (Some R) calls = Some R.
Proof.
  induction calls as [|[X Y] r IH]; intros R Hc Hk HV; cbn; [reflexivity|].
  destruct (HV X Y (or_introl eq_refl)) as [HX HY].
  rewrite (state_step m c k (Some R) X Y cut Hc Hk HX). destruct Y as [Y|]; [|congruence]. cbn.
  apply IH; [exact Hc|exact Hk|]. intros X' Y' H. apply HV. right. exact H.
Qed.

Lemma state_after_app m c k l1 : forall st l2,
  state_after m c k st (l1 ++ l2) = state_after m c k (state_after m c k st l1) l2.
Proof. induction l1 as [|[X Y] l1 IH]; intros st l2; cbn; [reflexivity|apply IH]. Qed.

Lemma reference_state m c k cut calls R :
  set_cut_off m c = Ok cut -> match k with Some n => (1 <= n)%nat | None => True end ->
  (forall X Y, In (X, Y) calls -> (2 <= length X)%nat) ->
  ReferenceOf calls R -> state_after m c k None calls = Some R.
Proof.
  intros Hc Hk HV (before & Y & after & -> & HY & HA). rewrite state_after_app. cbn.
  rewrite (state_step m c k _ R Y cut Hc Hk) by (apply (HV R Y); apply in_or_app; right; left; reflexivity).
  assert (E : ref_of (state_after m c k None before) R Y = R).
  { destruct HY as [-> | ->]; [reflexivity|]. cbn. unfold ref_of. destruct Y; reflexivity. }
  rewrite E. apply (state_keeps m c k cut); [exact Hc|exact Hk|].
  intros X' Y' H. split; [apply (HV X' Y'); apply in_or_app; right; right; exact H|exact (HA _ H)].
Qed.

Lemma calls_last m c k calls : forall st X Y,
  last (tree_calls eu knn m c k st (calls ++ [(X, Y)])) (Err IndexError)
  = snd (tree_call eu knn m c k (state_after m c k st calls) X Y).
Proof.
  induction calls as [|[X0 Y0] r IH]; intros st X Y; cbn [tree_calls app state_after].
  - destruct (tree_call eu knn m c k st X Y); reflexivity.
  - destruct (tree_call eu knn m c k st X0 Y0) as [s res] eqn:E. cbn [fst].
    rewrite <- (IH s X Y). 
    assert (H : tree_calls eu knn m c k s (r ++ [(X, Y)]) <> []).
    { destruct r as [|[X1 Y1] r']; cbn [app tree_calls].
      - destruct (tree_call eu knn m c k s X Y). discriminate.
      - destruct (tree_call eu knn m c k s X1 Y1). discriminate. }
    destruct (tree_calls eu knn m c k s (r ++ [(X, Y)])); [congruence|reflexivity].
Qed.

Lemma cdist_uses_reference m c calls R X Y :
  (forall X' Y', In (X', Y') calls -> (2 <= length X')%nat) ->
  (2 <= length X)%nat -> ReferenceOf calls R -> 
  last (tree_calls eu knn m c None None (calls ++ [(X, Some Y)])) (Err IndexError)
  = snd (tree_call eu knn m c None None R (Some Y)).
Proof.
  intros HV HX HR. rewrite calls_last. unfold tree_call at 1 2.
  destruct (set_cut_off m c) as [cut|e] eqn:Hc; [|reflexivity].
  rewrite (reference_state m c None cut calls R Hc I HV HR).
  assert ((length X <=? 1)%nat = false) as -> by (apply Nat.leb_gt; lia).
  assert (HR2 : (2 <= length R)%nat).
  { destruct HR as (b & Y0 & a & -> & _). apply (HV R Y0). apply in_or_app. right. left. reflexivity. }
  assert ((length R <=? 1)%nat = false) as -> by (apply Nat.leb_gt; lia).
  reflexivity.
Qed.

Lemma cdist_same_reference m c k calls X Y :
  match k with Some n => (1 <= n)%nat | None => True end ->
  (forall X' Y', In (X', Y') calls -> (2 <= length X')%nat) ->
  ReferenceOf calls X -> 
  last (tree_calls eu knn m c k None (calls ++ [(X, Some Y)])) (Err IndexError)
  = snd (tree_call eu knn m c k None X (Some Y)).
Proof.
  intros Hk HV HR. rewrite calls_last.
  destruct (set_cut_off m c) as [cut|e] eqn:Hc.
  - rewrite (reference_state m c k cut calls X Hc Hk HV HR). unfold tree_call. rewrite Hc.
    destruct (match k with Some n => (n =? 0)%nat | None => false end); [reflexivity|].
    destruct (length X <=? 1)%nat; reflexivity.
  - unfold tree_call. rewrite Hc. reflexivity.
Qed.

End Cache.

(** ** A nearest neighbour query that meets the contract. *)

From Coq Require Import Permutation Sorted.

Section Sort.
Variable key : nat -> Z.

Fixpoint insert_by (i : nat) (l : list nat) : list nat :=
  match l with
  | [] => [i]
  | j :: r => if key i <=? key j then i :: j :: r else j :: insert_by i r
  end.

Lemma insert_perm i l : Permutation (insert_by i l) (i :: l).
Proof.
  induction l as [|j r IH]; cbn; [reflexivity|]. destruct (key i <=? key j); [reflexivity|].
  rewrite IH. apply perm_swap.
Qed.

Lemma insert_sorted i l :
  StronglySorted (fun a b => key a <= key b) l -> StronglySorted (fun a b => key a <= key b) (insert_by i l).
Proof.
  induction l as [|j r IH]; cbn; intros H; [repeat constructor|].
  apply StronglySorted_inv in H. destruct H as [H1 H2]. destruct (Z.leb_spec (key i) (key j)) as [L|L].
  - constructor; [constructor; assumption|]. constructor; [exact L|].
    eapply Forall_impl; [|exact H2]. cbn. intros b Hb. lia.
  - constructor; [apply IH; exact H1|]. rewrite Forall_forall in *. intros b Hb.
    apply (Permutation_in _ (insert_perm i r)) in Hb. destruct Hb as [<-|Hb]; [lia|apply H2; exact Hb].
Qed.

Definition sort_by (l : list nat) : list nat := fold_right insert_by [] l.

Lemma sort_perm l : Permutation (sort_by l) l.
Proof. induction l as [|i l IH]; cbn; [reflexivity|]. rewrite insert_perm, IH. reflexivity. Qed.

Lemma sort_sorted l : StronglySorted (fun a b => key a <= key b) (sort_by l).
Proof. induction l as [|i l IH]; cbn; [constructor|]. apply insert_sorted. exact IH. Qed.

End Sort.

Lemma sorted_split {A : Type} (R : A -> A -> Prop) (l1 l2 : list A) a b :
  StronglySorted R (l1 ++ l2) -> In a l1 -> In b l2 -> R a b.
Proof.
  induction l1 as [|x l1 IH]; cbn; [intros _ []|]. intros H. apply StronglySorted_inv in H. destruct H as [H1 H2].
  intros [<-|Ha] Hb; [|apply IH; assumption]. rewrite Forall_forall in H2. apply H2. apply in_or_app. auto.
Qed.

Section KnnInstance.
Context {P : Type}.
Variable eu : P -> P -> Z.
Variable d0 : P.

Definition sorted_knn (X : list P) (y : P) (k : nat) : list nat :=
  firstn k (sort_by (fun i => eu (nth i X d0) y) (seq 0 (length X))).

Lemma sorted_knn_oracle : KnnOracle eu sorted_knn.
Proof.
  intros X y k Hk. unfold sorted_knn. set (key := fun i => eu (nth i X d0) y).
  set (s := sort_by key (seq 0 (length X))).
  assert (HP : Permutation s (seq 0 (length X))) by apply sort_perm.
  assert (HL : length s = length X) by (rewrite (Permutation_length HP); apply seq_length).
  pose proof (firstn_skipn k s) as ES.
  assert (HN : NoDup s) by (apply (Permutation_NoDup (Permutation_sym HP)); apply seq_NoDup).
  split; [rewrite firstn_length; lia|]. split.
  { rewrite <- ES in HN. clear - HN. revert HN. generalize (skipn k s) (firstn k s). intros l2 l1.
    induction l1 as [|a l1 IH]; intros H; [constructor|]. inversion H as [|? ? H1 H2]; subst.
    constructor; [|apply IH; exact H2]. intros Hin. apply H1. apply in_or_app. auto. }
  split.
  - intros i Hi. assert (In i s) by (rewrite <- ES; apply in_or_app; auto).
    apply (Permutation_in _ HP) in H. apply in_seq in H. lia.
  - intros i j a b Hi Hj Ha Hb.
    assert (Hjs : In j s).
    { apply (Permutation_in _ (Permutation_sym HP)). apply in_seq.
      assert (j < length X)%nat by (apply nth_error_Some; congruence). lia. }
    rewrite <- ES in Hjs. apply in_app_or in Hjs. destruct Hjs as [|Hjs]; [contradiction|].
    pose proof (sort_sorted key (seq 0 (length X))) as HS. fold s in HS. rewrite <- ES in HS.
    pose proof (sorted_split _ _ _ i j HS Hi Hjs) as HR. cbn in HR. unfold key in HR.
    rewrite (nth_error_nth X i d0 Ha), (nth_error_nth X j d0 Hb) in HR. exact HR.
Qed.

End KnnInstance.
