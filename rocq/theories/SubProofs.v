(** * Proofs: subsampling and removal of outliers. *)

From Coq Require Import List ZArith Bool Arith Lia Permutation Sorted.
Import ListNotations.
From Verif Require Import Np DistModel DistSpec DistProofs SubModel SubSpec.
Open Scope Z_scope.

(** ** lists *)

Lemma nth_error_ext {A} (l : list A) : forall m, (forall p, nth_error l p = nth_error m p) -> l = m.
Proof.
  induction l as [|a l IH]; intros [|b m] H; [reflexivity| | |].
  - discriminate (H O).
  - discriminate (H O).
  - assert (E := H O). cbn in E. injection E as ->. f_equal. apply IH. intros p. exact (H (S p)).
Qed.

Lemma mask_filter {A} (f : A -> bool) (l : list A) : mask_select (map f l) l = filter f l.
Proof. unfold mask_select. induction l as [|a l IH]; cbn; [reflexivity|]. destruct (f a); cbn; rewrite IH; reflexivity. Qed.

Lemma concat_chunks {A} sizes : forall (l : list A), length l = list_sum sizes -> concat (chunks sizes l) = l.
Proof.
  induction sizes as [|s r IH]; intros l H; [destruct l; [reflexivity|discriminate]|]. cbn [chunks concat].
  change (list_sum (s :: r)) with (s + list_sum r)%nat in H.
  rewrite IH; [apply firstn_skipn|]. rewrite skipn_length. lia.
Qed.

Lemma list_sum_repeat a n : list_sum (repeat a n) = (n * a)%nat.
Proof. induction n as [|n IH]; [reflexivity|]. change (list_sum (repeat a (S n))) with (a + list_sum (repeat a n))%nat. rewrite IH. reflexivity. Qed.

Lemma chunks_length {A} sizes : forall (l : list A), length (chunks sizes l) = length sizes.
Proof. induction sizes as [|s r IH]; intros l; cbn; [reflexivity|]. rewrite IH. reflexivity. Qed.

Lemma chunks_sizes {A} sizes : forall (l : list A), length l = list_sum sizes -> map (@length A) (chunks sizes l) = sizes.
Proof.
  induction sizes as [|s r IH]; intros l H; [reflexivity|]. cbn [chunks map].
  change (list_sum (s :: r)) with (s + list_sum r)%nat in H. rewrite firstn_length, IH by (rewrite skipn_length; lia).
  f_equal. lia.
Qed.

Lemma split_sizes {A} k (l : list A) : (0 < k)%nat ->
  length l = list_sum (repeat (S (length l / k)) (length l mod k) ++ repeat (length l / k)%nat (k - length l mod k)).
Proof.
  intros Hk. rewrite list_sum_app, !list_sum_repeat. assert (H := Nat.div_mod (length l) k ltac:(lia)).
  assert (H2 := Nat.mod_upper_bound (length l) k ltac:(lia)).
  rewrite Nat.mul_sub_distr_r. assert (length l mod k * (length l / k) <= k * (length l / k))%nat by (apply Nat.mul_le_mono_r; lia). lia.
Qed.

Lemma array_split_into {A} k (l : list A) : (0 < k)%nat -> SplitInto k l (array_split k l).
Proof.
  intros Hk. unfold array_split. assert (HS := split_sizes k l Hk). set (sizes := repeat _ _ ++ _) in *. split; [|split].
  - rewrite chunks_length. unfold sizes. rewrite app_length, !repeat_length. assert (H := Nat.mod_upper_bound (length l) k ltac:(lia)). lia.
  - apply concat_chunks. exact HS.
  - intros b Hb. apply (in_map (@length A)) in Hb. rewrite (chunks_sizes sizes l HS) in Hb. unfold sizes in Hb. apply in_app_iff in Hb.
    destruct Hb as [Hb|Hb]; apply repeat_spec in Hb; auto.
Qed.

Lemma array_split_first {A} k (l : list A) b bs : (0 < k < length l)%nat -> array_split k l = b :: bs -> (2 <= length b)%nat.
Proof.
  intros Hk E. unfold array_split in E. assert (HS := split_sizes k l ltac:(lia)). set (sizes := repeat _ _ ++ _) in *.
  assert (H := chunks_sizes sizes l HS). rewrite E in H. cbn in H.
  assert (D := Nat.div_mod (length l) k ltac:(lia)).
  assert (M := Nat.mod_upper_bound (length l) k ltac:(lia)).
  unfold sizes in H. clear sizes HS E. revert D M H. generalize (length l / k)%nat (length l mod k)%nat. intros q r D M H.
  destruct r as [|r].
  - cbn [repeat app] in H. destruct k as [|k']; [lia|]. cbn [Nat.sub repeat] in H. injection H as H _. rewrite H.
    destruct q as [|[|q]]; [rewrite Nat.mul_0_r in D|rewrite Nat.mul_1_r in D|]; lia.
  - cbn [repeat app] in H. injection H as H _. rewrite H. destruct q as [|q]; [rewrite Nat.mul_0_r in D|]; lia.
Qed.

(** ** the selection of one block *)

Section Sub.
Context {P : Type}.
Variable eu : P -> P -> Z.
Hypothesis eu_pos : forall x y, 0 <= eu x y.
Variable inv : Z.
Hypothesis inv_neg : inv < 0.

Definition valid (X : list P) (idx : list nat) : Prop := forall i, In i idx -> (i < length X)%nat.

Lemma points_at_ok (X : list P) idx : valid X idx -> PointsAt X idx (points_at X idx).
Proof.
  unfold PointsAt, points_at. induction idx as [|i idx IH]; intros Hv; [constructor|]. cbn [flat_map]. unfold point_at at 1.
  destruct (nth_error X i) as [x|] eqn:E.
  - cbn [app]. constructor; [exact E|]. apply IH. intros j Hj. apply Hv. right. exact Hj.
  - apply nth_error_None in E. specialize (Hv i (or_introl eq_refl)). lia.
Qed.

Lemma points_at_nth (X : list P) idx p : valid X idx ->
  nth_error (points_at X idx) p = match nth_error idx p with Some i => nth_error X i | None => None end.
Proof.
  intros Hv. assert (H := points_at_ok X idx Hv). unfold PointsAt in H. revert p. induction H as [|i x idx pts Hi HF IH]; intros [|p]; cbn; try reflexivity.
  - symmetry. exact Hi.
  - apply IH. intros j Hj. apply Hv. right. exact Hj.
Qed.

Lemma points_at_length (X : list P) idx : valid X idx -> length (points_at X idx) = length idx.
Proof. intros Hv. assert (H := points_at_ok X idx Hv). unfold PointsAt in H. induction H; cbn; [reflexivity|]. rewrite IHForall2; [reflexivity|]. intros j Hj. apply Hv. right. exact Hj. Qed.

Definition farb (X : list P) (c : Z) (j i : nat) : bool :=
  match nth_error X j, nth_error X i with Some x, Some y => c <=? eu x y | _, _ => true end.

Lemma fold_min_le l : forall v, fold_left Z.min l v <= v /\ forall w, In w l -> fold_left Z.min l v <= w.
Proof.
  induction l as [|a l IH]; intros v; cbn; [split; [lia|easy]|]. destruct (IH (Z.min v a)) as (H1 & H2). split; [lia|].
  intros w [<-|Hw]; [lia|apply H2; exact Hw].
Qed.

Lemma sparse_min_le n row j v : In (j, v) row -> sparse_min n row <= v.
Proof.
  intros H. unfold sparse_min. generalize (if (length row <? n)%nat then [0] else []). intros e. apply (in_map snd) in H. cbn in H.
  destruct (map snd row) as [|w r]; [destruct H|]. cbn [app]. destruct (fold_min_le (r ++ e) w) as (H1 & H2).
  destruct H as [<-|H]; [exact H1|]. apply H2. apply in_app_iff. left. exact H.
Qed.

(** The mask of a block. *)
Lemma block_mask (X : list P) c sub b : 0 < c -> valid X sub -> valid X b -> (2 <= length sub)%nat ->
  exists n rows, brute_call eu inv Euclidean (Some c) (points_at X sub) (Some (points_at X b)) = Ok (Sparse n rows) /\
    map (fun row => (length row =? 0)%nat || (c <=? sparse_min n row)) rows = map (fun i => forallb (fun j => farb X c j i) sub) b.
Proof.
  intros Hc Hs Hb H2.
  destruct (brute_call eu inv Euclidean (Some c) (points_at X sub) (Some (points_at X b))) as [[D|n rows]|e] eqn:E.
  1,3: exfalso; unfold brute_call, set_cut_off in E; destruct (Z.eqb_spec c 0) as [|_]; [lia|]; destruct (Z.ltb_spec c 0) as [|_]; [lia|]; cbn [bind] in E;
    rewrite points_at_length in E by assumption; destruct (Nat.leb_spec (length sub) 1) as [|_]; [lia|]; discriminate.
  exists n, rows. split; [reflexivity|]. destruct (brute_stores eu eu_pos inv Euclidean c _ _ _ _ inv_neg E) as (_ & _ & HL & HR).
  cbn [query_points] in HL, HR. rewrite points_at_length in HL by assumption. apply nth_error_ext. intros p.
  rewrite !nth_error_map. destruct (nth_error b p) as [i|] eqn:Ei.
  - assert (Lp : (p < length b)%nat) by (apply nth_error_Some; congruence).
    assert (Vi := Hb i (nth_error_In _ _ Ei)). destruct (nth_error X i) as [y|] eqn:Ey; [|apply nth_error_None in Ey; lia].
    destruct (HR p y) as (_ & HE). { rewrite points_at_nth by assumption. rewrite Ei. exact Ey. }
    unfold row_of in HE. rewrite (nth_error_nth' rows [] (n := p)) by lia. cbn [option_map]. f_equal.
    set (row := nth p rows []) in *.
    destruct (forallb (fun j => farb X c j i) sub) eqn:Ef.
    + assert (row = []).
      { destruct row as [|[q v] row]; [reflexivity|]. exfalso. destruct (proj1 (HE q v) (or_introl eq_refl)) as (x & Hx & Hlt & _).
        rewrite points_at_nth in Hx by assumption. destruct (nth_error sub q) as [j|] eqn:Ej; [|discriminate].
        rewrite forallb_forall in Ef. specialize (Ef j (nth_error_In _ _ Ej)). unfold farb in Ef. rewrite Hx, Ey in Ef. lia. }
      rewrite H. reflexivity.
    + assert (Hex : exists j, In j sub /\ farb X c j i = false).
      { clear - Ef. induction sub as [|j sub IH]; [discriminate|]. cbn in Ef. destruct (farb X c j i) eqn:E.
        - destruct (IH Ef) as (k & Hk & Ek). exists k. split; [right; exact Hk|exact Ek].
        - exists j. split; [left; reflexivity|exact E]. }
      destruct Hex as (j & Hj & Ej). unfold farb in Ej. rewrite Ey in Ej. destruct (nth_error X j) as [x|] eqn:Ex; [|discriminate].
      apply In_nth_error in Hj. destruct Hj as (q & Hq).
      assert (Hin : In (q, eu x y) row).
      { apply HE. exists x. split; [rewrite points_at_nth by assumption; rewrite Hq; exact Ex|]. split; [lia|reflexivity]. }
      assert (Hm := sparse_min_le n row q _ Hin). destruct row as [|e row]; [destruct Hin|]. cbn [length Nat.eqb orb]. lia.
  - apply nth_error_None in Ei. assert (E2 : nth_error rows p = None) by (apply nth_error_None; lia). rewrite E2. reflexivity.
Qed.

Definition select (X : list P) (c : Z) (sub b : list nat) : list nat := filter (fun i => forallb (fun j => farb X c j i) sub) b.

Lemma scan_cons (X : list P) c a sub b rest : 0 < c -> valid X sub -> valid X b -> (2 <= length sub)%nat ->
  scan eu inv X (Some c) a sub (b :: rest) =
  if Z.of_nat (length (select X c sub b)) <=? a then Ok (sub ++ select X c sub b) else scan eu inv X (Some c) a (sub ++ select X c sub b) rest.
Proof.
  intros Hc Hs Hb H2. destruct (block_mask X c sub b Hc Hs Hb H2) as (n & rows & E & EM). cbn [scan]. rewrite E. cbn [bind].
  rewrite EM, mask_filter. reflexivity.
Qed.

Lemma scan_short (X : list P) c a sub b rest : 0 < c -> valid X sub -> (length sub <= 1)%nat ->
  scan eu inv X (Some c) a sub (b :: rest) = Err ValueError.
Proof.
  intros Hc Hs H1. cbn [scan]. unfold brute_call, set_cut_off. destruct (Z.eqb_spec c 0) as [|_]; [lia|]. destruct (Z.ltb_spec c 0) as [|_]; [lia|].
  cbn [bind]. rewrite points_at_length by assumption. destruct (Nat.leb_spec (length sub) 1); [reflexivity|lia].
Qed.

(** The parts selected from the blocks that were scanned. *)
Lemma scan_parts (X : list P) c a : 0 < c -> forall blocks sub S, valid X sub -> (forall b, In b blocks -> valid X b) ->
  scan eu inv X (Some c) a sub blocks = Ok S ->
  exists sels, (length sels <= length blocks)%nat /\ S = sub ++ concat sels /\
    (forall k s, nth_error sels k = Some s -> exists b, nth_error blocks k = Some b /\ s = select X c (sub ++ concat (firstn k sels)) b) /\
    (length sels = length blocks \/ exists s, sels <> [] /\ nth_error sels (length sels - 1) = Some s /\ Z.of_nat (length s) <= a).
Proof.
  intros Hc. induction blocks as [|b rest IH]; intros sub S Hs Hb H.
  - cbn in H. injection H as <-. exists []. cbn. rewrite app_nil_r. split; [lia|]. split; [reflexivity|]. split; [intros [|k] s; discriminate|auto].
  - destruct (le_lt_dec (length sub) 1) as [H1|H1]; [rewrite scan_short in H by assumption; discriminate|].
    rewrite scan_cons in H; [|exact Hc|exact Hs|apply Hb; left; reflexivity|lia].
    set (s := select X c sub b) in *. destruct (Z.leb_spec (Z.of_nat (length s)) a) as [Ha|Ha].
    + injection H as <-. exists [s]. cbn [length concat]. rewrite app_nil_r. split; [lia|]. split; [reflexivity|]. split.
      * intros [|[|k]] s' E; try discriminate. injection E as <-. exists b. split; [reflexivity|]. cbn. rewrite app_nil_r. reflexivity.
      * right. exists s. split; [discriminate|]. split; [reflexivity|exact Ha].
    + apply IH in H.
      * destruct H as (sels & L & -> & Hk & Hend). exists (s :: sels). cbn [length concat]. split; [lia|]. split; [rewrite app_assoc; reflexivity|]. split.
        -- intros [|k] s' E; cbn in E.
           ++ injection E as <-. exists b. split; [reflexivity|]. cbn. rewrite app_nil_r. reflexivity.
           ++ destruct (Hk k s' E) as (b' & Eb & ->). exists b'. split; [exact Eb|]. cbn [firstn concat]. rewrite app_assoc. reflexivity.
        -- destruct Hend as [Hend|(s' & Hne & E & Ha')]; [left; cbn; lia|]. right. exists s'. split; [discriminate|]. split; [|exact Ha'].
           destruct sels as [|s0 sels]; [congruence|]. cbn [length] in *. rewrite Nat.sub_succ, Nat.sub_0_r in *. exact E.
      * intros i Hi. apply in_app_iff in Hi. destruct Hi as [Hi|Hi]; [apply Hs; exact Hi|]. apply (Hb b (or_introl eq_refl)).
        apply filter_In in Hi. apply Hi.
      * intros b' Hb'. apply Hb. right. exact Hb'.
Qed.

Lemma scan_total (X : list P) c a : 0 < c -> forall blocks sub, valid X sub -> (forall b, In b blocks -> valid X b) -> (2 <= length sub)%nat ->
  exists S, scan eu inv X (Some c) a sub blocks = Ok S.
Proof.
  intros Hc. induction blocks as [|b rest IH]; intros sub Hs Hb H2; [exists sub; reflexivity|].
  rewrite scan_cons; [|exact Hc|exact Hs|apply Hb; left; reflexivity|lia]. destruct (_ <=? a); [eexists; reflexivity|]. apply IH.
  - intros i Hi. apply in_app_iff in Hi. destruct Hi as [Hi|Hi]; [apply Hs; exact Hi|]. apply (Hb b (or_introl eq_refl)).
    apply filter_In in Hi. apply Hi.
  - intros b' Hb'. apply Hb. right. exact Hb'.
  - rewrite app_length. lia.
Qed.

(** ** the whole subsample *)

Lemma nth_firstn_concat {A} (ls : list (list A)) k l s x : (k < l)%nat -> nth_error ls k = Some s -> In x s -> In x (concat (firstn l ls)).
Proof.
  revert k l. induction ls as [|a ls IH]; intros [|k] [|l] Hl E Hx; try lia; try discriminate; cbn in *.
  - injection E as ->. apply in_app_iff. left. exact Hx.
  - apply in_app_iff. right. apply (IH k l); [lia|assumption..].
Qed.

Lemma in_concat_nth {A} (ls : list (list A)) x : In x (concat ls) <-> exists k s, nth_error ls k = Some s /\ In x s.
Proof.
  rewrite in_concat. split.
  - intros (s & Hs & Hx). apply In_nth_error in Hs. destruct Hs as (k & Hk). exists k, s. auto.
  - intros (k & s & Hk & Hx). exists s. split; [apply (nth_error_In _ _ Hk)|exact Hx].
Qed.

Lemma nodup_app {A} (l m : list A) : NoDup (l ++ m) <-> NoDup l /\ NoDup m /\ forall x, In x l -> ~ In x m.
Proof.
  induction l as [|a l IH]; cbn; [split; [intros H; repeat split; [constructor|exact H|easy]|easy]|]. split.
  - intros H. inversion H as [|? ? H1 H2]; subst. apply IH in H2. destruct H2 as (H2 & H3 & H4). rewrite in_app_iff in H1.
    repeat split; [constructor; [tauto|exact H2]|exact H3|]. intros x [<-|Hx]; [tauto|apply H4; exact Hx].
  - intros (H1 & H2 & H3). inversion H1 as [|? ? H4 H5]; subst. constructor.
    + rewrite in_app_iff. intros [H|H]; [contradiction|]. apply (H3 a); auto.
    + apply IH. repeat split; [exact H5|exact H2|]. intros x Hx. apply H3. right. exact Hx.
Qed.

Lemma block_unique {A} (bs : list (list A)) : NoDup (concat bs) -> forall k l b b' x,
  nth_error bs k = Some b -> nth_error bs l = Some b' -> In x b -> In x b' -> k = l.
Proof.
  induction bs as [|a bs IH]; intros Hnd [|k] [|l] b b' x E E' Hx Hx'; try discriminate; [reflexivity| | |].
  - cbn in *. injection E as ->. apply nodup_app in Hnd. exfalso. apply (proj2 (proj2 Hnd) x Hx). apply in_concat_nth. exists l, b'. auto.
  - cbn in *. injection E' as ->. apply nodup_app in Hnd. exfalso. apply (proj2 (proj2 Hnd) x Hx'). apply in_concat_nth. exists k, b. auto.
  - cbn in *. apply nodup_app in Hnd. f_equal. apply (IH (proj1 (proj2 Hnd)) k l b b' x); assumption.
Qed.

Lemma parts_nodup {A} (bs : list (list A)) : forall sels, (forall k s, nth_error sels k = Some s -> exists b f, nth_error bs k = Some b /\ s = filter f b) ->
  NoDup (concat bs) -> NoDup (concat sels) /\ incl (concat sels) (concat bs).
Proof.
  induction bs as [|b bs IH]; intros [|s sels] H Hnd; try (split; [constructor|easy]).
  - destruct (H O s eq_refl) as (b & f & E & _). discriminate.
  - cbn [concat] in *. apply nodup_app in Hnd. destruct Hnd as (N1 & N2 & N3).
    destruct (IH sels) as (H1 & H2); [intros k; exact (H (S k))|exact N2|].
    destruct (H O s eq_refl) as (b0 & f & E & ->). cbn in E. injection E as <-.
    split.
    + apply nodup_app. split; [apply NoDup_filter; exact N1|]. split; [exact H1|]. intros x Hx Hx'. apply filter_In in Hx. apply (N3 x (proj1 Hx)), H2, Hx'.
    + intros x Hx. apply in_app_iff in Hx. apply in_app_iff. destruct Hx as [Hx|Hx]; [left; apply filter_In in Hx; apply Hx|right; apply H2; exact Hx].
Qed.

Lemma farb_far (X : list P) c j i : farb X c j i = true -> Far eu X c j i.
Proof. unfold farb, Far. intros H x y Ex Ey. rewrite Ex, Ey in H. lia. Qed.

Lemma farb_near (X : list P) c j i : farb X c j i = false -> Near eu X c j i.
Proof.
  unfold farb, Near. destruct (nth_error X j) as [x|]; [|discriminate]. destruct (nth_error X i) as [y|]; [|discriminate].
  intros H. exists x, y. repeat split. lia.
Qed.

Lemma scan_subsampled (X : list P) c a first rest S : (forall x y, eu x y = eu y x) -> 0 < c ->
  NoDup (concat (first :: rest)) -> (forall i, In i (concat (first :: rest)) -> (i < length X)%nat) ->
  scan eu inv X (Some c) a first rest = Ok S ->
  exists m, (1 <= m <= length (first :: rest))%nat /\ Subsampled eu X c (first :: rest) m S /\ StoppedAfter (first :: rest) m a S.
Proof.
  intros Hsym Hc Hnd Hv H.
  assert (Hb : forall b, In b rest -> valid X b).
  { intros b Hb i Hi. apply Hv. cbn. apply in_app_iff. right. apply in_concat. exists b. auto. }
  assert (Hf : valid X first) by (intros i Hi; apply Hv; cbn; apply in_app_iff; left; exact Hi).
  destruct (scan_parts X c a Hc rest first S Hf Hb H) as (sels & HL & ES & HK & HE).
  set (bs := first :: rest) in *. set (parts := first :: sels).
  assert (EP : S = concat parts) by (rewrite ES; reflexivity).
  assert (HP : forall k s, nth_error parts k = Some s -> exists b f, nth_error bs k = Some b /\ s = filter f b).
  { intros [|k] s E; cbn in E.
    - injection E as <-. exists first, (fun _ => true). split; [reflexivity|]. clear. induction first as [|a l IH]; cbn; [reflexivity|]. f_equal. exact IH.
    - destruct (HK k s E) as (b & Eb & ->). exists b. eexists. split; [exact Eb|]. unfold select. reflexivity. }
  assert (HM : forall k b i, nth_error bs k = Some b -> In i b -> In i S -> exists s, nth_error parts k = Some s /\ In i s).
  { intros k b i Eb Hi HS. rewrite EP in HS. apply in_concat_nth in HS. destruct HS as (k' & s & Es & Hs).
    destruct (HP k' s Es) as (b' & f & Eb' & ->). apply filter_In in Hs as Hs'.
    assert (k = k') by (apply (block_unique bs Hnd k k' b b' i); tauto). subst k'. exists (filter f b'). auto. }
  assert (HFAR : forall k l bk bl i j, (k < l)%nat -> nth_error bs k = Some bk -> nth_error bs l = Some bl ->
    In i bk -> In j bl -> In i S -> In j S -> Far eu X c i j).
  { intros k l bk bl i j Hkl Ek El Hi Hj HiS HjS. destruct (HM k bk i Ek Hi HiS) as (s & Es & His). destruct (HM l bl j El Hj HjS) as (s' & Es' & Hjs).
    destruct l as [|l]; [lia|]. cbn in Es'. destruct (HK l s' Es') as (b & _ & ->). apply filter_In in Hjs. destruct Hjs as (_ & Hjs).
    rewrite forallb_forall in Hjs. apply farb_far, Hjs.
    change (first ++ concat (firstn l sels)) with (concat (firstn (Datatypes.S l) parts)). apply (nth_firstn_concat parts k (Datatypes.S l) s i); assumption. }
  exists (Datatypes.S (length sels)). split; [cbn; lia|]. split.
  - constructor.
    + rewrite EP. apply (parts_nodup bs parts HP Hnd).
    + intros b Eb. cbn in Eb. injection Eb as <-. intros i Hi. rewrite ES. apply in_app_iff. left. exact Hi.
    + intros i Hi. rewrite EP in Hi. apply in_concat_nth in Hi. destruct Hi as (k & s & Es & Hs). destruct (HP k s Es) as (b & f & Eb & ->).
      exists k, b. split; [|split; [exact Eb|apply filter_In in Hs; apply Hs]].
      assert (k < length parts)%nat by (apply nth_error_Some; congruence). exact H0.
    + intros k l bk bl i j Hne Ek El Hi Hj HiS HjS. destruct (lt_eq_lt_dec k l) as [[Hlt|Heq]|Hgt]; [|contradiction|].
      * apply (HFAR k l bk bl); assumption.
      * intros x y Ex Ey. rewrite Hsym. apply (HFAR l k bl bk j i); assumption.
    + intros k b i Hk Eb Hi. destruct k as [|k].
      * left. cbn in Eb. injection Eb as <-. rewrite ES. apply in_app_iff. left. exact Hi.
      * destruct (nth_error sels k) as [s|] eqn:Es; [|apply nth_error_None in Es; lia]. destruct (HK k s Es) as (b' & Eb' & E).
        change (nth_error rest k = Some b) in Eb. rewrite Eb in Eb'. injection Eb' as <-.
        destruct (forallb (fun j => farb X c j i) (first ++ concat (firstn k sels))) eqn:Ef.
        -- left. rewrite ES. apply in_app_iff. right. apply in_concat_nth. exists k, s. split; [exact Es|]. rewrite E. apply filter_In. auto.
        -- right. assert (Hex : exists j, In j (first ++ concat (firstn k sels)) /\ farb X c j i = false).
           { clear - Ef. induction (first ++ concat (firstn k sels)) as [|j l IH]; [discriminate|]. cbn in Ef. destruct (farb X c j i) eqn:E.
             - destruct (IH Ef) as (q & Hq & Eq). exists q. split; [right; exact Hq|exact Eq].
             - exists j. split; [left; reflexivity|exact E]. }
           destruct Hex as (j & Hj & Ej). exists j. split; [|apply farb_near; exact Ej].
           rewrite ES. apply in_app_iff. apply in_app_iff in Hj. destruct Hj as [Hj|Hj]; [left; exact Hj|right].
           rewrite <- (firstn_skipn k sels), concat_app. apply in_app_iff. left. exact Hj.
  - destruct HE as [HE|(s & Hne & Es & Ha)]; [left; cbn; lia|]. right.
    assert (Ls : (1 <= length sels)%nat) by (clear - Hne; destruct sels; [congruence|cbn; lia]).
    destruct (HK (length sels - 1)%nat s Es) as (b & Eb & E). exists b, s.
    assert (Eb' : nth_error bs (length sels) = Some b).
    { replace (length sels) with (Datatypes.S (length sels - 1)) by lia. exact Eb. }
    assert (Es' : nth_error parts (length sels) = Some s).
    { replace (length sels) with (Datatypes.S (length sels - 1)) by lia. exact Es. }
    split; [rewrite Nat.sub_succ, Nat.sub_0_r; exact Eb'|]. split; [cbn; lia|]. split.
    { assert (Hn := proj1 (parts_nodup bs parts HP Hnd)). clear - Hn Es'. revert Es' Hn. generalize (length sels) as k. generalize parts.
      intros ls. induction ls as [|x ls IH]; intros [|k] E Hn; try discriminate; cbn in *; apply nodup_app in Hn.
      - injection E as ->. apply Hn.
      - apply (IH k E). apply Hn. }
    split; [|exact Ha]. intros i. split.
    + intros Hi. split; [rewrite E in Hi; apply filter_In in Hi; apply Hi|]. rewrite EP. apply in_concat_nth. exists (length sels), s. auto.
    + intros (Hi & HiS). destruct (HM _ b i Eb' Hi HiS) as (s' & Es2 & Hi'). rewrite Es' in Es2. injection Es2 as <-. exact Hi'.
Qed.

(** pcm_subsample *)
Lemma subsample_ok perm (X : list P) cut n c a pts S : Permutes perm -> (forall x y, eu x y = eu y x) -> 0 < c ->
  pcm_subsample eu inv perm X cut n (Some (Some c)) a = Ok (pts, S) ->
  PointsAt X S pts /\ exists bs m, SplitInto (Z.to_nat (Z.of_nat (length X) / n + 1)) (perm (length X)) bs /\
    (1 <= m <= length bs)%nat /\ Subsampled eu X c bs m S /\ StoppedAfter bs m a S.
Proof.
  intros HP Hsym Hc. unfold pcm_subsample. destruct (Z.eqb_spec n 0) as [|Hn]; [discriminate|].
  destruct (Z.leb_spec (Z.of_nat (length X) / n + 1) 0) as [|Hk]; [discriminate|].
  set (k := Z.to_nat (Z.of_nat (length X) / n + 1)). assert (HS := array_split_into k (perm (length X)) ltac:(lia)).
  destruct (array_split k (perm (length X))) as [|first rest] eqn:E; [discriminate|].
  destruct (scan eu inv X (Some c) a first rest) as [S'|] eqn:ES; [|discriminate]. cbn [bind]. intros H. injection H as <- <-.
  assert (EC := proj1 (proj2 HS)).
  assert (Hnd : NoDup (concat (first :: rest))).
  { rewrite EC. apply (Permutation_NoDup (Permutation_sym (HP (length X)))). apply seq_NoDup. }
  assert (Hv : forall i, In i (concat (first :: rest)) -> (i < length X)%nat).
  { intros i Hi. rewrite EC in Hi. apply (Permutation_in _ (HP (length X))) in Hi. apply in_seq in Hi. lia. }
  destruct (scan_subsampled X c a first rest S' Hsym Hc Hnd Hv ES) as (m & Hm & HSub & HStop). split.
  - apply points_at_ok. intros i Hi. destruct (ss_scanned _ _ _ _ _ _ HSub i Hi) as (q & b & _ & Eb & Hb). apply Hv. apply in_concat_nth. exists q, b. auto.
  - exists (first :: rest), m. auto.
Qed.

Lemma subsample_accepts perm (X : list P) cut n c a : Permutes perm -> (3 <= length X)%nat -> 2 <= n -> 0 < c ->
  exists r, pcm_subsample eu inv perm X cut n (Some (Some c)) a = Ok r.
Proof.
  intros HP HX Hn Hc. unfold pcm_subsample. destruct (Z.eqb_spec n 0) as [|_]; [lia|].
  assert (Hd : 0 <= Z.of_nat (length X) / n <= Z.of_nat (length X) / 2).
  { split; [apply Z.div_pos; lia|]. apply Z.div_le_compat_l; lia. }
  assert (H2 : Z.of_nat (length X) / 2 + 1 < Z.of_nat (length X)).
  { assert (H := Z.div_mod (Z.of_nat (length X)) 2 ltac:(lia)). assert (H' := Z.mod_pos_bound (Z.of_nat (length X)) 2 ltac:(lia)). lia. }
  destruct (Z.leb_spec (Z.of_nat (length X) / n + 1) 0) as [|_]; [lia|].
  set (k := Z.to_nat (Z.of_nat (length X) / n + 1)). assert (LP : length (perm (length X)) = length X).
  { rewrite (Permutation_length (HP (length X))). apply seq_length. }
  assert (HS := array_split_into k (perm (length X)) ltac:(lia)).
  destruct (array_split k (perm (length X))) as [|first rest] eqn:E; [destruct HS as (HS & _); cbn in HS; lia|].
  assert (Hv : forall i, In i (concat (first :: rest)) -> (i < length X)%nat).
  { intros i Hi. rewrite (proj1 (proj2 HS)) in Hi. apply (Permutation_in _ (HP (length X))) in Hi. apply in_seq in Hi. lia. }
  destruct (scan_total X c a Hc rest first) as (S & ES).
  - intros i Hi. apply Hv. cbn. apply in_app_iff. left. exact Hi.
  - intros b Hb i Hi. apply Hv. cbn. apply in_app_iff. right. apply in_concat. exists b. auto.
  - apply (array_split_first k (perm (length X)) first rest); [lia|exact E].
  - rewrite ES. eexists. reflexivity.
Qed.

(** Complete scans cover the point cloud. *)
Lemma covers perm (X : list P) k c bs S : Permutes perm -> SplitInto k (perm (length X)) bs ->
  Subsampled eu X c bs (length bs) S -> Covers eu X c S.
Proof.
  intros HP (_ & EC & _) HS i Hi. assert (Hin : In i (concat bs)).
  { rewrite EC. apply (Permutation_in _ (Permutation_sym (HP (length X)))). apply in_seq. lia. }
  apply in_concat_nth in Hin. destruct Hin as (q & b & Eb & Hb). apply (ss_covered _ _ _ _ _ _ HS q b i); [|exact Eb|exact Hb].
  apply nth_error_Some. congruence.
Qed.

Lemma subsample_covers perm (X : list P) cut n c a pts S : Permutes perm -> (forall x y, eu x y = eu y x) -> 0 < c -> a < 0 ->
  pcm_subsample eu inv perm X cut n (Some (Some c)) a = Ok (pts, S) -> Covers eu X c S.
Proof.
  intros HP Hsym Hc Ha H. destruct (subsample_ok perm X cut n c a pts S HP Hsym Hc H) as (_ & bs & m & HS & Hm & HSub & [->|(b & l & _ & _ & _ & _ & Hl)]); [|lia].
  apply (covers perm X _ c bs S HP HS HSub).
Qed.

(** More samples per block than points: everything is returned. *)
Lemma subsample_all perm (X : list P) cut n md a : Permutes perm -> Z.of_nat (length X) < n ->
  pcm_subsample eu inv perm X cut n md a = Ok (points_at X (perm (length X)), perm (length X)).
Proof.
  intros HP Hn. unfold pcm_subsample. destruct (Z.eqb_spec n 0) as [|_]; [lia|]. rewrite Z.div_small by lia.
  change (0 + 1 <=? 0) with false. change (Z.to_nat (0 + 1)) with 1%nat. unfold array_split. rewrite Nat.div_1_r, Nat.mod_1_r.
  cbn [repeat app Nat.sub chunks].
  rewrite firstn_all. reflexivity.
Qed.

End Sub.

(** ** outliers *)

Section Out.
Context {P : Type}.
Variable eu : P -> P -> Z.
Variable inv : Z.
Variable knn : list P -> P -> nat -> list nat.

Lemma mask_seq {A} (g : A -> bool) (X : list A) : forall k,
  StronglySorted lt (mask_select (map g X) (seq k (length X))) /\
  forall i, In i (mask_select (map g X) (seq k (length X))) <-> (k <= i)%nat /\ exists x, nth_error X (i - k) = Some x /\ g x = true.
Proof.
  unfold mask_select. induction X as [|x X IH]; intros k; cbn [map length seq combine filter fst].
  - split; [constructor|]. intros i. split; [intros []|]. intros (_ & x & H & _). destruct (i - k)%nat; discriminate.
  - destruct (IH (S k)) as (H1 & H2).
    assert (HI : forall i, In i (map snd (filter (fun p : bool * nat => fst p) (combine (map g X) (seq (S k) (length X))))) <->
       (S k <= i)%nat /\ exists y, nth_error (x :: X) (i - k) = Some y /\ g y = true).
    { intros i. rewrite H2. split; intros (Hk & y & E & Hg); (split; [exact Hk|]); exists y; (split; [|exact Hg]).
      - replace (i - k)%nat with (S (i - S k)) by lia. exact E.
      - replace (i - k)%nat with (S (i - S k)) in E by lia. exact E. }
    destruct (g x) eqn:Eg; cbn [map snd]; split.
    + constructor; [exact H1|]. apply Forall_forall. intros i Hi. apply H2 in Hi. lia.
    + intros i. cbn [In]. rewrite HI. split.
      * intros [<-|(Hk & H)]; [split; [lia|]; exists x; rewrite Nat.sub_diag; auto|split; [lia|exact H]].
      * intros (Hk & y & E & Hg). destruct (Nat.eq_dec k i) as [->|Hne]; [left; reflexivity|right]. split; [lia|]. exists y. auto.
    + exact H1.
    + intros i. rewrite HI. split; intros (Hk & y & E & Hg).
      * split; [lia|]. exists y. auto.
      * destruct (Nat.eq_dec k i) as [->|Hne].
        -- rewrite Nat.sub_diag in E. cbn in E. congruence.
        -- split; [lia|]. exists y. auto.
Qed.

Lemma count_enum (f : P -> bool) (X : list P) : forall k, length (filter (fun p => f (snd p)) (combine (seq k (length X)) X)) = length (filter f X).
Proof. induction X as [|x X IH]; intros k; cbn; [reflexivity|]. destruct (f x); cbn; rewrite IH; reflexivity. Qed.

Lemma removes_mask (count : P -> nat) kmin (X : list P) :
  let mask := map (fun x => kmin <=? Z.of_nat (count x)) X in
  Removes count kmin X (mask_select mask X) (mask_select (map negb mask) (seq 0 (length X))).
Proof.
  intros mask. unfold mask. split; [apply mask_filter|]. rewrite map_map.
  destruct (mask_seq (fun x => negb (kmin <=? Z.of_nat (count x))) X 0) as (H1 & H2). split; [exact H1|].
  intros i. rewrite H2, Nat.sub_0_r. split.
  - intros (_ & x & E & H). exists x. split; [exact E|]. lia.
  - intros (x & E & H). split; [lia|]. exists x. split; [exact E|]. lia.
Qed.

Lemma outlier_finite (X : list P) kmin c : 0 < c -> 0 < kmin -> (2 <= length X)%nat ->
  exists Y R, pcm_remove_outlier eu inv knn X kmin (Some c) = Ok (Y, R) /\ Removes (within eu X c) kmin X Y R.
Proof.
  intros Hc Hk HX. unfold pcm_remove_outlier. destruct (Z.leb_spec kmin 0) as [|_]; [lia|]. destruct (Z.eqb_spec c 0) as [|_]; [lia|].
  unfold tree_call, set_cut_off. destruct (Z.eqb_spec c 0) as [|_]; [lia|]. destruct (Z.ltb_spec c 0) as [|_]; [lia|].
  destruct (Nat.leb_spec (length X) 1) as [|_]; [lia|]. cbn [query_points snd bind].
  do 2 eexists. split; [reflexivity|]. rewrite map_map.
  assert (E : map (fun y => kmin <=? Z.of_nat (length (map (fun p => (fst p, mvalue SqEuclidean (snd p))) (radius_query eu X c y)))) X =
              map (fun x => kmin <=? Z.of_nat (within eu X c x)) X).
  { apply map_ext. intros y. unfold radius_query, within, enumerate. rewrite !map_length.
    rewrite (count_enum (fun x => eu x y <=? c)). reflexivity. }
  rewrite E. apply removes_mask.
Qed.

Lemma outlier_infinite (X : list P) kmin : (forall x y, 0 <= eu x y) -> 0 < kmin -> (2 <= length X)%nat ->
  exists Y R, pcm_remove_outlier eu inv knn X kmin None = Ok (Y, R) /\ Removes (others eu X) kmin X Y R.
Proof.
  intros Hpos Hk HX. unfold pcm_remove_outlier. destruct (Z.leb_spec kmin 0) as [|_]; [lia|].
  unfold brute_call, set_cut_off. cbn [bind]. destruct (Nat.leb_spec (length X) 1) as [|_]; [lia|]. cbn [query_points bind].
  do 2 eexists. split; [reflexivity|]. unfold full_matrix. rewrite map_map.
  assert (E : map (fun y => kmin <=? Z.of_nat (length (filter (fun d => 0 <? d) (map (fun x => mdist eu SqEuclidean x y) X)))) X =
              map (fun x => kmin <=? Z.of_nat (others eu X x)) X).
  { apply map_ext. intros y. unfold others. f_equal. f_equal. generalize X. intros l. induction l as [|x l IH]; [reflexivity|]. cbn [map filter].
    assert (E : (0 <? mdist eu SqEuclidean x y) = (0 <? eu x y)).
    { unfold mdist, mvalue. specialize (Hpos x y). destruct (Z.ltb_spec 0 (eu x y * eu x y)), (Z.ltb_spec 0 (eu x y)); try reflexivity; nia. }
    rewrite E. destruct (0 <? eu x y); cbn [length]; rewrite IH; reflexivity. }
  rewrite E. apply removes_mask.
Qed.

Lemma within_mono (X : list P) c c' x : c <= c' -> (within eu X c x <= within eu X c' x)%nat.
Proof.
  intros H. unfold within. induction X as [|y X IH]; cbn; [lia|].
  destruct (Z.leb_spec (eu y x) c), (Z.leb_spec (eu y x) c'); cbn; lia.
Qed.

Lemma within_self (X : list P) c x : (forall y, eu y y = 0) -> 0 < c -> In x X -> (1 <= within eu X c x)%nat.
Proof.
  intros H0 Hc. unfold within. induction X as [|y X IH]; [intros []|]. intros [->|Hx]; cbn.
  - rewrite H0. destruct (Z.leb_spec 0 c); cbn; lia.
  - destruct (eu y x <=? c); cbn; specialize (IH Hx); lia.
Qed.

(** random_subsample *)
Lemma random_ok perm (X : list P) n : Permutes perm ->
  (1 <= n <= Z.of_nat (length X) - 1 ->
     exists pts S, random_subsample perm X n = Ok (pts, S) /\ PointsAt X S pts /\ NoDup S /\ Z.of_nat (length S) = n) /\
  (~ (1 <= n <= Z.of_nat (length X) - 1) -> random_subsample perm X n = Err ValueError).
Proof.
  intros HP. unfold random_subsample. destruct (Z.ltb_spec n 1), (Z.ltb_spec (Z.of_nat (length X) - 1) n); cbn [orb]; split; intros H'; try lia; try reflexivity.
  do 2 eexists. split; [reflexivity|]. assert (LP : length (perm (length X)) = length X).
  { rewrite (Permutation_length (HP (length X))). apply seq_length. }
  assert (Hsub : forall i, In i (firstn (Z.to_nat n) (perm (length X))) -> In i (perm (length X))).
  { intros i Hi. rewrite <- (firstn_skipn (Z.to_nat n)). apply in_app_iff. left. exact Hi. }
  split; [|split].
  - apply points_at_ok. intros i Hi. apply Hsub in Hi. apply (Permutation_in _ (HP (length X))) in Hi. apply in_seq in Hi. lia.
  - assert (Hnd : NoDup (perm (length X))) by (apply (Permutation_NoDup (Permutation_sym (HP (length X)))), seq_NoDup).
    rewrite <- (firstn_skipn (Z.to_nat n)) in Hnd. apply nodup_app in Hnd. apply Hnd.
  - rewrite firstn_length, LP. lia.
Qed.

End Out.
