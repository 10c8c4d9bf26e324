(** * List level facts about time_derivative. *)

From Coq Require Import List ZArith Bool Arith Lia Sorted.
Import ListNotations.
From Coq Require Import ZifyBool ZifyNat.
From Verif Require Import Np NpFacts TscModel TscSpec TscBlocks TscProofs TscOps TscDt TscShift PredModel PredSpec PredProofs PredControl ReconModel ReconSpec ReconProofs DerModel.
Open Scope nat_scope.

Section L.
Context {V W : Type}.
Variable zero : V.
Variable axpy : V -> W -> V -> V.
Variable scale : nat -> Z -> V -> V.
Notation frame := (list (row V)).

Lemma slice_length {A} a b (l : list A) : b <= length l -> length (slice a b l) = b - a.
Proof. intros H. unfold slice. rewrite firstn_length, skipn_length. lia. Qed.

Lemma slice_nth {A} a b (l : list A) j d : j < b - a -> nth j (slice a b l) d = nth (a + j) l d.
Proof.
  intros H. unfold slice. rewrite <- (firstn_skipn (b - a) (skipn a l)) at 1.
  assert (E : nth (a + j) l d = nth j (skipn a l) d).
  { clear H. revert l; induction a as [|a IH]; intros l; [reflexivity|].
    destruct l as [|y l]; cbn [skipn]; [destruct j; reflexivity|]. apply IH. }
  rewrite E. revert j H E. generalize (skipn a l) as m. generalize (b - a) as k. clear.
  intros k m j H _. rewrite firstn_skipn. revert k H; revert m; induction j as [|j IH]; intros m k H.
  - destruct k; [lia|]. destruct m; reflexivity.
  - destruct k; [lia|]. destruct m; [reflexivity|]. cbn. apply IH. lia.
Qed.

Definition in_range (st : list (Z * W)) (s e n : nat) : Prop :=
  forall p, In p st -> (0 <= Z.of_nat s + fst p)%Z /\ (Z.of_nat e + fst p <= Z.of_nat n)%Z.

Lemma fold_rows (st : list (Z * W)) s e (x : list V) : s <= e -> in_range st s e (length x) ->
  forall acc, length acc = e - s ->
  let res := fold_left (fun acc p => map (fun q => axpy (fst q) (snd p) (snd q))
                  (combine acc (slice (moved s (fst p)) (moved e (fst p)) x))) st acc in
  length res = e - s /\
  forall j, j < e - s ->
    nth j res zero = fold_left (fun a p => axpy a (snd p) (nth (moved (s + j) (fst p)) x zero)) st (nth j acc zero).
Proof.
  intros Hse. induction st as [|p st IH]; intros Hr acc Ha; cbn zeta; cbn [fold_left]; [auto|].
  assert (Hp : (0 <= Z.of_nat s + fst p)%Z /\ (Z.of_nat e + fst p <= Z.of_nat (length x))%Z) by (apply Hr; left; reflexivity).
  assert (Hsl : length (slice (moved s (fst p)) (moved e (fst p)) x) = e - s).
  { rewrite slice_length; unfold moved; lia. }
  specialize (IH (fun q Hq => Hr q (or_intror Hq)) (map (fun q => axpy (fst q) (snd p) (snd q))
                  (combine acc (slice (moved s (fst p)) (moved e (fst p)) x)))).
  cbn zeta in IH. destruct IH as [IH1 IH2].
  { rewrite map_length, combine_length, Hsl, Ha. lia. }
  split; [exact IH1|]. intros j Hj. rewrite (IH2 j Hj). f_equal.
  rewrite (nth_indep _ zero (axpy (fst (zero, zero)) (snd p) (snd (zero, zero))))
    by (rewrite map_length, combine_length, Hsl, Ha; lia).
  rewrite (map_nth (fun q => axpy (fst q) (snd p) (snd q))), combine_nth by lia. cbn [fst snd].
  rewrite slice_nth by (unfold moved; lia). do 2 f_equal. unfold moved. lia.
Qed.

Lemma apply_rows (st : list (Z * W)) s e (x : list V) : s <= e -> in_range st s e (length x) ->
  length (apply_to_array zero axpy st s e x) = e - s /\
  forall j, j < e - s ->
    nth j (apply_to_array zero axpy st s e x) zero
    = fold_left (fun a p => axpy a (snd p) (nth (moved (s + j) (fst p)) x zero)) st zero.
Proof.
  intros Hse Hr. destruct (fold_rows st s e x Hse Hr (repeat zero (e - s)) (repeat_length _ _)) as [H1 H2].
  split; [exact H1|]. intros j Hj. unfold apply_to_array. rewrite (H2 j Hj). f_equal.
  apply nth_repeat.
Qed.

Lemma apply_empty (st : list (Z * W)) s e (x : list V) : e <= s -> apply_to_array zero axpy st s e x = [].
Proof.
  intros H. unfold apply_to_array. replace (e - s) with 0 by lia. cbn [repeat].
  induction st as [|p st IH]; [reflexivity|]. exact IH.
Qed.

(** smallest and largest offset *)
Lemma list_min_eq (l : list Z) m : In m l -> (forall x, In x l -> (m <= x)%Z) -> list_min l = m.
Proof.
  intros Hm Hl. destruct l as [|x l]; [destruct Hm|]. unfold list_min.
  assert (H1 := list_min_in x l). assert (H2 := list_min_le l x m Hm). specialize (Hl _ H1). lia.
Qed.

Lemma zmax_in (l : list Z) x : In (fold_left Z.max l x) (x :: l).
Proof.
  revert x. induction l as [|y l IH]; intros x; [left; reflexivity|].
  cbn [fold_left]. destruct (IH (Z.max x y)) as [E|H].
  - rewrite <- E. destruct (Z.max_spec x y) as [[_ ->]|[_ ->]]; cbn; auto.
  - right; right; exact H.
Qed.

Lemma zmax_eq (l : list Z) m : In m l -> (forall x, In x l -> (x <= m)%Z) -> zmax l = m.
Proof.
  intros Hm Hl. destruct l as [|x l]; [destruct Hm|]. unfold zmax.
  assert (H1 := zmax_in l x). assert (H2 := zmax_ge l x m Hm). specialize (Hl _ H1). lia.
Qed.

Section Stencil.
Variables (st : list (Z * W)) (lo hi : Z).
Hypothesis Hlo : In lo (map fst st).
Hypothesis Hhi : In hi (map fst st).
Hypothesis Hrange : forall p, In p st -> (lo <= fst p <= hi)%Z.
Hypothesis Hsign : (lo <= 0 <= hi)%Z.

Definition width := Z.to_nat (hi - lo)%Z.
Definition lag (shift : bool) : Z := if shift then hi else 0%Z.

Lemma diff_length order d shift (s : list (Z * V)) :
  length (diff zero axpy scale st order d shift s) = length s - width.
Proof.
  unfold diff. rewrite (list_min_eq _ lo Hlo), (zmax_eq _ hi Hhi);
    try (intros x Hx; apply in_map_iff in Hx; destruct Hx as (p & <- & Hp); specialize (Hrange p Hp); lia).
  cbn zeta. set (a := Z.to_nat (Z.abs lo)). set (e := length s - Z.to_nat (Z.abs hi)).
  rewrite combine_length, map_length. unfold width.
  destruct (le_lt_dec e a) as [H|H].
  - rewrite apply_empty by exact H. cbn. subst a e. lia.
  - destruct (apply_rows st a e (map snd s)) as [E _]; [lia| |].
    { intros p Hp. specialize (Hrange p Hp). rewrite map_length. subst a e. lia. }
    rewrite E. destruct shift.
    + rewrite skipn_length, map_length. subst a e. lia.
    + rewrite slice_length by (rewrite map_length; subst e; lia). subst a e. lia.
Qed.

Lemma diff_nth order d shift (s : list (Z * V)) j : j < length s - width ->
  nth j (diff zero axpy scale st order d shift s) (0%Z, scale order d zero)
  = (nth (Z.to_nat (Z.of_nat j - lo + lag shift)%Z) (map fst s) 0%Z,
     scale order d (fold_left (fun a p => axpy a (snd p) (nth (Z.to_nat (Z.of_nat j - lo + fst p)%Z) (map snd s) zero)) st zero)).
Proof.
  intros Hj. unfold width in Hj. unfold diff. rewrite (list_min_eq _ lo Hlo), (zmax_eq _ hi Hhi);
    try (intros x Hx; apply in_map_iff in Hx; destruct Hx as (p & <- & Hp); specialize (Hrange p Hp); lia).
  cbn zeta. set (a := Z.to_nat (Z.abs lo)). set (e := length s - Z.to_nat (Z.abs hi)).
  destruct (apply_rows st a e (map snd s)) as [E1 E2].
  { subst a e. lia. }
  { intros p Hp. specialize (Hrange p Hp). rewrite map_length. subst a e. lia. }
  rewrite combine_nth.
  - f_equal.
    + destruct shift; cbn [lag].
      * rewrite map_length, E1.
        assert (Hs : forall k (l : list Z) m, nth m (skipn k l) 0%Z = nth (k + m) l 0%Z).
        { clear. induction k as [|k IH]; intros l m; [reflexivity|]. destruct l; [destruct m; reflexivity|]. apply IH. }
        rewrite Hs. f_equal. subst a e. lia.
      * rewrite slice_nth by (subst a e; lia). f_equal. subst a e. lia.
    + rewrite map_nth. f_equal. rewrite E2 by (subst a e; lia).
      assert (Hf : forall l acc, (forall p, In p l -> (lo <= fst p)%Z) ->
        fold_left (fun b p => axpy b (snd p) (nth (moved (a + j) (fst p)) (map snd s) zero)) l acc
        = fold_left (fun b p => axpy b (snd p) (nth (Z.to_nat (Z.of_nat j - lo + fst p)%Z) (map snd s) zero)) l acc).
      { induction l as [|p l IH]; intros acc Hl; [reflexivity|]. cbn [fold_left].
        rewrite IH by (intros q Hq; apply Hl; right; exact Hq). do 2 f_equal.
        specialize (Hl p (or_introl eq_refl)). unfold moved. subst a. f_equal. lia. }
      apply Hf. intros p Hp. apply Hrange. exact Hp.
  - rewrite map_length, E1. destruct shift.
    + rewrite skipn_length, map_length. subst a e. lia.
    + rewrite slice_length by (rewrite map_length; subst e; lia). reflexivity.
Qed.

End Stencil.

(** *** from_frame_list *)

Lemma map_result_ok {A B} (g : A -> result B) h l : (forall x, In x l -> g x = Ok (h x)) ->
  map_result g l = Ok (map h l).
Proof.
  induction l as [|x l IH]; intros H; [reflexivity|]. cbn. rewrite (H x (or_introl eq_refl)).
  rewrite IH by (intros; apply H; right; assumption). reflexivity.
Qed.

Lemma map_result_err {A B} (g : A -> result B) l x e : In x l -> g x = Err e -> exists e', map_result g l = Err e'.
Proof.
  induction l as [|y l IH]; intros Hx E; [destruct Hx|]. cbn.
  destruct (g y) eqn:Ey; [|eauto]. destruct Hx as [->|Hx]; [congruence|].
  destruct (IH Hx E) as (e' & ->). eauto.
Qed.

Lemma combine_map_self {A B} (g : A -> B) l : combine l (map g l) = map (fun x => (x, g x)) l.
Proof. induction l as [|x l IH]; [reflexivity|]. cbn. rewrite IH. reflexivity. Qed.

Lemma series_rows_valid i (s : list (Z * V)) : (0 <= i)%Z -> GoodSeries s -> ValidRows (series_rows i s).
Proof.
  intros Hi (H1 & H2 & H3). rewrite <- series_rows_flatten. apply wfb_valid. constructor.
  - discriminate.
  - constructor; [intros []|constructor].
  - intros b [<-|[]]. cbn. auto.
Qed.

Definition assembled (F : frame) (g : list (Z * V) -> list (Z * V)) : frame :=
  flatten (map (fun i => (i, g (series F i))) (ids F)).

Lemma assembled_valid (F : frame) g : ValidRows F -> (forall i, Occurs F i -> GoodSeries (g (series F i))) ->
  ValidRows (assembled F g).
Proof.
  intros HV Hg. apply wfb_valid. constructor.
  - intros E. apply map_eq_nil in E. apply (ids_nonempty F (vr_nonempty F HV) E).
  - rewrite map_map. cbn. rewrite map_id. apply sorted_lt_NoDup, ids_sorted.
  - intros b Hb. apply in_map_iff in Hb. destruct Hb as (i & <- & Hi). apply in_ids in Hi.
    destruct (Hg i Hi) as (H1 & H2 & H3). cbn [fst snd]. split; [exact H1|]. split; [|split; assumption].
    destruct Hi as (r & Hr & <-). apply (vr_ids F HV r Hr).
Qed.

Lemma frames_ok (F : frame) g : ValidRows F -> (forall i, Occurs F i -> GoodSeries (g (series F i))) ->
  from_frame_list (map (fun p => g (snd p)) (itertimeseries F)) (Some (ids F)) = Ok (assembled F g).
Proof.
  intros HV Hg. unfold itertimeseries. rewrite map_map. cbn [snd]. unfold from_frame_list.
  destruct (map (fun i => g (series F i)) (ids F)) as [|z zs] eqn:E.
  { apply map_eq_nil in E. destruct (ids_nonempty F (vr_nonempty F HV) E). }
  rewrite <- E. rewrite map_length, Nat.eqb_refl.
  rewrite (proj2 (np_unique_length_NoDup (ids F))), Nat.eqb_refl by apply sorted_lt_NoDup, ids_sorted.
  cbn [negb orb]. rewrite combine_map_self.
  rewrite (map_result_ok _ (fun p => series_rows (fst p) (snd p))).
  - rewrite map_map. cbn [fst snd]. rewrite <- flat_map_concat_map.
    assert (Ef : flat_map (fun i => series_rows i (g (series F i))) (ids F) = assembled F g).
    { unfold assembled, flatten. rewrite !flat_map_concat_map, map_map. reflexivity. }
    rewrite Ef. apply tsc_ok. split; [|reflexivity]. apply assembled_valid; assumption.
  - intros p Hp. apply in_map_iff in Hp. destruct Hp as (i & <- & Hi). cbn [fst snd].
    apply tsc_ok. split; [|reflexivity]. apply in_ids in Hi. apply series_rows_valid; [|apply Hg; exact Hi].
    destruct Hi as (r & Hr & <-). apply (vr_ids F HV r Hr).
Qed.

Lemma frames_err (F : frame) (g : list (Z * V) -> list (Z * V)) i : Occurs F i -> g (series F i) = [] ->
  exists e, from_frame_list (map (fun p => g (snd p)) (itertimeseries F)) (Some (ids F)) = Err e.
Proof.
  intros Ho Hg. unfold itertimeseries. rewrite map_map. cbn [snd]. unfold from_frame_list.
  destruct (map (fun i => g (series F i)) (ids F)) as [|z zs] eqn:E; [eauto|].
  rewrite <- E. destruct (_ || _); [eauto|]. rewrite combine_map_self.
  destruct (map_result_err (fun p => tsc (series_rows (fst p) (snd p)))
              (map (fun x => (x, g (series F x))) (ids F)) (i, g (series F i)) IndexError) as (e & ->).
  - apply in_map_iff. exists i. split; [reflexivity|]. apply in_ids. exact Ho.
  - cbn [fst snd]. rewrite Hg. reflexivity.
  - eauto.
Qed.

Lemma flatten_sorted (bs : list (Z * list (Z * V))) : StronglySorted Z.lt (map fst bs) -> IdsSorted (flatten bs).
Proof.
  clear zero axpy scale. induction bs as [|b bs IH]; intros H a c (l & m & r & E).
  - destruct l; discriminate.
  - cbn [map] in H. apply StronglySorted_inv in H. destruct H as [Hs Hf].
    rewrite flatten_cons in E. rewrite Forall_forall in Hf.
    assert (Hrest : forall x, In x (flatten bs) -> (fst b <= rid x)%Z).
    { intros x Hx. apply in_flatten_id in Hx. specialize (Hf _ Hx). lia. }
    assert (Hall : forall x, In x (brows b ++ flatten bs) -> (fst b <= rid x)%Z).
    { intros x Hx. apply in_app_or in Hx. destruct Hx as [Hx|Hx]; [|auto]. apply rid_brows in Hx. lia. }
    apply app_split_cons in E. destruct E as [(q & Eb & Er)|(p' & Ep & Er)].
    + assert (Ha : rid a = fst b) by (apply rid_brows; rewrite Eb; apply in_or_app; right; left; reflexivity).
      rewrite Ha. apply Hall. rewrite Eb, <- app_assoc. cbn [app]. rewrite <- Er.
      apply in_or_app. right. right. apply in_or_app. right. left. reflexivity.
    + apply (IH Hs). exists p', m, r. exact Er.
Qed.

Lemma assembled_sorted (F : frame) g : IdsSorted (assembled F g).
Proof. apply flatten_sorted. rewrite map_map. cbn. rewrite map_id. apply ids_sorted. Qed.

(** *** regular series *)

Section Regular.
Variables (F : frame) (d : Z).
Hypothesis HV : ValidRows F.
Hypothesis HR : forall i, Occurs F i -> Regular F i d.

Lemma series_length i : length (series F i) = length (rows_of F i).
Proof. unfold series. apply map_length. Qed.

Lemma equispaced_nth0 s e n k : k < n -> nth k (equispaced s e n) 0%Z = (s + Z.of_nat k * e)%Z.
Proof.
  intros H. unfold equispaced. rewrite (nth_indep _ 0%Z ((fun k => (s + Z.of_nat k * e)%Z) 0)) by (rewrite map_length, seq_length; exact H).
  rewrite (map_nth (fun k => (s + Z.of_nat k * e)%Z)), seq_nth by exact H. f_equal.
Qed.

Definition t0 (i : Z) : Z := hd 0%Z (times_of F i).

Lemma series_time i k : k < length (series F i) -> nth k (map fst (series F i)) 0%Z = (t0 i + Z.of_nat k * d)%Z.
Proof.
  intros Hk. rewrite series_length in Hk.
  assert (Ho : Occurs F i) by (apply rows_of_nonempty; intros E; rewrite E in Hk; cbn in Hk; lia).
  replace (map fst (series F i)) with (times_of F i) by (unfold times_of, series; rewrite map_map; reflexivity).
  rewrite (regular_times F i d HV Ho) by apply (HR i Ho). rewrite equispaced_nth0 by exact Hk. reflexivity.
Qed.

Lemma in_series i t v : In (mkRow i t v) F <-> In (t, v) (series F i).
Proof.
  unfold series. rewrite in_map_iff. split.
  - intros H. exists (mkRow i t v). split; [reflexivity|]. apply filter_In. split; [exact H|]. cbn. lia.
  - intros (r & E & H). apply filter_In in H. destruct H as [H Hi]. injection E as E1 E2.
    replace (mkRow i t v) with r; [exact H|]. destruct r; cbn in *. subst. f_equal. lia.
Qed.

(** the row of series i at position k *)
Lemma in_series_nth i t v def : (0 < d)%Z ->
  In (mkRow i t v) F <-> exists k, k < length (series F i) /\ t = (t0 i + Z.of_nat k * d)%Z /\ v = nth k (map snd (series F i)) def.
Proof.
  intros Hd. rewrite in_series. split.
  - intros H. destruct (In_nth _ _ (0%Z, def) H) as (k & Hk & E). exists k. split; [exact Hk|].
    rewrite <- (series_time i k Hk). rewrite (nth_indep _ 0%Z (fst (0%Z, def))) by (rewrite map_length; exact Hk).
    rewrite map_nth, E. split; [reflexivity|].
    rewrite (nth_indep _ def (snd (0%Z, def))) by (rewrite map_length; exact Hk). rewrite map_nth, E. reflexivity.
  - intros (k & Hk & -> & ->). rewrite <- (series_time i k Hk).
    rewrite (nth_indep _ 0%Z (fst (0%Z, def))) by (rewrite map_length; exact Hk).
    rewrite (nth_indep _ def (snd (0%Z, def))) by (rewrite map_length; exact Hk).
    rewrite !map_nth, <- surjective_pairing. apply nth_In. exact Hk.
Qed.

Lemma step_pos : (0 < d)%Z.
Proof.
  destruct F as [|r F'] eqn:E; [destruct (vr_nonempty _ HV); reflexivity|]. rewrite <- E in *.
  apply (regular_pos F (rid r) d HV), HR. exists r. split; [rewrite E; left|]; reflexivity.
Qed.

Section Stencil.
Variables (st : list (Z * W)) (lo hi : Z).
Hypothesis Hlo : In lo (map fst st).
Hypothesis Hhi : In hi (map fst st).
Hypothesis Hrange : forall p, In p st -> (lo <= fst p <= hi)%Z.
Hypothesis Hsign : (lo <= 0 <= hi)%Z.
Variables (order : nat) (shift : bool).

Let g := diff zero axpy scale st order d shift.

(** weighted sum of the states [x o] *)
Definition wsum (x : Z -> V) : V := scale order d (fold_left (fun a p => axpy a (snd p) (x (fst p))) st zero).

Lemma fold_ext (l : list (Z * W)) (x y : Z -> V) acc : (forall p, In p l -> x (fst p) = y (fst p)) ->
  fold_left (fun a p => axpy a (snd p) (x (fst p))) l acc = fold_left (fun a p => axpy a (snd p) (y (fst p))) l acc.
Proof.
  revert acc. induction l as [|p l IH]; intros acc H; [reflexivity|]. cbn [fold_left].
  rewrite (H p (or_introl eq_refl)). apply IH. intros q Hq; apply H; right; exact Hq.
Qed.

Lemma diff_in i t v : In (t, v) (g (series F i)) <->
  exists (t' : Z) (x : Z -> V),
    (forall p, In p st -> In (mkRow i (t' + fst p * d)%Z (x (fst p))) F)
    /\ t = (t' + lag hi shift * d)%Z /\ v = wsum x.
Proof.
  assert (Hd := step_pos).
  assert (Ln := diff_length st lo hi Hlo Hhi Hrange Hsign order d shift (series F i)).
  assert (Nt := diff_nth st lo hi Hlo Hhi Hrange Hsign order d shift (series F i)).
  unfold width in *. fold g in Ln, Nt. split.
  - intros H. destruct (In_nth _ _ (0%Z, scale order d zero) H) as (j & Hj & E).
    rewrite Ln in Hj. rewrite (Nt j Hj) in E.
    exists (t0 i + (Z.of_nat j - lo) * d)%Z, (fun o => nth (Z.to_nat (Z.of_nat j - lo + o)%Z) (map snd (series F i)) zero).
    injection E as E1 E2. split; [|split].
    + intros p Hp. specialize (Hrange p Hp). apply (in_series_nth i _ _ zero Hd).
      exists (Z.to_nat (Z.of_nat j - lo + fst p)%Z). split; [lia|]. split; [|reflexivity].
      rewrite Z2Nat.id by lia. lia.
    + rewrite <- E1. rewrite series_time by (destruct shift; cbn [lag]; lia).
      rewrite Z2Nat.id by (destruct shift; cbn [lag]; lia). lia.
    + symmetry. exact E2.
  - intros (t' & x & Hx & -> & ->).
    assert (Hp : forall o, In o (map fst st) -> exists k, k < length (series F i)
               /\ (t' + o * d = t0 i + Z.of_nat k * d)%Z /\ x o = nth k (map snd (series F i)) zero).
    { intros o Ho. apply in_map_iff in Ho. destruct Ho as (p & <- & Hp).
      apply (in_series_nth i _ _ zero Hd). apply Hx. exact Hp. }
    destruct (Hp lo Hlo) as (kl & Hkl & El & _). destruct (Hp hi Hhi) as (kh & Hkh & Eh & _).
    assert (Hk : (Z.of_nat kh - Z.of_nat kl = hi - lo)%Z) by nia.
    assert (Hkl' : kl < length (series F i) - Z.to_nat (hi - lo)%Z) by lia.
    assert (Ein : In (nth kl (g (series F i)) (0%Z, scale order d zero)) (g (series F i))) by (apply nth_In; rewrite Ln; exact Hkl').
    rewrite (Nt kl Hkl') in Ein.
    assert (Et : nth (Z.to_nat (Z.of_nat kl - lo + lag hi shift)%Z) (map fst (series F i)) 0%Z = (t' + lag hi shift * d)%Z).
    { rewrite series_time by (destruct shift; cbn [lag]; lia). rewrite Z2Nat.id by (destruct shift; cbn [lag]; lia). lia. }
    rewrite Et in Ein. unfold wsum. rewrite (fold_ext st x (fun o => nth (Z.to_nat (Z.of_nat kl - lo + o)%Z) (map snd (series F i)) zero)); [exact Ein|].
    intros p Hpp. destruct (Hp (fst p) (in_map fst _ _ Hpp)) as (k & Hk1 & Hk2 & Hk3). rewrite Hk3. f_equal.
    assert ((Z.of_nat k - Z.of_nat kl = fst p - lo)%Z) by nia. lia.
Qed.

Lemma strongly_sorted_nth (l : list Z) : (forall a b, a < b < length l -> (nth a l 0 < nth b l 0)%Z) -> StronglySorted Z.lt l.
Proof.
  induction l as [|x l IH]; intros H; constructor.
  - apply IH. intros a b Hab. apply (H (S a) (S b)). cbn. lia.
  - apply Forall_forall. intros y Hy. destruct (In_nth _ _ 0%Z Hy) as (k & Hk & <-).
    apply (H 0 (S k)). cbn. lia.
Qed.

Lemma diff_good i : length (rows_of F i) > width lo hi -> GoodSeries (g (series F i)).
Proof.
  intros Hl. assert (Hd := step_pos).
  assert (Ln := diff_length st lo hi Hlo Hhi Hrange Hsign order d shift (series F i)).
  assert (Nt := diff_nth st lo hi Hlo Hhi Hrange Hsign order d shift (series F i)).
  fold g in Ln, Nt. rewrite series_length in *. split; [|split].
  - intros E. rewrite E in Ln. cbn in Ln. lia.
  - intros p Hp. destruct (In_nth _ _ (0%Z, scale order d zero) Hp) as (j & Hj & E).
    rewrite Ln in Hj. rewrite (Nt j Hj) in E. rewrite <- E. cbn [fst]. unfold width in *.
    assert (Hk : Z.to_nat (Z.of_nat j - lo + lag hi shift)%Z < length (series F i)) by (rewrite series_length; destruct shift; cbn [lag]; lia).
    rewrite series_time by exact Hk.
    assert (Hn := nth_In (map fst (series F i)) 0%Z (n := Z.to_nat (Z.of_nat j - lo + lag hi shift)%Z)).
    rewrite map_length in Hn. specialize (Hn Hk). rewrite series_time in Hn by exact Hk.
    apply in_map_iff in Hn. destruct Hn as ((t & v) & <- & Hin). apply in_series in Hin.
    apply (vr_times F HV _ Hin).
  - apply strongly_sorted_nth. intros a b [Hab Hb]. rewrite map_length, Ln in Hb.
    assert (Et : forall j, j < length (rows_of F i) - width lo hi ->
              nth j (map fst (g (series F i))) 0%Z = (t0 i + (Z.of_nat j - lo + lag hi shift) * d)%Z).
    { intros j Hj. rewrite (nth_indep _ 0%Z (fst (0%Z, scale order d zero))) by (rewrite map_length, Ln; exact Hj).
      rewrite map_nth, (Nt j Hj). cbn [fst]. unfold width in *.
      rewrite series_time by (rewrite series_length; destruct shift; cbn [lag]; lia).
      rewrite Z2Nat.id by (destruct shift; cbn [lag]; lia). reflexivity. }
    rewrite !Et by lia. apply Zplus_lt_compat_l, Zmult_lt_compat_r; lia.
Qed.

Lemma diff_short i : length (rows_of F i) <= width lo hi -> g (series F i) = [].
Proof.
  intros H. assert (Ln := diff_length st lo hi Hlo Hhi Hrange Hsign order d shift (series F i)).
  rewrite series_length in Ln. fold g in Ln. apply length_zero_iff_nil. lia.
Qed.

Lemma in_assembled r : In r (assembled F g) <->
  exists (t' : Z) (x : Z -> V),
    (forall p, In p st -> In (mkRow (rid r) (t' + fst p * d)%Z (x (fst p))) F)
    /\ rtime r = (t' + lag hi shift * d)%Z /\ rval r = wsum x.
Proof.
  unfold assembled. rewrite in_flatten. split.
  - intros (b & p & Hb & Hp & ->). apply in_map_iff in Hb. destruct Hb as (i & <- & Hi). cbn [fst snd rid rtime rval] in *.
    apply diff_in. rewrite <- surjective_pairing. exact Hp.
  - intros H. apply diff_in in H. exists (rid r, g (series F (rid r))), (rtime r, rval r). cbn [fst snd].
    split; [|split; [exact H|destruct r; reflexivity]].
    apply in_map_iff. exists (rid r). split; [reflexivity|]. apply in_ids.
    apply diff_in in H. destruct H as (t' & x & Hx & _).
    apply in_map_iff in Hlo. destruct Hlo as (p & _ & Hp). exists (mkRow (rid r) (t' + fst p * d)%Z (x (fst p))).
    split; [apply Hx; exact Hp|reflexivity].
Qed.

End Stencil.
End Regular.

End L.
