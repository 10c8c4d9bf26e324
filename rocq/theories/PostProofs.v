(** * Proofs about post observables. *)

From Coq Require Import List ZArith Bool Arith QArith Sorted Permutation Lia.
Import ListNotations.
From Verif Require Import Np NpFacts TscModel TscSpec TscProofs TscBlocks TscBuild CvWindow BldModel BldSpec BldBuild WinModel WinProofs
  SearchModel SearchSpec SearchProofs PostModel PostSpec.
Close Scope Z_scope.
Close Scope Q_scope.
Open Scope nat_scope.

Section Proofs.
Context {V M : Type}.
Notation frame := (list (row V)).
Variable fit : frame -> result M.
Variable score : M -> frame -> result Q.
Variable reconstruct : M -> frame -> result (frame * frame).
Variable absdiff : V -> V -> V.

Lemma valid_label_first (r0 : row V) R : ValidRows (r0 :: R) -> forall r, In r R -> pair_eqb (rid r, rtime r) (rid r0, rtime r0) = false.
Proof.
  intros HV r Hr. apply not_true_is_false. intros H. apply pair_eqb_eq in H. injection H as H1 H2.
  apply in_split in Hr. destruct Hr as (l1 & l2 & ->).
  apply (Z.lt_irrefl (rtime r0)). rewrite <- H2 at 2. apply (vr_inc _ HV); [|congruence]. exists [], l1, l2. reflexivity.
Qed.

Lemma drop_head_tl (R G : frame) : ValidRows R -> drop_head R = Ok G -> G = tl R /\ ValidRows G.
Proof.
  intros HV. destruct R as [|r0 R]; [destruct (vr_nonempty _ HV eq_refl)|]. cbn [drop_head filter tl].
  assert (pair_eqb (rid r0, rtime r0) (rid r0, rtime r0) = true) as -> by (apply pair_eqb_eq; reflexivity). cbn [negb].
  intros E. apply tsc_ok in E. destruct E as [HG ->].
  assert (E : filter (fun r => negb (pair_eqb (rid r, rtime r) (rid r0, rtime r0))) R = R).
  { apply filter_every. intros r Hr. rewrite (valid_label_first r0 R HV r Hr). reflexivity. }
  rewrite E in *. split; [reflexivity|exact HG].
Qed.

Lemma find_loc (X : frame) idx Y : loc_index X idx = Ok Y ->
  Forall2 (fun p y => In y X /\ (rid y, rtime y) = p) idx Y.
Proof.
  intros E. apply map_result_inv in E. induction E as [|p y ps ys H HF IH]; constructor; [|exact IH].
  destruct (find _ X) as [x|] eqn:Ex; [|discriminate]. injection H as <-. apply find_some in Ex. destruct Ex as [H1 H2].
  apply pair_eqb_eq in H2. split; assumption.
Qed.

Lemma compute_err_spec m (X X' E R : frame) : reconstruct m X = Ok (R, X') -> ValidRows R ->
  compute_err reconstruct absdiff m X = Ok (X', E) -> Forall2 (ErrorOf absdiff X') (tl R) E /\ ValidRows E.
Proof.
  intros ER HR. unfold compute_err. rewrite ER. cbn [bind fst snd].
  destruct (drop_head R) as [G|] eqn:EG; [|discriminate]. cbn [bind]. apply drop_head_tl in EG; [|exact HR]. destruct EG as [-> HG].
  destruct (loc_index X' (index (tl R))) as [Y|] eqn:EY; [|discriminate]. cbn [bind].
  destruct (tsc _) as [E'|] eqn:ET; [|discriminate]. cbn [bind]. intros H. injection H as <-.
  apply tsc_ok in ET. destruct ET as [HE ->]. split; [|exact HE].
  apply find_loc in EY. clear -EY. revert Y EY. induction (tl R) as [|r R' IH]; intros Y EY; cbn in EY; inversion EY; subst; cbn; [constructor|].
  destruct H1 as [Hy Hl]. injection Hl as H1 H2. constructor; [|apply IH; assumption]. exists y. cbn. repeat split; congruence.
Qed.

(** Every series of a usable reconstruction has error samples. *)
Lemma rows_of_tl (R : frame) i : ValidRows R -> 2 <= length (rows_of R i) -> Occurs (tl R) i.
Proof.
  intros HV H. destruct R as [|r0 R]; [cbn in H; lia|]. cbn [tl]. unfold rows_of in H. cbn in H.
  destruct (filter (fun r => (rid r =? i)%Z) R) as [|x l] eqn:E.
  - destruct (rid r0 =? i)%Z; cbn in H; lia.
  - assert (Hx : In x (filter (fun r => (rid r =? i)%Z) R)) by (rewrite E; left; reflexivity).
    apply filter_In in Hx. exists x. split; [apply Hx|]. apply Z.eqb_eq. apply Hx.
Qed.

Lemma error_ids (X R E : frame) : Usable R X -> Forall2 (ErrorOf absdiff X) (tl R) E -> ids E = ids X.
Proof.
  intros (HR & HX & HI & H2) HF. apply np_unique_ext. intros i.
  assert (HO : forall (G : frame), In i (ids_index G) <-> Occurs G i).
  { intros G. unfold ids_index. rewrite in_map_iff. split; intros (r & H1 & H3); exists r; split; assumption. }
  rewrite !HO. split.
  - intros (e & He & <-). apply In_nth_error in He. destruct He as (n & En).
    assert (exists r, ErrorOf absdiff X r e) as (r & x & Hx & H3 & _ & ->).
    { clear -HF En. revert n En. induction HF as [|r e' rs es H HF IH]; intros [|n] En; try discriminate.
      - injection En as <-. eauto.
      - eapply IH; eassumption. }
    cbn. exists x. split; [exact Hx|exact H3].
  - intros HO'. specialize (H2 i HO'). apply rows_of_tl in H2; [|exact HR]. destruct H2 as (r & Hr & <-).
    apply In_nth_error in Hr. destruct Hr as (n & En). clear -HF En. revert n En.
    induction HF as [|r' e rs es (x & Hx & H1 & H2 & ->) HF IH]; intros [|n] En; try discriminate.
    + injection En as <-. eexists. split; [left; reflexivity|reflexivity].
    + destruct (IH _ En) as (e & He & Hi). exists e. split; [right; exact He|exact Hi].
Qed.

(** ** Alignment of the two collections *)

Lemma split_collection (X : frame) : ValidRows X -> split_item (Collection X) = map (pairs_of X) (ids X).
Proof.
  intros HV. symmetry. apply split_parts; [exact HV|]. exists (ids X). split; [apply ids_sorted|]. split; [|reflexivity].
  intros i. apply in_ids.
Qed.

Lemma parts_aligned (l : list (frame * frame)) : (forall p, In p l -> ids (fst p) = ids (snd p)) ->
  forall k s, nth_error (flat_map (fun p => map (pairs_of (snd p)) (ids (snd p))) l) k = Some s ->
  exists p i, In p l /\ In i (ids (fst p)) /\ s = pairs_of (snd p) i /\
    nth_error (flat_map (fun p => map (pairs_of (fst p)) (ids (fst p))) l) k = Some (pairs_of (fst p) i).
Proof.
  induction l as [|p l IH]; intros H k s Ek; [destruct k; discriminate|]. cbn [flat_map] in *.
  assert (Hp := H p (or_introl eq_refl)). rewrite <- Hp in Ek.
  destruct (Nat.lt_ge_cases k (length (ids (fst p)))) as [Hk|Hk].
  - rewrite nth_error_app1 in Ek by (rewrite map_length; exact Hk). rewrite nth_error_app1 by (rewrite map_length; exact Hk).
    rewrite nth_error_map in *. destruct (nth_error (ids (fst p)) k) as [i|] eqn:Ei; [|discriminate]. cbn in *. injection Ek as <-.
    exists p, i. split; [left; reflexivity|]. split; [eapply nth_error_In; eassumption|]. split; reflexivity.
  - rewrite nth_error_app2 in Ek by (rewrite map_length; exact Hk). rewrite nth_error_app2 by (rewrite map_length; exact Hk).
    rewrite map_length in *. destruct (IH ltac:(intros; apply H; right; assumption) _ _ Ek) as (q & i & Hq & Hi & Hs & Hn).
    exists q, i. split; [right; exact Hq|]. auto.
Qed.

Lemma from_items_rows (Xs : list frame) G : (forall X, In X Xs -> ValidRows X) ->
  from_items (map Collection Xs) None = Ok G ->
  forall r, In r G <-> exists k s p, nth_error (flat_map (fun X => map (pairs_of X) (ids X)) Xs) k = Some s /\ In p s /\
    r = mkRow (Z.of_nat k) (fst p) (snd p).
Proof.
  intros HV E. apply from_items_spec in E.
  2:{ intros x Hx. apply in_map_iff in Hx. destruct Hx as (X & <- & HX). apply HV. exact HX. }
  destruct E as (_ & parts & labels & HP & EL & _ & _ & _ & ->).
  apply split_allparts in HP.
  2:{ intros x Hx. apply in_map_iff in Hx. destruct Hx as (X & <- & HX). apply HV. exact HX. }
  assert (Eparts : parts = flat_map (fun X => map (pairs_of X) (ids X)) Xs).
  { rewrite HP. clear -HV. induction Xs as [|X Xs IH]; [reflexivity|]. cbn [map flat_map]. rewrite split_collection by (apply HV; left; reflexivity).
    rewrite IH by (intros; apply HV; right; assumption). reflexivity. }
  rewrite <- Eparts. rewrite EL. clear. intros r. rewrite in_flat_map.
  assert (H : forall (parts : list (list (Z * V))) a q, In q (combine (map Z.of_nat (seq a (length parts))) parts) <->
    exists k, nth_error parts k = Some (snd q) /\ fst q = Z.of_nat (a + k)).
  { clear. induction parts as [|s parts IH]; intros a [z s']; cbn.
    - split; [intros []|intros ([|k] & H & _); discriminate].
    - rewrite IH. cbn. split.
      + intros [H|(k & H1 & H2)].
        * injection H as <- <-. exists 0. split; [reflexivity|]. rewrite Nat.add_0_r. reflexivity.
        * exists (S k). split; [exact H1|]. rewrite H2. f_equal. lia.
      + intros ([|k] & H1 & H2); cbn in H1.
        * left. injection H1 as <-. rewrite H2, Nat.add_0_r. reflexivity.
        * right. exists k. split; [exact H1|]. rewrite H2. f_equal. lia. }
  split.
  - intros (q & Hq & Hr). unfold np_arange in Hq. apply H in Hq. destruct Hq as (k & Ek & Ef). cbn in Ef.
    unfold series_rows in Hr. apply in_map_iff in Hr. destruct Hr as (p & <- & Hp). exists k, (snd q), p. rewrite Ef. auto.
  - intros (k & s & p & Ek & Hp & ->). exists (Z.of_nat k, s). split.
    + unfold np_arange. apply H. exists k. split; [exact Ek|reflexivity].
    + unfold series_rows. cbn. apply in_map_iff. exists p. auto.
Qed.

(** ** Cross-validation *)

(** What a split contributed. *)
Definition Contributed (F : frame) (split : list nat * list nat) (p : @part V M) : Prop :=
  exists Tr Te R, split_X F (fst split) (snd split) = Ok (Tr, Te) /\ fit Tr = Ok (p_model p) /\
    score (p_model p) Te = Ok (p_score p) /\ reconstruct (p_model p) Te = Ok (R, p_test p) /\
    compute_err reconstruct absdiff (p_model p) Te = Ok (p_test p, p_err p).

Lemma fit_split_inv F split p : fit_split fit score reconstruct absdiff F split = Ok p -> Contributed F split p.
Proof.
  unfold fit_split. destruct (split_X _ _ _) as [[Tr Te]|] eqn:Es; [|discriminate]. cbn [bind fst snd].
  destruct (fit Tr) as [m|] eqn:Ef; [|discriminate]. cbn [bind]. destruct (score m Te) as [s|] eqn:Ec; [|discriminate]. cbn [bind].
  destruct (compute_err reconstruct absdiff m Te) as [[X E]|] eqn:Ee; [|discriminate]. cbn [bind fst snd]. intros H. injection H as <-.
  destruct (reconstruct m Te) as [[R X']|] eqn:Er.
  2:{ unfold compute_err in Ee. rewrite Er in Ee. discriminate. }
  exists Tr, Te, R. cbn. rewrite Er. assert (X' = X) as ->; [|auto 6].
  unfold compute_err in Ee. rewrite Er in Ee. cbn in Ee.
  destruct (drop_head R); [|discriminate]. cbn in Ee. destruct (loc_index X' (index a)); [|discriminate]. cbn in Ee.
  destruct (tsc _); [|discriminate]. cbn in Ee. injection Ee as -> _. reflexivity.
Qed.

Lemma argmax_from_spec l : forall best value k,
  (argmax_from best value k l = best /\ (forall j x, nth_error l j = Some x -> (x <= value)%Q)) \/
  (exists j x, argmax_from best value k l = k + j /\ nth_error l j = Some x /\ (value < x)%Q /\
     (forall i y, nth_error l i = Some y -> (y <= x)%Q) /\ (forall i y, i < j -> nth_error l i = Some y -> (y < x)%Q)).
Proof.
  induction l as [|x l IH]; intros best value k; cbn [argmax_from].
  - left. split; [reflexivity|]. intros [|j] ? H; discriminate.
  - destruct (Qle_bool x value) eqn:Hx.
    + apply Qle_bool_iff in Hx. destruct (IH best value (S k)) as [[E H]|(j & y & E & Ey & Hy & H1 & H2)]; rewrite E.
      * left. split; [reflexivity|]. intros [|i] y Ei; cbn in Ei; [injection Ei as <-; exact Hx|eapply H; eassumption].
      * right. exists (S j), y. split; [lia|]. split; [exact Ey|]. split; [exact Hy|].
        assert (Hxy : (x < y)%Q) by (eapply Qle_lt_trans; eassumption). split.
        -- intros [|i] z Ei; cbn in Ei; [injection Ei as <-; apply Qlt_le_weak; exact Hxy|eapply H1; eassumption].
        -- intros [|i] z Hi Ei; cbn in Ei; [injection Ei as <-; exact Hxy|]. eapply H2; [|eassumption]. lia.
    + assert (Hx' : (value < x)%Q) by (apply Qnot_le_lt; rewrite <- Qle_bool_iff; congruence). right.
      destruct (IH k x (S k)) as [[E H]|(j & y & E & Ey & Hy & H1 & H2)]; rewrite E.
      * exists 0, x. split; [lia|]. split; [reflexivity|]. split; [exact Hx'|]. split.
        -- intros [|i] z Ei; cbn in Ei; [injection Ei as <-; apply Qle_refl|eapply H; eassumption].
        -- intros i z Hi. lia.
      * exists (S j), y. split; [lia|]. split; [exact Ey|]. split; [eapply Qlt_trans; eassumption|]. split.
        -- intros [|i] z Ei; cbn in Ei; [injection Ei as <-; apply Qlt_le_weak; exact Hy|eapply H1; eassumption].
        -- intros [|i] z Hi Ei; cbn in Ei; [injection Ei as <-; exact Hy|]. eapply H2; [|eassumption]. lia.
Qed.

Lemma argmax_spec l : l <> [] -> exists x, nth_error l (argmax l) = Some x /\
  (forall i y, nth_error l i = Some y -> (y <= x)%Q) /\ (forall i y, i < argmax l -> nth_error l i = Some y -> (y < x)%Q).
Proof.
  destruct l as [|x l]; [congruence|]. intros _. cbn [argmax].
  destruct (argmax_from_spec l 0 x 1) as [[-> H]|(j & y & -> & Ey & Hy & H1 & H2)].
  - exists x. split; [reflexivity|]. split; [|intros; lia].
    intros [|i] y Ei; cbn in Ei; [injection Ei as <-; apply Qle_refl|eapply H; eassumption].
  - exists y. split; [exact Ey|]. split.
    + intros [|i] z Ei; cbn in Ei; [injection Ei as <-; apply Qlt_le_weak; exact Hy|eapply H1; eassumption].
    + intros [|i] z Hi Ei; cbn in Ei; [injection Ei as <-; exact Hy|]. eapply H2; [|eassumption]. lia.
Qed.

Lemma run_cv_inv F splits Xv E m : run_cv fit score reconstruct absdiff F splits = Ok (Xv, E, m) ->
  exists sp ret k best, splits = Ok sp /\ Forall2 (Contributed F) sp ret /\
    nth_error ret k = Some best /\ m = p_model best /\
    (forall j p, nth_error ret j = Some p -> (p_score p <= p_score best)%Q /\ (j < k -> (p_score p < p_score best)%Q)) /\
    from_items (map (fun r => Collection (p_test r)) ret) None = Ok Xv /\
    from_items (map (fun r => Collection (p_err r)) ret) None = Ok E.
Proof.
  unfold run_cv. destruct splits as [sp|]; [|discriminate]. cbn [bind].
  destruct (map_result _ sp) as [ret|] eqn:Er; [|discriminate]. cbn [bind].
  destruct (nth_error ret _) as [best|] eqn:Eb; [|discriminate].
  destruct (from_items (map (fun r => Collection (p_test r)) ret) None) as [Xv'|] eqn:E1; [|discriminate]. cbn [bind].
  destruct (from_items (map (fun r => Collection (p_err r)) ret) None) as [E'|] eqn:E2; [|discriminate]. cbn [bind].
  intros H. injection H as <- <- <-. exists sp, ret, (argmax (map p_score ret)), best. split; [reflexivity|]. split.
  { apply map_result_inv in Er. clear -Er. induction Er; constructor; [apply fit_split_inv; assumption|assumption]. }
  split; [exact Eb|]. split; [reflexivity|]. split; [|auto].
  intros j p Ej. destruct (argmax_spec (map p_score ret)) as (x & Ex & H1 & H2).
  { destruct ret; [destruct j; discriminate|discriminate]. }
  rewrite nth_error_map, Eb in Ex. injection Ex as <-.
  assert (Ep : nth_error (map p_score ret) j = Some (p_score p)) by (rewrite nth_error_map, Ej; reflexivity).
  split; [eapply H1; exact Ep|]. intros Hj. eapply H2; [exact Hj|exact Ep].
Qed.

Lemma cv_aligned F splits Xv E m :
  (forall m X R X', reconstruct m X = Ok (R, X') -> Usable R X') ->
  run_cv fit score reconstruct absdiff F splits = Ok (Xv, E, m) ->
  forall e, In e E -> exists x sp split Tr Te m' R X' r x',
    In x Xv /\ rid x = rid e /\ rtime x = rtime e /\
    splits = Ok sp /\ In split sp /\ split_X F (fst split) (snd split) = Ok (Tr, Te) /\ fit Tr = Ok m' /\
    reconstruct m' Te = Ok (R, X') /\ In r R /\ In x' X' /\ rid x' = rid r /\ rtime x' = rtime r /\ rtime r = rtime e /\
    rval x = rval x' /\ rval e = absdiff (rval x') (rval r).
Proof.
  intros HU H e He. destruct (run_cv_inv _ _ _ _ _ H) as (sp & ret & k & best & -> & HF & _ & _ & _ & E1 & E2).
  assert (Hret : forall p, In p ret -> exists split Tr Te R, In split sp /\ split_X F (fst split) (snd split) = Ok (Tr, Te) /\ fit Tr = Ok (p_model p) /\
     reconstruct (p_model p) Te = Ok (R, p_test p) /\ Usable R (p_test p) /\ ValidRows (p_err p) /\
     Forall2 (ErrorOf absdiff (p_test p)) (tl R) (p_err p) /\ ids (p_err p) = ids (p_test p)).
  { intros p Hp. clear -HF Hp HU. induction HF as [|s q ss qs (Tr & Te & R & H1 & H2 & H3 & H4 & H5) HF IH]; [destruct Hp|].
    destruct Hp as [->|Hp].
    - assert (HUR := HU _ _ _ _ H4). destruct (compute_err_spec _ _ _ _ _ H4 (proj1 HUR) H5) as [HE HVE].
      exists s, Tr, Te, R. split; [left; reflexivity|]. repeat (split; [assumption|]). eapply error_ids; eassumption.
    - destruct (IH Hp) as (s' & Tr' & Te' & R' & Hs & HH). exists s', Tr', Te', R'. split; [right; exact Hs|exact HH]. }
  rewrite <- (map_map (fun p => p_test p) Collection) in E1. rewrite <- (map_map (fun p => p_err p) Collection) in E2.
  assert (VT : forall X, In X (map (fun p => p_test p) ret) -> ValidRows X).
  { intros X HX. apply in_map_iff in HX. destruct HX as (p & <- & Hp). destruct (Hret p Hp) as (_ & _ & _ & R & _ & _ & _ & _ & HUR & _). apply HUR. }
  assert (VE : forall X, In X (map (fun p => p_err p) ret) -> ValidRows X).
  { intros X HX. apply in_map_iff in HX. destruct HX as (p & <- & Hp). destruct (Hret p Hp) as (_ & _ & _ & R & _ & _ & _ & _ & _ & HVE & _). apply HVE. }
  apply (from_items_rows _ _ VE E2) in He. destruct He as (n & s & q & En & Hq & ->).
  set (l := map (fun p => (p_test p, p_err p)) ret).
  assert (El : forall {A} (f : frame -> list A) (g : part -> frame) (h : frame * frame -> frame), (forall p, h (p_test p, p_err p) = g p) ->
    flat_map f (map g ret) = flat_map (fun p => f (h p)) l).
  { intros A f g h Hgh. unfold l. rewrite !flat_map_concat_map, !map_map. f_equal. apply map_ext. intros p. rewrite Hgh. reflexivity. }
  rewrite (El _ _ (fun p => p_err p) snd (fun _ => eq_refl)) in En.
  destruct (parts_aligned l) with (k := n) (s := s) as (p0 & i & Hp0 & Hi & -> & En'); [|exact En|].
  { intros p Hp. unfold l in Hp. apply in_map_iff in Hp. destruct Hp as (p1 & <- & Hp1). cbn.
    destruct (Hret p1 Hp1) as (_ & _ & _ & _ & _ & _ & _ & _ & _ & _ & _ & Hids). symmetry. exact Hids. }
  unfold l in Hp0. apply in_map_iff in Hp0. destruct Hp0 as (p & <- & Hp). cbn [fst snd] in *.
  destruct (Hret p Hp) as (split & Tr & Te & R & Hs & HS & HFt & HR & HUR & HVE & HER & Hids).
  unfold pairs_of in Hq. apply in_map_iff in Hq. destruct Hq as (e0 & <- & He0). cbn [fst snd].
  unfold rows_of in He0. apply filter_In in He0. destruct He0 as [He0 Hi0]. apply Z.eqb_eq in Hi0.
  assert (exists r, In r (tl R) /\ ErrorOf absdiff (p_test p) r e0) as (r & Hr & x & Hx & G1 & G2 & ->).
  { apply In_nth_error in He0. destruct He0 as (a & Ea). clear -HER Ea. revert a Ea. induction HER as [|r e rs es H HF IH]; intros [|a] Ea; try discriminate.
    - injection Ea as <-. exists r. split; [left; reflexivity|exact H].
    - destruct (IH _ Ea) as (r' & Hr' & HE). exists r'. split; [right; exact Hr'|exact HE]. }
  cbn in Hi0 |- *.
  exists (mkRow (Z.of_nat n) (rtime x) (rval x)), sp, split, Tr, Te, (p_model p), R, (p_test p), r, x. cbn.
  split.
  { apply (from_items_rows _ _ VT E1). exists n, (pairs_of (p_test p) i), (rtime x, rval x).
    rewrite (El _ _ (fun p => p_test p) fst (fun _ => eq_refl)). split; [exact En'|]. split; [|reflexivity].
    unfold pairs_of. apply in_map_iff. exists x. split; [reflexivity|]. unfold rows_of. apply filter_In. split; [exact Hx|]. apply Z.eqb_eq. congruence. }
  assert (HrR : In r R) by (destruct R; [exact Hr|right; exact Hr]).
  repeat (split; [first [reflexivity | assumption]|]). reflexivity.
Qed.

(** Initial states of all series but the first stay. *)
Lemma initial_kept m (X X' E R : frame) r : reconstruct m X = Ok (R, X') -> ValidRows R ->
  compute_err reconstruct absdiff m X = Ok (X', E) -> In r (tl R) ->
  exists e, In e E /\ rid e = rid r /\ rtime e = rtime r.
Proof.
  intros ER HR HC Hr. destruct (compute_err_spec _ _ _ _ _ ER HR HC) as [HF _].
  apply In_nth_error in Hr. destruct Hr as (n & En). clear -HF En. revert n En.
  induction HF as [|r' e rs es (x & Hx & H1 & H2 & ->) HF IH]; intros [|n] En; try discriminate.
  - injection En as <-. eexists. split; [left; reflexivity|]. auto.
  - destruct (IH _ En) as (e & He & HH). exists e. split; [right; exact He|exact HH].
Qed.

(** ** The call *)

Context {D : Type}.
Variable transform : M -> frame -> result D.

Lemma never a b c F cv m : fst (fit_transform fit score reconstruct transform absdiff a b c F cv) <> Ok m.
Proof.
  unfold fit_transform, adapt. destruct (negb a); [discriminate|]. destruct b; [discriminate|]. destruct (negb c); [discriminate|].
  destruct cv as [splits|].
  - destruct (run_cv _ _ _ _ _ _) as [[[X E] m']|]; [|discriminate]. cbn [fst]. destruct (transform m' X); discriminate.
  - destruct (fit F) as [m'|]; [|discriminate]. destruct (compute_err _ _ _ _) as [[X E]|]; [|discriminate]. cbn [fst].
    destruct (transform m' X); discriminate.
Qed.

Lemma left_behind F m X E d : fit F = Ok m -> compute_err reconstruct absdiff m F = Ok (X, E) -> transform m X = Ok d ->
  fit_transform fit score reconstruct transform absdiff true false true F None = (Err TypeError, Some m).
Proof. intros E1 E2 E3. unfold fit_transform. cbn [negb]. rewrite E1, E2. unfold adapt. rewrite E3. reflexivity. Qed.

End Proofs.
