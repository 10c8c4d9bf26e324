(** * Proofs about the time values of predictions. *)

From Coq Require Import List ZArith Bool Arith Lia Sorted Permutation.
From Coq Require Import ZifyBool ZifyNat.
Import ListNotations.
From Verif Require Import Np NpFacts TscModel TscSpec TscBlocks TscProofs TscOps PredModel PredSpec.
Open Scope Z_scope.

Section Proofs.
Context {V W : Type}.
Notation frame := (list (row V)).

(** ** the reference *)

Lemma sorted_last_max (l : list Z) x : StronglySorted Z.lt l -> In x l -> x <= last l 0.
Proof.
  induction 1 as [|y l H IH Hf]; [easy|]. intros [->|Hi].
  - destruct l as [|z l]; [cbn; lia|].
    assert (In (last (z :: l) 0) (z :: l)).
    { destruct (exists_last (l := z :: l)) as (a & b & E); [discriminate|]. rewrite E at 1.
      rewrite last_last, E. apply in_or_app. right; left; reflexivity. }
    rewrite Forall_forall in Hf. specialize (Hf _ H0).
    change (last (x :: z :: l) 0) with (last (z :: l) 0). lia.
  - destruct l as [|z l]; [easy|]. change (last (y :: z :: l) 0) with (last (z :: l) 0).
    apply IH. exact Hi.
Qed.

Lemma last_in {A} (l : list A) d : l <> [] -> In (last l d) l.
Proof.
  intros H. destruct (exists_last H) as (a & b & ->). rewrite last_last.
  apply in_or_app. right; left; reflexivity.
Qed.

Lemma skipn_last {A} (l : list A) d : l <> [] -> skipn (length l - 1) l = [last l d].
Proof.
  intros H. destruct (exists_last H) as (a & b & ->). rewrite last_last, app_length. cbn [length].
  replace (length a + 1 - 1)%nat with (length a) by lia.
  rewrite skipn_app, skipn_all, Nat.sub_diag. reflexivity.
Qed.

Lemma rows_of_nonempty (F : frame) i : Occurs F i <-> rows_of F i <> [].
Proof.
  split.
  - intros (r & Hr & E) H. assert (In r (rows_of F i)) by (apply filter_In; split; [exact Hr|lia]).
    rewrite H in H0. destruct H0.
  - intros H. destruct (rows_of F i) as [|r l] eqn:E; [congruence|].
    assert (Hi : In r (rows_of F i)) by (rewrite E; left; reflexivity).
    apply filter_In in Hi. exists r. split; [apply Hi|lia].
Qed.

Lemma last_time_fun (F : frame) i s t : LastTime F i s -> LastTime F i t -> s = t.
Proof.
  intros [(a & A1 & A2 & A3) A4] [(b & B1 & B2 & B3) B4].
  specialize (A4 b B1 B2). specialize (B4 a A1 A2). lia.
Qed.

Lemma final_one (F : frame) : ValidRows F ->
  exists L, final_states F 1 = Ok L /\ ValidRows L /\
    (forall i, Occurs L i <-> Occurs F i) /\
    (forall i t, In t (times_of L i) <-> LastTime F i t).
Proof.
  intros HV.
  destruct (final_states_spec F 1 HV (le_n 1)) as (L & HL & VL & _ & HR).
  { intros i Ho. apply rows_of_nonempty in Ho. destruct (rows_of F i); [congruence|cbn; lia]. }
  exists L. split; [exact HL|]. split; [exact VL|].
  assert (HO : forall i, Occurs L i <-> Occurs F i).
  { intros i. rewrite !rows_of_nonempty, HR. split.
    - intros H E. rewrite E in H. apply H. reflexivity.
    - intros H E. destruct (rows_of F i) as [|a l] eqn:EF; [congruence|].
      rewrite (skipn_last (a :: l) a) in E by discriminate. discriminate. }
  split; [exact HO|].
  intros i t. unfold times_of. rewrite HR.
  destruct (rows_of F i) as [|a l] eqn:EF.
  - cbn. split; [tauto|]. intros [(r & Hr & E & _) _].
    assert (In r (rows_of F i)) by (apply filter_In; split; [exact Hr|lia]).
    rewrite EF in H. exact H.
  - rewrite (skipn_last (a :: l) a) by discriminate. rewrite <- EF.
    assert (Hne : rows_of F i <> []) by (rewrite EF; discriminate).
    assert (Hl := last_in (rows_of F i) a Hne).
    assert (Hmax : forall r, In r (rows_of F i) -> rtime r <= rtime (last (rows_of F i) a)).
    { intros r Hr. assert (Hs := times_of_sorted F i HV).
      assert (HH := sorted_last_max _ (rtime r) Hs (in_map rtime _ _ Hr)).
      unfold times_of in HH.
      destruct (exists_last Hne) as (p & q & Eq). rewrite Eq in HH |- *.
      rewrite map_app in HH. cbn in HH. rewrite last_last in HH |- *. exact HH. }
    apply filter_In in Hl. destruct Hl as [Hl1 Hl2].
    cbn. split.
    + intros [<-|[]]. split.
      * exists (last (rows_of F i) a). split; [exact Hl1|]. split; [lia|reflexivity].
      * intros r Hr E. apply Hmax. apply filter_In. split; [exact Hr|lia].
    + intros [(r & Hr & E & E2) Hm]. left.
      assert (rtime r <= rtime (last (rows_of F i) a)).
      { apply Hmax. apply filter_In. split; [exact Hr|lia]. }
      specialize (Hm _ Hl1 ltac:(lia)). lia.
Qed.

Lemma unique_single (l : list Z) r :
  np_unique l = [r] <-> l <> [] /\ forall x, In x l -> x = r.
Proof.
  split.
  - intros H. split.
    + intros ->. discriminate.
    + intros x Hx. apply in_np_unique in Hx. rewrite H in Hx. cbn in Hx. intuition.
  - intros [Hne H]. assert (Hs := np_unique_sorted l).
    assert (Hin : forall x, In x (np_unique l) <-> x = r).
    { intros x. rewrite in_np_unique. split; [apply H|]. intros ->.
      destruct l as [|y l]; [congruence|]. rewrite <- (H y); left; reflexivity. }
    destruct (np_unique l) as [|a [|b m]].
    + exfalso. destruct (proj2 (Hin r) eq_refl).
    + f_equal. apply Hin. left; reflexivity.
    + exfalso. assert (a = r) by (apply Hin; left; reflexivity).
      assert (b = r) by (apply Hin; right; left; reflexivity).
      apply StronglySorted_inv in Hs. destruct Hs as [_ Hf]. rewrite Forall_forall in Hf.
      specialize (Hf b (or_introl eq_refl)). lia.
Qed.

Lemma valid_occurs (F : frame) : ValidRows F -> exists i, Occurs F i.
Proof.
  intros HV. destruct F as [|r F]; [destruct (vr_nonempty _ HV eq_refl)|].
  exists (rid r), r. split; [left; reflexivity|reflexivity].
Qed.

Lemma reference_frame (k : tkind) now (F : frame) (U : uarg W) : ValidRows F ->
  (forall r, reference_time k now (XFrame F) U = Ok r <-> Reference F r) /\
  (forall e, reference_time k now (XFrame F) U = Err e -> e = ValueError).
Proof.
  intros HV. destruct (final_one F HV) as (L & HL & VL & HO & HT).
  cbn [reference_time]. rewrite HL. cbn [bind].
  assert (HM : forall r, np_unique (time_values L) = [r] <-> Reference F r).
  { intros r. rewrite unique_single. split.
    - intros [_ H] i Ho. apply HT.
      assert (Hne : rows_of L i <> []) by (apply rows_of_nonempty, HO; exact Ho).
      unfold times_of. destruct (rows_of L i) as [|a l] eqn:E; [congruence|].
      left.
        apply H. apply in_time_values. exists a. split; [|reflexivity].
        assert (Hi : In a (rows_of L i)) by (rewrite E; left; reflexivity).
        apply filter_In in Hi. apply Hi.
    - intros HR. split.
      + destruct (valid_occurs L VL) as (i & (a & Ha & Ei)). intros E.
        assert (Hin : In (rtime a) (time_values L)) by (apply in_time_values; exists a; auto).
        rewrite E in Hin. destruct Hin.
      + intros x Hx. apply in_time_values in Hx. destruct Hx as (a & Ha & <-).
        assert (Ho : Occurs F (rid a)) by (apply HO; exists a; auto).
        assert (HLT : LastTime F (rid a) (rtime a)).
        { apply HT. apply in_map. apply filter_In. split; [exact Ha|lia]. }
        exact (last_time_fun F _ _ _ HLT (HR _ Ho)). }
  split.
  - intros r. rewrite <- HM. destruct (np_unique (time_values L)) as [|a [|b l]]; split; intros H;
      try discriminate; injection H as ->; reflexivity.
  - intros e. destruct (np_unique (time_values L)) as [|a [|b l]]; intros H;
      try discriminate; injection H as <-; reflexivity.
Qed.

Lemma bind_ok {A B} (x : result A) (f : A -> result B) y :
  bind x f = Ok y -> exists a, x = Ok a /\ f a = Ok y.
Proof. destruct x as [a|e]; cbn; [|discriminate]. intros H. exists a. auto. Qed.

Lemma format_spec k tv l :
  validate_time_values_format k tv = Ok l <->
  l = tv /\ StronglySorted Z.lt tv /\ (k = KDatetime \/ forall t, In t tv -> 0 <= t).
Proof.
  unfold validate_time_values_format.
  assert (HD : forallb (fun d => 0 <? d) (np_diff tv) = true <-> StronglySorted Z.lt tv).
  { clear l. induction tv as [|x [|y r] IH].
    - split; [constructor|reflexivity].
    - split; [intros _; repeat constructor|reflexivity].
    - rewrite np_diff_cons2. cbn [forallb]. rewrite andb_true_iff, IH. split.
      + intros [H1 H2]. constructor; [exact H2|]. constructor; [lia|].
        inversion H2; subst. rewrite Forall_forall in *. intros z Hz. specialize (H4 z Hz). lia.
      + intros H. inversion H; subst. inversion H3; subst. split; [lia|exact H2]. }
  set (neg := match k with KDatetime => false | _ => existsb (fun t => t <? 0) tv end).
  assert (HN : neg = false <-> (k = KDatetime \/ forall t, In t tv -> 0 <= t)).
  { assert (HE : existsb (fun t => t <? 0) tv = false <-> forall t, In t tv -> 0 <= t).
    { rewrite existsb_false_forall. split; intros H t Ht; specialize (H t Ht); lia. }
    unfold neg. destruct k; rewrite ?HE; intuition (try discriminate; auto). }
  destruct neg.
  - split; [discriminate|]. intros (_ & _ & H). apply HN in H. discriminate.
  - destruct (forallb _ _) eqn:E; cbn.
    + split.
      * intros H. injection H as <-. split; [reflexivity|]. split; [apply HD; reflexivity|apply HN; reflexivity].
      * intros (-> & _). reflexivity.
    + split; [discriminate|]. intros (_ & H & _). apply HD in H. discriminate.
Qed.

Lemma tolerance_frame k eps (F : frame) (U : uarg W) : tolerance k eps (XFrame F) U = tol_of k eps.
Proof. destruct k, U; reflexivity. Qed.

Lemma tol_nonneg k eps : 0 <= eps -> 0 <= tol_of k eps.
Proof. destruct k; cbn; lia. Qed.

(** ** uncontrolled prediction from a collection *)

Lemma requested_times k eps now dt rl (F : frame) (U : uarg W) l ts r :
  ValidRows F -> 0 <= eps -> Reference F r ->
  predict_time_values k eps now dt rl (XFrame F) U (Some l) = Ok ts ->
  StronglySorted Z.lt ts /\ incl l ts /\
  (forall t, In t ts -> In t l \/ t = r) /\
  (forall t, In t l -> r - tol_of k eps <= t) /\
  (exists t0 rest, ts = t0 :: rest /\ Z.abs (t0 - r) <= tol_of k eps).
Proof.
  intros HV He HR. unfold predict_time_values.
  rewrite (proj2 (proj1 (reference_frame k now F U HV) r) HR). cbn [bind].
  rewrite tolerance_frame. set (tol := tol_of k eps).
  assert (Ht : 0 <= tol) by (apply tol_nonneg; exact He). clearbody tol.
  intros H. apply bind_ok in H. destruct H as (l' & H1 & H).
  apply format_spec in H1. destruct H1 as (-> & Hs & _).
  apply bind_ok in H. destruct H as (l' & H1 & H).
  assert (l' = l).
  { clear -H1. destruct U as [|G|n|].
    - injection H1 as <-; reflexivity.
    - apply bind_ok in H1. destruct H1 as (q & _ & H1).
      destruct (_ && _); [injection H1 as <-; reflexivity|discriminate].
    - destruct (_ =? _)%nat; [injection H1 as <-; reflexivity|discriminate].
    - injection H1 as <-; reflexivity. }
  subst l'. clear H1.
  destruct (existsb (fun x => x <? r - tol) l) eqn:Ex; [discriminate|].
  rewrite existsb_false_forall in Ex.
  destruct l as [|t0 l]; [discriminate|].
  destruct (tol <? Z.abs (r - t0)) eqn:Ed; injection H as <-.
  - assert (r - tol <= t0) by (specialize (Ex t0 (or_introl eq_refl)); lia).
    split; [|split; [|split; [|split]]].
    + constructor; [exact Hs|]. inversion Hs; subst. constructor; [lia|].
      rewrite Forall_forall in *. intros x Hx. specialize (H3 x Hx). lia.
    + intros x Hx. right. exact Hx.
    + intros x [<-|Hx]; [right; reflexivity|left; exact Hx].
    + intros t Hin. specialize (Ex t Hin). lia.
    + exists r, (t0 :: l). split; [reflexivity|lia].
  - split; [exact Hs|]. split; [intros x Hx; exact Hx|]. split; [intros x Hx; left; exact Hx|].
    split; [intros t Hin; specialize (Ex t Hin); lia|].
    exists t0, l. split; [reflexivity|lia].
Qed.

Lemma requested_accepted k eps now dt rl (F : frame) l r :
  ValidRows F -> 0 <= eps -> Reference F r ->
  (exists ts, predict_time_values (W := W) k eps now dt rl (XFrame F) UNone (Some l) = Ok ts) <->
  (l <> [] /\ StronglySorted Z.lt l /\ (k = KDatetime \/ forall t, In t l -> 0 <= t) /\
   forall t, In t l -> r - tol_of k eps <= t).
Proof.
  intros HV He HR. split.
  - intros (ts & H). assert (H' := requested_times _ _ _ _ _ _ _ _ _ _ HV He HR H).
    destruct H' as (_ & _ & _ & Hr & _).
    unfold predict_time_values in H.
    rewrite (proj2 (proj1 (reference_frame k now F UNone HV) r) HR) in H. cbn [bind] in H.
    apply bind_ok in H. destruct H as (l' & H1 & H). apply format_spec in H1.
    destruct H1 as (-> & Hs & Hn). cbn [bind] in H.
    split; [|auto]. intros ->. discriminate.
  - intros (Hne & Hs & Hn & Hr). unfold predict_time_values.
    rewrite (proj2 (proj1 (reference_frame k now F UNone HV) r) HR). cbn [bind].
    rewrite (proj2 (format_spec k l l)) by auto. cbn [bind]. rewrite tolerance_frame.
    destruct (existsb _ _) eqn:Ex.
    + apply existsb_exists in Ex. destruct Ex as (x & Hx & Hlt). specialize (Hr x Hx). lia.
    + destruct l as [|t0 l]; [congruence|]. destruct (_ <? _); eexists; reflexivity.
Qed.

Lemma default_times k eps now dt rl (F : frame) r :
  ValidRows F -> Reference F r ->
  predict_time_values (W := W) k eps now dt rl (XFrame F) UNone None = Ok [r; r + dt].
Proof.
  intros HV HR. unfold predict_time_values.
  rewrite (proj2 (proj1 (reference_frame k now F UNone HV) r) HR). reflexivity.
Qed.

Lemma no_common_reference k eps now dt rl (F : frame) (U : uarg W) tv i j s t :
  ValidRows F -> LastTime F i s -> LastTime F j t -> s <> t ->
  predict_time_values k eps now dt rl (XFrame F) U tv = Err ValueError.
Proof.
  intros HV Hi Hj Hne. unfold predict_time_values.
  destruct (reference_frame k now F U HV) as [H1 H2].
  destruct (reference_time k now (XFrame F) U) as [r|e] eqn:E.
  - exfalso. apply Hne. assert (HR : Reference F r) by (apply H1; reflexivity).
    assert (Oi : Occurs F i) by (destruct Hi as [(a & A1 & A2 & _) _]; exists a; auto).
    assert (Oj : Occurs F j) by (destruct Hj as [(a & A1 & A2 & _) _]; exists a; auto).
    rewrite (last_time_fun F i s r Hi (HR i Oi)). symmetry. exact (last_time_fun F j t r Hj (HR j Oj)).
  - cbn [bind]. rewrite (H2 e eq_refl). reflexivity.
Qed.

(** ** array-valued X *)

Lemma array_times k eps now dt rl (l : list Z) ts : k <> KDatetime ->
  predict_time_values (V := V) (W := W) k eps now dt rl XArray UNone (Some l) = Ok ts <->
  ts = l /\ StronglySorted Z.lt l /\ forall t, In t l -> 0 <= t.
Proof.
  intros Hk. unfold predict_time_values. cbn [reference_time].
  replace (match k with KDatetime => Ok now | _ => Ok 0 end) with (@Ok Z 0) by (destruct k; congruence).
  cbn [bind]. split.
  - intros H. apply bind_ok in H. destruct H as (l' & H1 & H). apply format_spec in H1.
    destruct H1 as (-> & Hs & Hn). cbn in H. injection H as <-. intuition congruence.
  - intros (-> & Hs & Hn). rewrite (proj2 (format_spec k l l)) by auto. reflexivity.
Qed.

(** ** control given as array *)

Lemma arange_exact start n dt : 0 < dt ->
  arange_step start (start + 0 + Z.of_nat n * dt) dt = equispaced start dt n.
Proof.
  intros Hd. unfold arange_step, equispaced. do 2 f_equal.
  replace (start + 0 + Z.of_nat n * dt - start + dt - 1) with (dt - 1 + Z.of_nat n * dt) by lia.
  rewrite Z.div_add by lia. rewrite Z.div_small by lia. lia.
Qed.

Lemma arange_tol start n dt tol : 0 < tol <= dt ->
  arange_step start (start + tol + Z.of_nat n * dt) dt = equispaced start dt (S n).
Proof.
  intros Hd. unfold arange_step, equispaced. do 2 f_equal.
  replace (start + tol + Z.of_nat n * dt - start + dt - 1)
    with (tol - 1 + Z.of_nat (S n) * dt) by lia.
  rewrite Z.div_add by lia. rewrite Z.div_small by lia. lia.
Qed.

Lemma control_array_times k eps now dt rl (F : frame) n r :
  ValidRows F -> 0 < dt -> Reference F r -> k <> KFloat ->
  predict_time_values (W := W) k eps now dt rl (XFrame F) (UArray n) None
  = Ok (equispaced r dt (if rl then n else S n)).
Proof.
  intros HV Hd HR Hk. unfold predict_time_values.
  rewrite (proj2 (proj1 (reference_frame k now F _ HV) r) HR). cbn [bind].
  rewrite tolerance_frame. replace (tol_of k eps) with 0 by (destruct k; [reflexivity|congruence|reflexivity]).
  rewrite arange_exact by exact Hd. unfold extra. do 2 f_equal. destruct rl; lia.
Qed.

Lemma control_array_times_float eps now dt rl (F : frame) n r :
  ValidRows F -> 0 < eps <= dt -> Reference F r ->
  predict_time_values (W := W) KFloat eps now dt rl (XFrame F) (UArray n) None
  = Ok (equispaced r dt (if rl then S n else S (S n))).
Proof.
  intros HV Hd HR. unfold predict_time_values.
  rewrite (proj2 (proj1 (reference_frame KFloat now F _ HV) r) HR). cbn [bind].
  rewrite tolerance_frame. cbn [tol_of]. rewrite arange_tol by exact Hd.
  unfold extra. do 2 f_equal. destruct rl; lia.
Qed.

(** ** control given as collection *)

Lemma hd_sorted_min (l : list Z) x y m : StronglySorted Z.lt l -> l = x :: m -> In y l -> x <= y.
Proof.
  intros H -> Hy. inversion H; subst. rewrite Forall_forall in H3. destruct Hy as [->|Hy]; [lia|].
  specialize (H3 y Hy). lia.
Qed.

End Proofs.

Section Common.
Context {V : Type}.
Notation frame := (list (row V)).

Lemma common_times (F : frame) ts : ValidRows F -> CommonTimes F ts -> time_values F = ts.
Proof.
  intros HV HC. destruct (valid_occurs F HV) as (i & Hi).
  assert (HS : StronglySorted Z.lt ts) by (rewrite <- (HC i Hi); apply times_of_sorted; exact HV).
  unfold time_values. rewrite <- (np_unique_of_sorted ts HS). apply np_unique_ext.
  intros t. split.
  - intros H. apply in_map_iff in H. destruct H as (r & <- & Hr).
    assert (Ho : Occurs F (rid r)) by (exists r; auto).
    rewrite <- (HC _ Ho). apply in_map. apply filter_In. split; [exact Hr|lia].
  - rewrite <- (HC i Hi). unfold times_of. intros H. apply in_map_iff in H. destruct H as (r & <- & Hr).
    apply filter_In in Hr. apply in_map. apply Hr.
Qed.

Lemma same_times_common (F : frame) : ValidRows F -> is_same_time_values F = true ->
  CommonTimes F (time_values F).
Proof.
  intros HV H. rewrite (is_same_time_values_spec F HV) in H.
  destruct (valid_occurs F HV) as (i & Hi).
  assert (HC : CommonTimes F (times_of F i)) by (intros j Hj; apply H; auto).
  rewrite (common_times F _ HV HC). exact HC.
Qed.

Lemma initial_one (F : frame) : ValidRows F ->
  exists I, initial_states F 1 = Ok I /\ ValidRows I /\ Subseq I F /\
            forall i, rows_of I i = firstn 1 (rows_of F i).
Proof.
  intros HV. apply (initial_states_spec F 1 HV (le_n 1)).
  intros i Ho. apply rows_of_nonempty in Ho. destruct (rows_of F i); [congruence|cbn; lia].
Qed.

(** IDs in storage order, one entry per series. *)
Lemma ids_index_single (F : frame) : ValidRows F ->
  (forall i, (length (rows_of F i) <= 1)%nat) -> NoDup (ids_index F).
Proof.
  intros HV H1. apply NoDup_nth_error. intros a b Ha E.
  assert (Hx : forall (l : frame) a b, (a < b)%nat -> nth_error (ids_index l) a = nth_error (ids_index l) b ->
              (b < length l)%nat -> exists i, (2 <= length (rows_of l i))%nat).
  { clear. induction l as [|r l IH]; intros a b Hab E Hb; [cbn in Hb; lia|].
    destruct b as [|b]; [lia|]. destruct a as [|a].
    - cbn in E. exists (rid r). unfold rows_of. cbn. rewrite Z.eqb_refl. cbn.
      symmetry in E. apply nth_error_In in E. apply in_map_iff in E. destruct E as (q & Eq & Hq).
      assert (In q (filter (fun r0 => rid r0 =? rid r) l)) by (apply filter_In; split; [exact Hq|lia]).
      destruct (filter _ l); [destruct H|cbn; lia].
    - cbn in E. destruct (IH a b ltac:(lia) E ltac:(cbn in Hb; lia)) as (i & Hi).
      exists i. unfold rows_of in *. cbn. destruct (rid r =? i); cbn; lia. }
  assert (Hb : (b < length (ids_index F))%nat).
  { apply nth_error_Some. rewrite <- E. apply nth_error_Some. exact Ha. }
  unfold ids_index in Ha, Hb. rewrite map_length in Ha, Hb.
  destruct (Nat.lt_trichotomy a b) as [Hlt|[->|Hlt]]; [|reflexivity|]; exfalso.
  - destruct (Hx F a b Hlt E Hb) as (i & Hi). specialize (H1 i). lia.
  - destruct (Hx F b a Hlt (eq_sym E) Ha) as (i & Hi). specialize (H1 i). lia.
Qed.

End Common.
