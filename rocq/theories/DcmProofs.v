(** * Proofs: the vectorised simulation of the DC motor. *)

From Coq Require Import List ZArith Bool Arith Lia Sorted Permutation.
Import ListNotations.
From Verif Require Import Np NpFacts TscModel TscSpec TscProofs TscBlocks TscDt TscBuild PredSpec PredProofs PredControl
  ChkSpec AccProofs BldBuild BldProofs ChkProofs CtrSpec CtrProofs EdpProofs DcmModel DcmSpec.
Open Scope Z_scope.

(** ** the series of a tensor *)

Section Tensor.
Context {V : Type}.

Lemma sorted_same (l : list (row V)) : forall m, StronglySorted Z.lt (map rtime l) -> StronglySorted Z.lt (map rtime m) ->
  (forall r, In r l <-> In r m) -> l = m.
Proof.
  induction l as [|a l IH]; intros [|b m] Hl Hm H; [reflexivity| | |].
  - destruct (proj2 (H b) (or_introl eq_refl)).
  - destruct (proj1 (H a) (or_introl eq_refl)).
  - cbn in Hl, Hm. inversion Hl as [|? ? Hl1 Hl2]; inversion Hm as [|? ? Hm1 Hm2]; subst.
    rewrite Forall_forall in Hl2, Hm2.
    assert (E : a = b).
    { destruct (proj1 (H a) (or_introl eq_refl)) as [E|Ha]; [congruence|].
      destruct (proj2 (H b) (or_introl eq_refl)) as [E|Hb]; [congruence|].
      apply (in_map rtime) in Ha. apply (in_map rtime) in Hb. apply Hm2 in Ha. apply Hl2 in Hb. lia. }
    subst b. f_equal. apply IH; [assumption..|]. intros r. split; intros Hr.
    + destruct (proj1 (H r) (or_intror Hr)) as [<-|]; [|assumption]. apply (in_map rtime) in Hr. apply Hl2 in Hr. lia.
    + destruct (proj2 (H r) (or_intror Hr)) as [<-|]; [|assumption]. apply (in_map rtime) in Hr. apply Hm2 in Hr. lia.
Qed.

Lemma nth_error_combine_inv {A B} (l : list A) : forall (m : list B) p, In p (combine l m) ->
  exists k, nth_error l k = Some (fst p) /\ nth_error m k = Some (snd p).
Proof.
  induction l as [|a l IH]; intros [|b m] p H; cbn in H; try easy. destruct H as [<-|H].
  - exists O. split; reflexivity.
  - destruct (IH m p H) as (k & H1 & H2). exists (S k). split; assumption.
Qed.

Lemma tensor_series (tensor : list (list V)) n oi ts :
  let i := opt_ids (length tensor) oi in
  tensor <> [] -> (1 <= n)%nat -> (forall s, In s tensor -> length s = n) ->
  length i = length tensor -> NoDup i -> (forall x, In x i -> 0 <= x) ->
  length ts = n -> StronglySorted Z.lt ts -> (forall x, In x ts -> 0 <= x) ->
  exists F, from_tensor tensor n oi (Some ts) = Ok F /\ ValidRows F /\ IdsSorted F /\
    (forall x, Occurs F x <-> In x i) /\
    forall a x s, nth_error i a = Some x -> nth_error tensor a = Some s ->
      rows_of F x = map (fun p => mkRow x (fst p) (snd p)) (combine ts s).
Proof.
  intros i Hne Hn Hs Hi Hnd Hp Ht Hst Hpt.
  assert (Hndt : NoDup ts).
  { clear - Hst. induction Hst as [|a l H IH Hf]; constructor; [|assumption]. rewrite Forall_forall in Hf. intros H1. apply Hf in H1. lia. }
  destruct (from_tensor_spec tensor n oi (Some ts) Hne Hn Hs Hi Hnd Hp Ht Hndt Hpt) as (F & EF & HV & HI & _ & HIn).
  exists F. split; [exact EF|]. split; [exact HV|]. split; [exact HI|]. split.
  - intros x. split.
    + intros (r & Hr & <-). apply HIn in Hr. destruct Hr as (a & b & s & Ha & _). apply (nth_error_In _ _ Ha).
    + intros Hx. apply In_nth_error in Hx. destruct Hx as (a & Ha).
      assert (La : (a < length tensor)%nat) by (rewrite <- Hi; apply nth_error_Some; congruence).
      destruct (nth_error tensor a) as [s|] eqn:Es; [|apply nth_error_None in Es; lia].
      assert (Ls := Hs s (nth_error_In _ _ Es)).
      destruct s as [|v s]; [cbn in Ls; lia|]. destruct ts as [|t ts]; [cbn in Ht; lia|].
      exists (mkRow x t v). split; [|reflexivity]. apply HIn. exists a, O, (v :: s). cbn. auto.
  - intros a x s Ha Es. assert (Ls := Hs s (nth_error_In _ _ Es)). apply sorted_same.
    + apply (times_of_sorted F x HV).
    + assert (E : map rtime (map (fun p => mkRow x (fst p) (snd p)) (combine ts s)) = ts); [|rewrite E; exact Hst].
      rewrite map_map. cbn. clear - Ls Ht. revert s Ls. rewrite <- Ht. clear Ht. induction ts as [|t l IH]; intros [|v s] L; cbn in *; try lia; [reflexivity|].
      f_equal. apply IH. lia.
    + intros r. unfold rows_of. rewrite filter_In, HIn. split.
      * intros ((a' & b & s' & H1 & H2 & H3 & H4) & Hr). apply Z.eqb_eq in Hr. rewrite Hr in H1.
        assert (a' = a). { apply (proj1 (NoDup_nth_error i) Hnd); [apply nth_error_Some; fold i in H1; rewrite H1; discriminate|exact (eq_trans H1 (eq_sym Ha))]. }
        subst a'. rewrite Es in H2. injection H2 as <-.
        apply in_map_iff. exists (rtime r, rval r). split; [cbn; rewrite <- Hr; destruct r; reflexivity|].
        apply (nth_error_In _ b). apply nth_error_combine; assumption.
      * intros H. apply in_map_iff in H. destruct H as (p & <- & H). apply nth_error_combine_inv in H.
        destruct H as (k & H1 & H2). split; [|cbn; lia]. exists a, k, s. cbn. auto.
Qed.

End Tensor.

(** ** the loop *)

Section Loop.
Context {V W : Type}.
Variable rk : Z -> V -> W -> V.

Lemma strided_skip {A} n : forall (b : list A) i rest, (i < n)%nat -> length b = n ->
  forall x, nth_error b i = Some x -> strided n i (b ++ rest) = x :: strided n i rest.
Proof.
  intros b i rest Hi Hl x Hx.
  assert (E : forall (c : list A) k, (length c <= k)%nat -> strided n k (c ++ rest) = strided n (k - length c) rest).
  { induction c as [|y c IH]; intros k Hk; cbn [app length]; [rewrite Nat.sub_0_r; reflexivity|]. cbn [length] in Hk.
    destruct k as [|k]; [lia|]. cbn [strided]. rewrite IH by lia. f_equal. }
  clear Hi. revert b Hl Hx.
  assert (E2 : forall i (b : list A), nth_error b i = Some x -> (length b <= n + i)%nat -> strided n i (b ++ rest) = x :: strided n (n + i - length b) rest).
  { clear i. induction i as [|i IH]; intros [|y b] Hx Hb; try discriminate.
    - cbn in Hx. injection Hx as ->. cbn [app strided]. f_equal. cbn [length] in *. rewrite E by lia. f_equal. lia.
    - cbn [nth_error] in Hx. cbn [app strided length] in *. rewrite IH by (assumption || lia). f_equal. f_equal. lia. }
  intros b Hl Hx. rewrite (E2 i b Hx) by lia. f_equal. f_equal. lia.
Qed.

(** The states of a block of controls. *)
Lemma strided_blocks n i (us : list (list W)) : (i < n)%nat -> (forall u, In u us -> length u = n) ->
  length (strided n i (concat us)) = length us /\
  forall j u, nth_error us j = Some u -> nth_error (strided n i (concat us)) j = nth_error u i.
Proof.
  intros Hi Hl. induction us as [|b us IH].
  - split; [reflexivity|]. intros [|j] u H; discriminate.
  - destruct (nth_error b i) as [x|] eqn:Ex.
    2:{ apply nth_error_None in Ex. rewrite (Hl b (or_introl eq_refl)) in Ex. lia. }
    cbn [concat]. rewrite (strided_skip n b i _ Hi (Hl b (or_introl eq_refl)) x Ex).
    destruct IH as (H1 & H2); [intros u Hu; apply Hl; right; exact Hu|]. split; [cbn; rewrite H1; reflexivity|].
    intros [|j] u Hj; cbn in *; [congruence|]. apply H2. exact Hj.
Qed.

Lemma rk_loop_states d n (us : list (list W)) : (forall u, In u us -> length u = n) ->
  forall m a Xs, (a + m = n)%nat -> length Xs = length us ->
  exists Ys, rk_loop rk d n (concat us) Xs (seq a m) = Ok Ys /\ length Ys = length Xs /\
    forall j p u, nth_error Xs j = Some p -> nth_error us j = Some u ->
      exists q, nth_error Ys j = Some q /\ fst q ++ [snd q] = fst p ++ states (rk d) (snd p) (skipn a u).
Proof.
  intros Hl. induction m as [|m IH]; intros a Xs Ha Hx.
  - exists Xs. split; [reflexivity|]. split; [reflexivity|]. intros j p u Hp Hu. exists p. split; [exact Hp|].
    rewrite skipn_all2; [reflexivity|]. rewrite (Hl u (nth_error_In _ _ Hu)). lia.
  - cbn [seq rk_loop]. destruct (strided_blocks n a us ltac:(lia) Hl) as (L1 & L2). unfold rk_all.
    rewrite L1, Hx, Nat.eqb_refl. cbn [bind].
    set (Zs := map _ _).
    assert (LZ : length Zs = length Xs) by (unfold Zs; rewrite map_length, combine_length; lia).
    destruct (IH (S a) Zs ltac:(lia) ltac:(lia)) as (Ys & E & LY & HY). exists Ys. split; [exact E|]. split; [lia|].
    intros j p u Hp Hu. assert (Lu := Hl u (nth_error_In _ _ Hu)).
    destruct (nth_error u a) as [w|] eqn:Ew; [|apply nth_error_None in Ew; lia].
    assert (Hz : nth_error Zs j = Some (advance rk d p w)).
    { unfold Zs. rewrite (map_nth_error (fun q => advance rk d (fst q) (snd q)) j (combine Xs (strided n a (concat us))) (d := (p, w))); [reflexivity|].
      apply nth_error_combine; [exact Hp|]. rewrite (L2 j u Hu). exact Ew. }
    destruct (HY j _ u Hz Hu) as (q & Hq & Eq). exists q. split; [exact Hq|]. rewrite Eq. unfold advance. cbn [fst snd].
    rewrite <- app_assoc. f_equal.
    assert (Es : skipn a u = w :: skipn (S a) u).
    { clear - Ew. revert u Ew. induction a as [|a IH]; intros [|x u] H; try discriminate; cbn in *; [congruence|]. apply IH. exact H. }
    rewrite Es. reflexivity.
Qed.

End Loop.

(** ** predict_vectorize *)

Section Predict.
Context {V W : Type}.
Variable rk : Z -> V -> W -> V.

Lemma blocks_values (bs : list (Z * list (Z * W))) : to_numpy (flatten bs) = concat (map (fun b => map snd (snd b)) bs).
Proof.
  induction bs as [|b bs IH]; [reflexivity|]. rewrite flatten_cons. unfold to_numpy in *. rewrite map_app, IH. cbn [map concat].
  f_equal. unfold brows, series_rows. rewrite map_map. reflexivity.
Qed.

Lemma blocks_values_of (bs : list (Z * list (Z * W))) : wfb bs -> IdsSorted (flatten bs) ->
  map (values_of (flatten bs)) (ids (flatten bs)) = map (fun b => map snd (snd b)) bs.
Proof.
  intros Wf HS. rewrite (ids_sorted_blocks bs Wf HS), map_map. apply map_ext_in. intros b Hb. unfold values_of.
  rewrite (rows_of_flatten bs b (wf_nodup _ Wf) Hb). apply vals_brows.
Qed.

Lemma n_series_rows (X : list (row V)) : NoDup (map rid X) -> n_timeseries X = length X.
Proof.
  intros Hnd. unfold n_timeseries, ids. fold (ids_index X).
  rewrite (proj2 (np_unique_length_NoDup (ids_index X)) Hnd). apply map_length.
Qed.

Lemma arange_nth m a : (a < m)%nat -> nth_error (np_arange m) a = Some (Z.of_nat a).
Proof.
  intros H. unfold np_arange. rewrite (map_nth_error Z.of_nat a (seq 0 m) (d := a)); [reflexivity|].
  rewrite (nth_error_nth' _ O) by (rewrite seq_length; exact H). rewrite seq_nth by exact H. reflexivity.
Qed.

(** The simulation of the states [X] with the controls of the blocks. *)
Lemma simulate (X : list (row V)) (us : list (list W)) d n ts :
  X <> [] -> length X = length us -> (1 <= n)%nat -> (forall u, In u us -> length u = n) ->
  length ts = (n + 1)%nat -> StronglySorted Z.lt ts -> (forall t, In t ts -> 0 <= t) ->
  exists R, bind (rk_loop rk d n (concat us) (map (fun r => ([], rval r)) X) (seq 0 n)) (fun Xs =>
    from_tensor (map (fun p => fst p ++ [snd p]) Xs) (n + 1) None (Some ts)) = Ok R /\
    ValidRows R /\ SimulatedByPosition rk (map rval X) us d ts R.
Proof.
  intros Hne HL Hn Hu Ht Hs Hp.
  destruct (rk_loop_states rk d n us Hu n O (map (fun r => ([], rval r)) X) ltac:(lia) ltac:(rewrite map_length; exact HL))
    as (Ys & E & LY & HY). rewrite E. cbn [bind]. rewrite map_length in LY.
  set (T := map (fun p => fst p ++ [snd p]) Ys).
  assert (LT : length T = length X) by (unfold T; rewrite map_length; exact LY).
  assert (HT : forall j x u, nth_error (map rval X) j = Some x -> nth_error us j = Some u -> nth_error T j = Some (states (rk d) x u)).
  { intros j x u Hx Hj. apply nth_error_In in Hj as Hi. 
    assert (Hx' : nth_error (map (fun r => (@nil V, rval r)) X) j = Some ([], x)).
    { rewrite nth_error_map in Hx |- *. destruct (nth_error X j) as [r|]; [|discriminate]. cbn in *. congruence. }
    destruct (HY j _ u Hx' Hj) as (q & Hq & Eq). unfold T. rewrite nth_error_map, Hq. cbn [option_map]. rewrite Eq. reflexivity. }
  assert (HsT : forall s, In s T -> length s = (n + 1)%nat).
  { intros s Hin. apply In_nth_error in Hin. destruct Hin as (j & Hj).
    assert (Lj : (j < length X)%nat) by (rewrite <- LT; apply nth_error_Some; congruence).
    destruct (nth_error (map rval X) j) as [x|] eqn:Ex; [|apply nth_error_None in Ex; rewrite map_length in Ex; lia].
    destruct (nth_error us j) as [u|] eqn:Eu; [|apply nth_error_None in Eu; lia].
    rewrite (HT j x u Ex Eu) in Hj. injection Hj as <-. rewrite states_length, (Hu u (nth_error_In _ _ Eu)). lia. }
  destruct (tensor_series T (n + 1) None ts) as (R & ER & HV & _ & HO & HR).
  - intros E0. apply (f_equal (@length _)) in E0. rewrite LT in E0. destruct X; [congruence|discriminate].
  - lia.
  - exact HsT.
  - cbn. apply np_arange_len.
  - cbn. apply FinFun.Injective_map_NoDup; [intros a b; lia|apply seq_NoDup].
  - cbn. intros x Hx. apply in_map_iff in Hx. destruct Hx as (k & <- & _). lia.
  - exact Ht.
  - exact Hs.
  - exact Hp.
  - exists R. split; [exact ER|]. split; [exact HV|]. split.
    + intros i. rewrite HO. cbn [opt_ids]. rewrite LT, map_length. unfold np_arange. rewrite in_map_iff. split.
      * intros (k & <- & Hk). apply in_seq in Hk. lia.
      * intros Hi. exists (Z.to_nat i). split; [lia|]. apply in_seq. lia.
    + intros j x u Hx Hj.
      assert (Lj : (j < length T)%nat). { rewrite LT, <- (map_length rval). apply nth_error_Some. congruence. }
      rewrite (HR j (Z.of_nat j) _ (arange_nth _ _ Lj) (HT j x u Hx Hj)).
      rewrite (combine_states (fun _ : V => true) 1 (fun y _ => y) (rk d) (fun y => y) (le_n 1) ts u x) by (rewrite (Hu u (nth_error_In _ _ Hj)); lia). rewrite map_map. reflexivity.
Qed.

Lemma sorted_snoc (l : list Z) d : l <> [] -> StronglySorted Z.lt l -> 0 < d -> StronglySorted Z.lt (l ++ [last l 0 + d]).
Proof.
  intros Hne Hs Hd. induction Hs as [|a l Hs IH Hf]; [congruence|]. destruct l as [|b l].
  - cbn. repeat constructor. lia.
  - cbn [app]. constructor; [exact (IH ltac:(discriminate))|]. rewrite Forall_forall in *. intros x Hx.
    change (last (a :: b :: l) 0) with (last (b :: l) 0) in Hx.
    change (b :: l ++ [last (b :: l) 0 + d]) with ((b :: l) ++ [last (b :: l) 0 + d]) in Hx. apply in_app_iff in Hx.
    destruct Hx as [Hx|[<-|[]]]; [apply Hf; exact Hx|].
    assert (H := Hf (last (b :: l) 0)). assert (Hin : In (last (b :: l) 0) (b :: l)).
    { clear. revert b. induction l as [|c l IH]; intros b; [left; reflexivity|]. right. exact (IH c). }
    specialize (H Hin). lia.
Qed.


Lemma vectorize_many (X : list (row V)) (U : list (row W)) tv ts d :
  X <> [] -> NoDup (map rid X) -> ValidRows U -> IdsSorted U -> SmallSteps U -> length X = length (ids U) ->
  CommonTimes U ts -> AllRegular U d ->
  exists R, predict_vectorize rk X U tv = Ok R /\ ValidRows R /\
    SimulatedByPosition rk (map rval X) (map (values_of U) (ids U)) d (ts ++ [last ts 0 + d]) R.
Proof.
  intros Hne Hnd HV HI HS HL HC HD.
  assert (ED : check_const_time_delta KInt U = Ok d) by (apply const_dt_ok; assumption).
  assert (Hd := allregular_pos U d HV HD).
  assert (ET := common_times U ts HV HC).
  destruct (valid_occurs U HV) as (i0 & Hi0).
  assert (Hst : StronglySorted Z.lt ts) by (rewrite <- (HC i0 Hi0); apply times_of_sorted; exact HV).
  assert (H2 : (2 <= length ts)%nat).
  { rewrite <- (HC i0 Hi0). unfold times_of. rewrite map_length. apply (HD i0 Hi0). }
  assert (Hp : forall t, In t ts -> 0 <= t).
  { intros t Ht. rewrite <- (HC i0 Hi0) in Ht. apply in_map_iff in Ht. destruct Ht as (r & <- & Hr).
    apply filter_In in Hr. apply (vr_times _ HV r), Hr. }
  unfold predict_vectorize. rewrite (n_series_rows X Hnd).
  destruct (valid_blocks U HV) as (bs & -> & Wf).
  assert (EV := blocks_values_of bs Wf HI). assert (EI := ids_sorted_blocks bs Wf HI).
  rewrite (n_timeseries_blocks bs Wf). rewrite EI, map_length in HL. rewrite HL, Nat.eqb_refl. cbn [negb].
  assert (HB := block_times bs ts Wf HC).
  assert (HN : n_timesteps (flatten bs) = NInt (length ts)).
  { apply (n_timesteps_blocks bs _ Wf). intros b Hb. rewrite <- (HB b Hb), map_length. reflexivity. }
  unfold check_const_timesteps. rewrite HN. cbn [bind]. rewrite (proj2 (Nat.ltb_lt 1 (length ts))) by lia.
  rewrite ED. cbn [bind]. rewrite ET, blocks_values, EV.
  apply simulate.
  - exact Hne.
  - rewrite map_length. exact HL.
  - lia.
  - intros u Hu. apply in_map_iff in Hu. destruct Hu as (b & <- & Hb). rewrite map_length, <- (HB b Hb), map_length. reflexivity.
  - rewrite app_length. reflexivity.
  - apply sorted_snoc; [intros E; rewrite E in H2; cbn in H2; lia|exact Hst|exact Hd].
  - intros t Ht. apply in_app_iff in Ht. destruct Ht as [Ht|[<-|[]]]; [apply Hp; exact Ht|].
    assert (0 <= last ts 0); [|lia]. apply Hp. destruct ts as [|a l]; [cbn in H2; lia|]. clear.
    revert a. induction l as [|c l IH]; intros a; [left; reflexivity|]. right. exact (IH c).
Qed.

Lemma vectorize_one (X : list (row V)) (U : list (row W)) t a b :
  X <> [] -> NoDup (map rid X) -> ValidRows U -> IdsSorted U -> length X = length (ids U) ->
  CommonTimes U [t] -> 0 <= a < b ->
  exists R, predict_vectorize rk X U (Some [a; b]) = Ok R /\ ValidRows R /\
    SimulatedByPosition rk (map rval X) (map (values_of U) (ids U)) (b - a) [a; b] R.
Proof.
  intros Hne Hnd HV HI HL HC Hab.
  unfold predict_vectorize. rewrite (n_series_rows X Hnd).
  destruct (valid_blocks U HV) as (bs & -> & Wf).
  assert (EV := blocks_values_of bs Wf HI). assert (EI := ids_sorted_blocks bs Wf HI).
  rewrite (n_timeseries_blocks bs Wf). rewrite EI, map_length in HL. rewrite HL, Nat.eqb_refl. cbn [negb].
  assert (HB := block_times bs [t] Wf HC).
  assert (HN : n_timesteps (flatten bs) = NInt 1).
  { apply (n_timesteps_blocks bs _ Wf). intros c Hc. assert (E := HB c Hc). apply (f_equal (@length _)) in E. rewrite map_length in E. exact E. }
  unfold check_const_timesteps. rewrite HN. cbn [bind Nat.ltb Nat.leb]. rewrite blocks_values, EV.
  apply simulate.
  - exact Hne.
  - rewrite map_length. exact HL.
  - lia.
  - intros u Hu. apply in_map_iff in Hu. destruct Hu as (c & <- & Hc). rewrite map_length. assert (E := HB c Hc).
    apply (f_equal (@length _)) in E. rewrite map_length in E. exact E.
  - reflexivity.
  - repeat constructor. lia.
  - intros x [<-|[<-|[]]]; lia.
Qed.

Lemma vectorize_inv (X : list (row V)) (U : list (row W)) tv R :
  ValidRows U -> SmallSteps U -> predict_vectorize rk X U tv = Ok R ->
  length (ids X) = length (ids U) /\
  (((exists a b, tv = Some [a; b]) /\ forall i, Occurs U i -> length (rows_of U i) = 1%nat) \/
   (exists ts d, CommonTimes U ts /\ AllRegular U d)).
Proof.
  intros HV HS. unfold predict_vectorize. destruct (Nat.eqb_spec (n_timeseries X) (n_timeseries U)) as [EN|]; [|discriminate].
  cbn [negb]. unfold check_const_timesteps. destruct (n_timesteps U) as [n|] eqn:EL; [|discriminate]. cbn [bind].
  assert (HL := proj1 (n_timesteps_int U n (vr_nonempty _ HV)) EL).
  assert (HO : forall i, Occurs U i -> length (rows_of U i) = n).
  { intros i Hi. apply HL. apply in_ids. exact Hi. }
  destruct (Nat.ltb_spec 1 n) as [H1|H1].
  - destruct (check_const_time_delta KInt U) as [d|] eqn:ED; [|discriminate]. cbn [bind].
    assert (HD := proj1 (const_dt_ok U d HV HS) ED).
    destruct (rk_loop _ _ _ _ _ _) as [Xs|]; [|discriminate]. cbn [bind]. unfold from_tensor.
    intros H. split; [exact EN|]. right. exists (time_values U), d. split; [|exact HD].
    rewrite app_length in H. cbn [length] in H. destruct (Nat.eqb_spec (length (time_values U) + 1) (n + 1)) as [Ht|]; [|cbn in H; discriminate].
    intros i Hi. assert (Hs := times_of_sorted U i HV).
    rewrite <- (np_unique_of_sorted (times_of U i) Hs). unfold time_values. apply np_unique_ext.
    assert (Hinc : incl (times_of U i) (time_values U)).
    { intros t H0. apply in_np_unique. apply in_map_iff in H0. destruct H0 as (r & <- & Hr). apply filter_In in Hr. apply in_map, Hr. }
    intros t. split; intros Hx.
    + apply Hinc in Hx. unfold time_values in Hx. rewrite in_np_unique in Hx. exact Hx.
    + apply (NoDup_length_incl (l := times_of U i) (l' := time_values U)).
      * clear - Hs. induction Hs as [|a l H IH Hf]; constructor; [|assumption]. rewrite Forall_forall in Hf. intros H1. apply Hf in H1. lia.
      * unfold times_of. rewrite map_length, (HO i Hi). lia.
      * exact Hinc.
      * apply in_np_unique. exact Hx.
  - destruct tv as [[|a [|b [|c l]]]|]; try discriminate. intros _. split; [exact EN|]. left. split; [exists a, b; reflexivity|]. intros i Hi. assert (H0 := HO i Hi).
    assert (Hr : rows_of U i <> []) by (apply rows_of_nonempty; exact Hi). destruct (rows_of U i); [congruence|]. cbn in H0 |- *. lia.
Qed.

(** With the IDs 0, 1, ... in this order on both sides the pairing is by ID. *)
Lemma position_id (X : list (row V)) (U : list (row W)) d ts R :
  map rid X = np_arange (length X) -> ids U = np_arange (length X) ->
  SimulatedByPosition rk (map rval X) (map (values_of U) (ids U)) d ts R -> SimulatedById rk X U d ts R.
Proof.
  intros EX EU (H1 & H2). split.
  - intros i. rewrite H1, map_length. split.
    + intros Hi. assert (Hin : In i (map rid X)). { rewrite EX. apply in_map_iff. exists (Z.to_nat i). split; [lia|]. apply in_seq. lia. }
      apply in_map_iff in Hin. destruct Hin as (r & E & Hr). exists r. auto.
    + intros (r & Hr & <-). apply (in_map rid) in Hr. rewrite EX in Hr. apply in_map_iff in Hr. destruct Hr as (k & <- & Hk). apply in_seq in Hk. lia.
  - intros r Hr. apply In_nth_error in Hr. destruct Hr as (j & Hj).
    assert (Lj : (j < length X)%nat) by (apply nth_error_Some; congruence).
    assert (Er : rid r = Z.of_nat j).
    { assert (H := map_nth_error rid _ _ Hj). rewrite EX, (arange_nth _ _ Lj) in H. congruence. }
    rewrite Er. apply (H2 j (rval r)).
    + apply map_nth_error. exact Hj.
    + rewrite EU. apply map_nth_error, arange_nth, Lj.
Qed.

End Predict.
