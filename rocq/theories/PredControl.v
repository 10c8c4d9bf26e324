(** * Proofs about controlled predictions. *)

From Coq Require Import List ZArith Bool Arith Lia Sorted Permutation.
From Coq Require Import ZifyBool ZifyNat.
Import ListNotations.
From Verif Require Import Np NpFacts TscModel TscSpec TscBlocks TscProofs TscDt TscOps.
From Verif Require Import PredModel PredSpec PredProofs.
Close Scope nat_scope.
Open Scope Z_scope.

Section A.
Context {V : Type}.
Notation frame := (list (row V)).

Lemma head_aux_all (F : frame) : forall before,
  NoDup (ids_index F) -> (forall r, In r F -> ~ In (rid r) before) -> head_aux 1 before F = F.
Proof.
  induction F as [|r F IH]; intros before Hn Hb; [reflexivity|].
  cbn [head_aux]. rewrite np_count_zero by (apply Hb; left; reflexivity). cbn [Nat.ltb Nat.leb].
  f_equal. cbn in Hn. inversion Hn; subst. apply IH; [assumption|].
  intros q Hq [E|Hi].
  - apply H1. rewrite E. apply in_map. exact Hq.
  - apply (Hb q (or_intror Hq)). exact Hi.
Qed.

Lemma one_row_spec (F : frame) : ValidRows F -> one_row_per_series F = Ok tt ->
  (forall i, Occurs F i -> length (rows_of F i) = 1%nat) /\ NoDup (ids_index F).
Proof.
  intros HV H. unfold one_row_per_series in H.
  destruct (n_timesteps F) as [[|[|n]]|] eqn:E; try discriminate.
  assert (H1 : forall i, Occurs F i -> length (rows_of F i) = 1%nat).
  { intros i Hi. apply (proj1 (n_timesteps_int F 1 (vr_nonempty _ HV)) E). apply in_ids. exact Hi. }
  split; [exact H1|]. apply (ids_index_single F HV). intros i.
  destruct (rows_of F i) eqn:Er; [cbn; lia|]. rewrite <- Er. rewrite H1; [lia|].
  apply rows_of_nonempty. rewrite Er. discriminate.
Qed.

Lemma list_eqb_spec (x y : list Z) :
  ((length x =? length y)%nat && forallb (fun p => fst p =? snd p) (combine x y)) = true -> x = y.
Proof.
  rewrite andb_true_iff, Nat.eqb_eq. intros [Hl H]. revert y Hl H.
  induction x as [|a x IH]; intros [|b y] Hl H; cbn in *; try lia; try reflexivity.
  apply andb_true_iff in H. destruct H as [H1 H2]. f_equal; [lia|]. apply IH; [lia|exact H2].
Qed.

Lemma combine_Forall2 (P : Z -> Z -> bool) (x y : list Z) :
  length x = length y -> forallb (fun p => P (fst p) (snd p)) (combine x y) = true ->
  Forall2 (fun a b => P a b = true) x y.
Proof.
  revert y. induction x as [|a x IH]; intros [|b y] Hl H; cbn in *; try lia; constructor.
  - apply andb_true_iff in H. apply H.
  - apply IH; [lia|]. apply andb_true_iff in H. apply H.
Qed.

Lemma final_times_single (F : frame) r : ValidRows F -> Reference F r ->
  exists L, final_states F 1 = Ok L /\ time_values L = [r].
Proof.
  intros HV HR. destruct (final_one F HV) as (L & HL & VL & HO & HT).
  exists L. split; [exact HL|]. unfold time_values. apply unique_single. split.
  - destruct (valid_occurs L VL) as (i & a & Ha & _). intros E.
    assert (In (rtime a) (time_index L)) by (apply in_map; exact Ha). rewrite E in H. destruct H.
  - intros t Ht. apply in_map_iff in Ht. destruct Ht as (a & <- & Ha).
    assert (HLT : LastTime F (rid a) (rtime a)).
    { apply HT. apply in_map. apply filter_In. split; [exact Ha|lia]. }
    assert (Ho : Occurs F (rid a)) by (apply HO; exists a; auto).
    exact (last_time_fun F _ _ _ HLT (HR _ Ho)).
Qed.

Lemma initial_times_single (F : frame) u0 us : ValidRows F -> CommonTimes F (u0 :: us) ->
  exists I, initial_states F 1 = Ok I /\ time_values I = [u0].
Proof.
  intros HV HC. destruct (initial_one F HV) as (I & HI & VI & _ & HR).
  exists I. split; [exact HI|]. unfold time_values. apply unique_single. split.
  - destruct (valid_occurs I VI) as (i & a & Ha & _). intros E.
    assert (In (rtime a) (time_index I)) by (apply in_map; exact Ha). rewrite E in H. destruct H.
  - intros t Ht. apply in_map_iff in Ht. destruct Ht as (a & <- & Ha).
    assert (Hin : In a (rows_of I (rid a))) by (apply filter_In; split; [exact Ha|lia]).
    rewrite HR in Hin.
    assert (Ho : Occurs F (rid a)).
    { apply rows_of_nonempty. intros E. rewrite E in Hin. destruct Hin. }
    specialize (HC _ Ho). unfold times_of in HC.
    destruct (rows_of F (rid a)) as [|b l]; [discriminate|]. cbn in HC, Hin.
    injection HC as HC _. destruct Hin as [<-|[]]. exact HC.
Qed.

Lemma block_times (bs : list (Z * list (Z * V))) us : wfb bs -> CommonTimes (flatten bs) us ->
  forall b, In b bs -> map fst (snd b) = us.
Proof.
  intros Wf HC b Hb.
  assert (Ho : Occurs (flatten bs) (fst b)).
  { apply rows_of_nonempty. rewrite (rows_of_flatten bs b (wf_nodup _ Wf) Hb).
    intros E. apply (f_equal (@length _)) in E. rewrite brows_length in E.
    destruct (wf_blocks _ Wf b Hb) as (Hne & _). destruct (snd b); [congruence|discriminate]. }
  rewrite <- (HC _ Ho). unfold times_of. rewrite (rows_of_flatten bs b (wf_nodup _ Wf) Hb).
  symmetry. apply times_brows.
Qed.

Lemma control_tensor_blocks (bs : list (Z * list (Z * V))) us :
  wfb bs -> CommonTimes (flatten bs) us ->
  control_tensor (flatten bs) = map (fun b => map snd (snd b)) bs.
Proof.
  intros Wf HC. assert (HB := block_times bs us Wf HC).
  assert (HLn : forall b, In b bs -> length (snd b) = length us).
  { intros b Hb. rewrite <- (HB b Hb), map_length. reflexivity. }
  unfold control_tensor.
  assert (En : n_timeseries (flatten bs) = length bs).
  { unfold n_timeseries. rewrite ids_flatten by (intros b Hb; apply (wf_blocks _ Wf b Hb)).
    rewrite (proj2 (np_unique_length_NoDup _) (wf_nodup _ Wf)). apply map_length. }
  assert (EL : length (flatten bs) = (length bs * length us)%nat).
  { clear -HLn. unfold flatten. induction bs as [|b bs IH]; [reflexivity|].
    cbn [flat_map length]. rewrite app_length, IH, brows_length, (HLn b (or_introl eq_refl)); [lia|].
    intros c Hc. apply HLn. right; exact Hc. }
  rewrite En, EL. assert (Hb0 : length bs <> 0%nat) by (destruct bs; [destruct (wf_ne _ Wf eq_refl)|discriminate]).
  replace (length bs * length us / length bs)%nat with (length us) by (rewrite Nat.mul_comm, Nat.div_mul; lia).
  replace (to_numpy (flatten bs)) with (flat_map (fun b : Z * list (Z * V) => map snd (snd b)) bs).
  - apply reshape_flat_map. intros b Hb. rewrite map_length. apply HLn. exact Hb.
  - clear. unfold flatten. induction bs as [|b bs IH]; [reflexivity|].
    cbn [flat_map]. rewrite to_numpy_app, vals_brows, IH. reflexivity.
Qed.

End A.

Section B.
Context {V W : Type}.

Lemma combine_map_fst {A B} (x : list A) (y : list B) : length x = length y -> map fst (combine x y) = x.
Proof. revert y. induction x; intros [|b y] H; cbn in *; try lia; [reflexivity|]. f_equal. apply IHx. lia. Qed.

Lemma predict_controlled_inv k eps now dt rl (F : list (row V)) (G : list (row W)) tv pairs ts :
  ValidRows F -> ValidRows G -> 0 <= eps -> 0 < dt ->
  predict_controlled k eps now dt rl F G tv = Ok (pairs, ts) ->
  exists r us, Reference F r /\ CommonTimes G us /\ hd_error us = Some r /\
    ids_index F = ids G /\ (forall i, Occurs F i -> length (rows_of F i) = 1%nat) /\
    pairs = combine F (control_tensor G) /\ length F = length (control_tensor G) /\
    match tv with
    | None => ts = us ++ (if rl then [] else [last us 0 + dt])
    | Some l => ts = l /\
        Forall2 (fun a b => Z.abs (a - b) <= tol_of k eps) l (us ++ (if rl then [] else [last us 0 + dt]))
    end.
Proof.
  intros VF VG He Hd H. unfold predict_controlled in H.
  apply bind_ok in H. destruct H as (ts' & HT & H).
  apply bind_ok in H. destruct H as ([] & H1 & H).
  destruct (is_same_time_values G) eqn:ES; cbn [negb] in H; [|discriminate].
  apply bind_ok in H. destruct H as ([] & HVC & H).
  destruct (length (control_tensor G) =? length F)%nat eqn:EL; cbn [negb] in H; [|discriminate].
  apply bind_ok in H. destruct H as ([] & HCL & H). injection H as Hp Hts. subst pairs ts'.
  assert (HC := same_times_common G VG ES).
  destruct (one_row_spec F VF H1) as [H1r Hnd].
  assert (HRef : exists r, Reference F r).
  { unfold predict_time_values in HT. apply bind_ok in HT. destruct HT as (r & Hr & _).
    exists r. apply (proj1 (reference_frame k now F (UFrame G) VF) r). exact Hr. }
  destruct HRef as (r & HR).
  unfold validate_control in HVC. apply bind_ok in HVC. destruct HVC as ([] & HI & HVC).
  assert (EI : ids_index F = ids G).
  { unfold check_ids_ordered in HI. apply bind_ok in HI. destruct HI as (I & HI & HE).
    destruct (_ && _) eqn:Eq; [|discriminate]. apply list_eqb_spec in Eq. rewrite <- Eq.
    unfold initial_states in HI. cbn [Nat.ltb Nat.leb] in HI.
    destruct (check_required_min_timesteps F 1); [|discriminate].
    apply tsc_ok in HI. destruct HI as [_ ->]. unfold groupby_head.
    rewrite head_aux_all; [reflexivity|exact Hnd|]. intros q _ []. }
  rewrite ES in HVC. cbn [negb] in HVC.
  apply bind_ok in HVC. destruct HVC as (L & HL & HVC).
  apply bind_ok in HVC. destruct HVC as (I & HIS & HVC).
  destruct (final_times_single F r VF HR) as (L' & HL' & EL'). rewrite HL in HL'. injection HL' as <-.
  remember (time_values G) as us eqn:Eus.
  assert (Hus : us <> []).
  { destruct (valid_occurs G VG) as (i & Hi). rewrite <- (HC i Hi). intros E.
    apply rows_of_nonempty in Hi. apply map_eq_nil in E. congruence. }
  destruct us as [|u0 us]; [congruence|].
  destruct (initial_times_single G u0 us VG HC) as (I' & HI' & EI'). rewrite HIS in HI'. injection HI' as <-.
  rewrite EL', EI' in HVC. destruct (r =? u0) eqn:Eru; [|discriminate]. apply Z.eqb_eq in Eru. subst u0.
  exists r, (r :: us). split; [exact HR|]. split; [exact HC|]. split; [reflexivity|].
  split; [exact EI|]. split; [exact H1r|]. split; [reflexivity|].
  split; [apply Nat.eqb_eq in EL; symmetry; exact EL|].
  assert (HSu : StronglySorted Z.lt (r :: us)) by (rewrite Eus; apply np_unique_sorted).
  assert (Hge : forall x, In x (r :: us) -> r <= x).
  { intros x Hx. exact (hd_sorted_min _ r x us HSu eq_refl Hx). }
  assert (Hlast : r <= last (r :: us) 0) by (apply Hge, last_in; discriminate).
  assert (Htol := tol_nonneg k eps He).
  unfold predict_time_values in HT.
  rewrite (proj2 (proj1 (reference_frame k now F (UFrame G) VF) r) HR) in HT. cbn [bind] in HT.
  rewrite tolerance_frame in HT. set (tol := tol_of k eps) in *. clearbody tol.
  destruct tv as [l|].
  - apply bind_ok in HT. destruct HT as (l' & HF & HT). apply format_spec in HF. destruct HF as (-> & HSl & _).
    apply bind_ok in HT. destruct HT as (l' & HQ & HT). apply bind_ok in HQ. destruct HQ as (q & Hq & HQ).
    rewrite <- Eus in Hq. rewrite filter_all_true in Hq by (intros x Hx; specialize (Hge x Hx); lia).
    assert (Eq : q = (r :: us) ++ (if rl then [] else [last (r :: us) 0 + dt])).
    { destruct rl; injection Hq as <-; [rewrite app_nil_r|]; reflexivity. }
    clear Hq. subst q. destruct (_ && _) eqn:Ec; [|discriminate]. injection HQ as <-.
    apply andb_true_iff in Ec. destruct Ec as [Ec1 Ec2]. apply Nat.eqb_eq in Ec1.
    apply (combine_Forall2 (fun a b => Z.abs (a - b) <=? tol)) in Ec2; [|exact Ec1].
    destruct (existsb _ _); [discriminate|]. destruct l as [|t0 l]; [discriminate|].
    assert (Hf : Forall2 (fun a b => Z.abs (a - b) <= tol) (t0 :: l)
                   ((r :: us) ++ (if rl then [] else [last (r :: us) 0 + dt]))).
    { clear -Ec2. induction Ec2 as [|a b x y Hab Hr IH]; constructor; [lia|exact IH]. }
    cbn [app] in Hf. inversion Hf; subst.
    replace (tol <? Z.abs (r - t0)) with false in HT by lia. injection HT as <-. split; [reflexivity|exact Hf].
  - rewrite <- Eus in HT.
    set (t := if rl then r :: us else (r :: us) ++ [last (r :: us) 0 + dt]) in HT.
    assert (Et : t = (r :: us) ++ (if rl then [] else [last (r :: us) 0 + dt])).
    { unfold t. destruct rl; [rewrite app_nil_r|]; reflexivity. }
    rewrite filter_all_true in HT.
    + rewrite <- Et. destruct t; [discriminate|]. injection HT as <-. reflexivity.
    + intros x Hx. rewrite Et in Hx. apply in_app_or in Hx. destruct Hx as [Hx|Hx].
      * specialize (Hge x Hx). lia.
      * destruct rl; [destruct Hx|]. destruct Hx as [<-|[]]. lia.
Qed.

Lemma control_matched k eps now dt rl (F : list (row V)) (G : list (row W)) tv pairs ts :
  ValidRows F -> ValidRows G -> IdsSorted G -> 0 <= eps -> 0 < dt ->
  predict_controlled k eps now dt rl F G tv = Ok (pairs, ts) ->
  map fst pairs = F /\ forall x u, In (x, u) pairs -> u = values_of G (rid x).
Proof.
  intros VF VG HS He Hd H.
  destruct (predict_controlled_inv k eps now dt rl F G tv pairs ts VF VG He Hd H)
    as (r & us & _ & HC & _ & EI & _ & -> & EL & _).
  split; [apply combine_map_fst; exact EL|].
  destruct (valid_blocks G VG) as (bs & -> & Wf).
  rewrite (control_tensor_blocks bs us Wf HC).
  rewrite (ids_sorted_blocks bs Wf HS) in EI.
  assert (HB : forall b, In b bs -> map snd (snd b) = values_of (flatten bs) (fst b)).
  { intros b Hb. unfold values_of. rewrite (rows_of_flatten bs b (wf_nodup _ Wf) Hb).
    symmetry. apply vals_brows. }
  clear -EI HB. revert HB EI. generalize (values_of (flatten bs)) as f. intros f HB EI.
  revert F EI. induction bs as [|b bs IH]; intros [|x0 F] EI x u Hin; cbn in *; try easy.
  injection EI as E1 E2. destruct Hin as [E|Hin].
  - injection E as <- <-. rewrite E1. apply HB. left; reflexivity.
  - apply (IH (fun c Hc => HB c (or_intror Hc)) F E2 x u Hin).
Qed.

(** ** the controlled flow map ignores the time differences *)

Lemma flow_states_diffs (S : Type) (step : S -> W -> S) : forall us x d1 d2,
  length d1 = length d2 -> flow_states S step x us d1 = flow_states S step x us d2.
Proof.
  induction us as [|u us IH]; intros x [|a d1] [|b d2] H; cbn in *; try lia; try reflexivity.
  f_equal. apply IH. lia.
Qed.

Lemma flow_states_nth (S : Type) (step : S -> W -> S) : forall ds us x n,
  (n <= length ds)%nat -> (length ds <= length us)%nat ->
  nth_error (flow_states S step x us ds) n = Some (fold_left step (firstn n us) x).
Proof.
  induction ds as [|d ds IH]; intros [|u us] x [|n] H1 H2; cbn in *; try lia; try reflexivity.
  apply IH; lia.
Qed.

Lemma equispaced_length t0 dt n : length (equispaced t0 dt n) = n.
Proof. unfold equispaced. rewrite map_length, seq_length. reflexivity. Qed.

Lemma equispaced_nth t0 dt n j : (j < n)%nat ->
  nth_error (equispaced t0 dt n) j = Some (t0 + Z.of_nat j * dt).
Proof.
  intros H. unfold equispaced. rewrite nth_error_map.
  rewrite (nth_error_nth' _ 0%nat) by (rewrite seq_length; exact H).
  rewrite seq_nth by exact H. reflexivity.
Qed.

Lemma nth_error_combine {A B} (x : list A) (y : list B) : forall n a b,
  nth_error x n = Some a -> nth_error y n = Some b -> nth_error (combine x y) n = Some (a, b).
Proof.
  revert y. induction x as [|c x IH]; intros [|d y] [|n] a b Ha Hb; cbn in *; try discriminate.
  - injection Ha as <-. injection Hb as <-. reflexivity.
  - apply IH; assumption.
Qed.

Lemma flow_equispaced (S : Type) (step : S -> W -> S) (x : S) (us : list W) (t0 dt : Z) (n : nat) :
  (n <= length us)%nat ->
  nth_error (flowmap_controlled S step x us (equispaced t0 dt (Datatypes.S (length us)))) n
  = Some (t0 + Z.of_nat n * dt, fold_left step (firstn n us) x).
Proof.
  intros H. unfold flowmap_controlled. apply nth_error_combine.
  - apply equispaced_nth. lia.
  - apply flow_states_nth; rewrite np_diff_length, equispaced_length; lia.
Qed.

Lemma edmd_accepts r dt n : edmd_array_control n (equispaced r dt (S n)) = Ok tt.
Proof.
  unfold edmd_array_control. rewrite removelast_length, equispaced_length.
  replace (n =? S n - 1)%nat with true by lia. reflexivity.
Qed.

Lemma edmd_float_rejects eps now dt (F : list (row V)) n r :
  ValidRows F -> 0 < eps <= dt -> Reference F r ->
  exists ts,
    predict_time_values (W := W) KFloat eps now dt false (XFrame F) (UArray n) None = Ok ts /\
    length ts = (n + 2)%nat /\ edmd_array_control n ts = Err ValueError.
Proof.
  intros HV He HR. exists (equispaced r dt (S (S n))).
  split; [apply (control_array_times_float (W := W) eps now dt false F n r HV He HR)|].
  split; [rewrite equispaced_length; lia|].
  unfold edmd_array_control. rewrite removelast_length, equispaced_length.
  replace (n =? S (S n) - 1)%nat with false by lia. reflexivity.
Qed.

Lemma dmd_array_rejects k eps now dt (F : list (row V)) n tv ts r :
  ValidRows F -> 0 <= eps <= dt -> 0 < dt -> Reference F r ->
  predict_time_values (W := W) k eps now dt false (XFrame F) (UArray n) tv = Ok ts ->
  dmd_array_control n ts = Err ValueError.
Proof.
  intros HV He Hd HR H. unfold dmd_array_control.
  assert (HL : (n < length ts)%nat).
  { unfold predict_time_values in H.
    rewrite (proj2 (proj1 (reference_frame (W := W) k now F (UArray n) HV) r) HR) in H. cbn [bind] in H.
    rewrite tolerance_frame in H. destruct tv as [l|].
    - apply bind_ok in H. destruct H as (l' & HF & H). apply format_spec in HF. destruct HF as (-> & _).
      apply bind_ok in H. destruct H as (l' & HQ & H).
      destruct (length l =? n + extra false)%nat eqn:E; [|discriminate]. injection HQ as <-.
      destruct (existsb _ _); [discriminate|]. destruct l as [|t0 l]; [discriminate|].
      apply Nat.eqb_eq in E. cbn [extra] in E.
      destruct (_ <? _); injection H as <-; cbn [length] in *; lia.
    - injection H as <-. destruct k.
      + cbn [tol_of]. rewrite arange_exact by exact Hd. rewrite equispaced_length. cbn; lia.
      + cbn [tol_of]. destruct (Z.eq_dec eps 0) as [->|Hne].
        * rewrite arange_exact by exact Hd. rewrite equispaced_length. cbn; lia.
        * rewrite arange_tol by lia. rewrite equispaced_length. cbn; lia.
      + cbn [tol_of]. rewrite arange_exact by exact Hd. rewrite equispaced_length. cbn; lia. }
  replace (n =? length ts)%nat with false by lia. reflexivity.
Qed.

(** ** all together *)

Lemma sampled_series (G : list (row W)) dt i : ValidRows G -> SampledWith G dt ->
  forall a b l m, rows_of G i = l ++ a :: b :: m -> rtime b - rtime a = dt.
Proof.
  intros HV HS a b l m E. destruct (valid_blocks G HV) as (bs & EG & Wf).
  assert (Ho : Occurs G i) by (apply rows_of_nonempty; rewrite E; destruct l; discriminate).
  destruct Ho as (q & Hq & Eq). rewrite EG in Hq. apply in_flatten_id in Hq. rewrite Eq in Hq.
  apply in_map_iff in Hq. destruct Hq as (c & Ec & Hc).
  rewrite EG, <- Ec, (rows_of_flatten bs c (wf_nodup _ Wf) Hc) in E.
  apply in_split in Hc. destruct Hc as (b1 & b2 & ->).
  apply HS.
  - rewrite EG, flatten_app, flatten_cons, E. exists (flatten b1 ++ l), (m ++ flatten b2).
    rewrite <- !app_assoc. cbn. reflexivity.
  - rewrite (rid_brows c a), (rid_brows c b); [reflexivity| |]; rewrite E; apply in_or_app; right; cbn; auto.
Qed.

Lemma equispaced_S t0 dt n : equispaced t0 dt (S n) = t0 :: equispaced (t0 + dt) dt n.
Proof.
  unfold equispaced. cbn [seq map]. f_equal; [lia|]. rewrite <- seq_shift, map_map.
  apply map_ext. intros j. lia.
Qed.

Lemma equispaced_snoc t0 dt n : equispaced t0 dt (S n) = equispaced t0 dt n ++ [t0 + Z.of_nat n * dt].
Proof. unfold equispaced. rewrite seq_S, map_app. reflexivity. Qed.

Lemma rows_equispaced (l : list (row W)) dt :
  (forall a b p q, l = p ++ a :: b :: q -> rtime b - rtime a = dt) ->
  forall r, hd_error (map rtime l) = Some r -> map rtime l = equispaced r dt (length l).
Proof.
  induction l as [|a [|b l] IH]; intros H r Hr; cbn in Hr; try discriminate; injection Hr as <-.
  - cbn. unfold equispaced. cbn. f_equal. lia.
  - change (length (a :: b :: l)) with (S (length (b :: l))). rewrite equispaced_S.
    change (map rtime (a :: b :: l)) with (rtime a :: map rtime (b :: l)). f_equal.
    apply IH.
    + intros c d p q E. apply (H c d (a :: p) q). rewrite E. reflexivity.
    + cbn. f_equal. assert (HH := H a b [] l eq_refl). lia.
Qed.

Lemma controlled_prediction (step : V -> W -> V) k eps now dt (F : list (row V)) (G : list (row W))
    pairs ts r x u n :
  ValidRows F -> ValidRows G -> IdsSorted G -> SampledWith G dt -> 0 <= eps -> 0 < dt ->
  Reference F r ->
  predict_controlled k eps now dt false F G None = Ok (pairs, ts) ->
  In (x, u) pairs -> (n <= length (values_of G (rid x)))%nat ->
  nth_error (flowmap_controlled V step (rval x) u ts) n
  = Some (r + Z.of_nat n * dt, fold_left step (firstn n (values_of G (rid x))) (rval x)).
Proof.
  intros VF VG HI HS He Hd HR H Hin Hn.
  destruct (control_matched k eps now dt false F G None pairs ts VF VG HI He Hd H) as [Hf Hu].
  rewrite (Hu x u Hin).
  destruct (predict_controlled_inv k eps now dt false F G None pairs ts VF VG He Hd H)
    as (r' & us & HR' & HC & Hhd & EI & _ & _ & _ & Ets).
  assert (Hx : In x F) by (rewrite <- Hf; apply (in_map fst _ _ Hin)).
  assert (OxF : Occurs F (rid x)) by (exists x; auto).
  assert (Er : r' = r) by (exact (last_time_fun F (rid x) r' r (HR' _ OxF) (HR _ OxF))). subst r'.
  assert (OxG : Occurs G (rid x)).
  { apply in_ids. rewrite <- EI. apply in_map. exact Hx. }
  assert (Eus : us = equispaced r dt (length (values_of G (rid x)))).
  { rewrite <- (HC _ OxG). unfold values_of. rewrite map_length. apply rows_equispaced.
    - intros a b p q E. exact (sampled_series G dt (rid x) VG HS a b p q E).
    - fold (times_of G (rid x)). rewrite (HC _ OxG). exact Hhd. }
  cbn iota in Ets.
  assert (Ets' : ts = equispaced r dt (S (length (values_of G (rid x))))).
  { rewrite Ets, Eus. set (m := length (values_of G (rid x))) in *.
    rewrite equispaced_snoc. f_equal. f_equal.
    destruct m as [|m].
    - rewrite Eus in Hhd. discriminate.
    - rewrite equispaced_snoc, last_last. lia. }
  rewrite Ets'. apply flow_equispaced. exact Hn.
Qed.

End B.
