(** * Theorems: closed control loop (C87). *)

From Coq Require Import List ZArith Bool Arith Lia.
Import ListNotations.
From Verif Require Import Np TscModel TscSpec TscProofs AccModel AccSpec AccProofs BldModel BldBuild LoopModel LoopSpec LoopProofs.
Open Scope Z_scope.

Section C87.
Context {S V L C R : Type}.
Variables (kind : tkind) (lift : list (row V) -> result (list (row L))) (repr : list V -> L)
  (solve : L -> list R -> option (list C)) (plant : list (row S) -> list (row C) -> list Z -> result (list (row S)))
  (step : S -> C -> option S) (features : S -> option C -> V) (n : nat) (d : Z) (h : nat).

(** What holds for all theorems: numerical times, positive interval, at least one
    sample and one step; the called parts do what they should. *)
Definition Setting : Prop :=
  kind <> KDatetime /\ 0 < d /\ (1 <= n)%nat /\ (1 <= h)%nat /\ Lifts lift repr n d /\ Plans solve h /\ Plant plant step.

(** With augmented control the result is the closed loop with receding horizon, one
    step less than the reference has samples.  It fails only if no plan is found. *)
Theorem C87_closed_loop : Setting ->
  forall (P : list (row S)) (s : S) (past : list V) (refs : list R) (t tx : Z),
  ValidRows (P ++ [mkRow 0 t s]) -> OnlySeries (P ++ [mkRow 0 t s]) 0 ->
  0 <= tx -> (n <= length past)%nat -> t = tx + (Z.of_nat (length past) - 1) * d -> refs <> [] ->
  control_system_reference kind lift solve plant features n d h true
    (P ++ [mkRow 0 t s]) (sampled (t + d) d refs) (sampled tx d past) =
  match closed_loop (fun past refs => solve (repr past) refs) step (fun s u => features s (Some u)) n h
          (length refs - 1) s past refs with
  | None => Err ValueError
  | Some l => Ok ((P ++ [mkRow 0 t s]) ++ sampled (t + d) d (map snd l),
                  match l with [] => None | _ => Some (sampled t d (map fst l)) end)
  end.
Proof.
  intros (Hk & Hd & Hn & Hh & HL & HP & HS) P s past refs t tx HV HO Htx Hp Et Hr.
  assert (Hm : (length refs - 1 < length refs)%nat) by (destruct refs; [congruence|cbn; lia]).
  unfold control_system_reference. rewrite sampled_length.
  assert (HC := control_loop_ok kind lift repr solve plant step features n d h Hk Hd Hn Hh HL HP HS
         (length refs - 1) (sampled (t + d) d refs) [] refs s past t tx P None eq_refl Hm Htx Hp Et HV HO I).
  cbn [length] in HC. rewrite HC. destruct (closed_loop _ _ _ _ _ _ _ _ _) as [[|[u s'] l]|]; reflexivity.
Qed.

(** The last sample of the reference is never reached. *)
Theorem C87_last_refuted : Setting ->
  forall (P : list (row S)) (s : S) (past : list V) (refs : list R) (t tx : Z) F U,
  ValidRows (P ++ [mkRow 0 t s]) -> OnlySeries (P ++ [mkRow 0 t s]) 0 ->
  0 <= tx -> (n <= length past)%nat -> t = tx + (Z.of_nat (length past) - 1) * d -> refs <> [] ->
  control_system_reference kind lift solve plant features n d h true
    (P ++ [mkRow 0 t s]) (sampled (t + d) d refs) (sampled tx d past) = Ok (F, U) ->
  forall last, In last (sampled (t + d) d refs) -> (forall r, In r (sampled (t + d) d refs) -> rtime r <= rtime last) ->
  forall r, In r F -> rtime r < rtime last.
Proof.
  intros HH P s past refs t tx F U HV HO Htx Hp Et Hr E last Hlast Hmax r HF.
  rewrite (C87_closed_loop HH P s past refs t tx HV HO Htx Hp Et Hr) in E. destruct HH as (_ & Hd & _).
  assert (HLen : forall m s past refs l,
    closed_loop (fun past refs => solve (repr past) refs) step (fun s u => features s (Some u)) n h m s past refs = Some l -> (length l <= m)%nat).
  { clear. induction m as [|m IH]; intros s past refs l; cbn; [intros H; injection H as <-; reflexivity|].
    destruct (solve _ _) as [[|u us]|]; try discriminate. destruct (step s u) as [s'|]; [|intros H; injection H as <-; cbn; lia].
    destruct (closed_loop _ _ _ _ _ _ _ _ _) as [l'|] eqn:E; [|discriminate]. intros H. injection H as <-. apply IH in E. cbn. lia. }
  destruct (closed_loop _ _ _ _ _ _ _ _ _) as [l|] eqn:EC; [|discriminate]. apply HLen in EC. injection E as <- _.
  assert (HT : t + Z.of_nat (length refs) * d <= rtime last).
  { destruct (exists_last Hr) as (refs' & r0 & Er).
    assert (Hin : In (mkRow 0 (t + d + Z.of_nat (length refs') * d) r0) (sampled (t + d) d refs)).
    { rewrite Er, sampled_app. apply in_or_app. right. left. reflexivity. }
    specialize (Hmax _ Hin). cbn [rtime] in Hmax. rewrite Er, app_length. cbn [length]. lia. }
  assert (H1 : (1 <= length refs)%nat) by (destruct refs; [congruence|cbn; lia]).
  apply in_app_or in HF. destruct HF as [HF|HF].
  - assert (H := last_times P t s HV HO r HF). nia.
  - assert (H := sampled_times_before (t + d) d (map snd l) Hd r HF). rewrite map_length in H. nia.
Qed.

(** The first plan is rejected unless the reference starts one step after the state. *)
Theorem C87_start : Setting ->
  forall (augment : bool) (sys_ic : list (row S)) (past : list V) (refs : list R) (t t' tx : Z),
  0 <= tx -> 0 <= t' -> (n <= length past)%nat -> t = tx + (Z.of_nat (length past) - 1) * d -> (2 <= length refs)%nat -> t' <> t + d ->
  control_system_reference kind lift solve plant features n d h augment
    sys_ic (sampled t' d refs) (sampled tx d past) = Err ValueError.
Proof.
  intros (Hk & Hd & Hn & Hh & HL & HP & HS) augment sys_ic past refs t t' tx Htx Ht' Hp Et H2 Hne.
  unfold control_system_reference. rewrite sampled_length. destruct (length refs - 1)%nat as [|m] eqn:Em; [lia|]. cbn [seq control_loop].
  assert (HW := reference_ok kind h [] t' d refs Hk Ht' Hd H2). cbn [app length] in HW. rewrite HW. cbn [bind].
  unfold control_sequence_horizon. rewrite tail_latest, HL; [|nia|unfold latest; rewrite skipn_length; lia]. cbn [bind].
  match goal with |- context [hd 0 (time_values [mkRow 0 ?x ?z])] => change (hd 0 (time_values [mkRow 0 x z])) with x end.
  rewrite sampled_time_values by exact Hd.
  assert (HWL := window_length h refs ltac:(destruct refs; [cbn in H2; lia|discriminate])).
  destruct (window h refs) as [|w ws] eqn:EW; [cbn in HWL; lia|]. cbn [sampled map hd rtime].
  destruct (Z.eqb_spec (tx + Z.of_nat (length past - n) * d + (Z.of_nat n - 1) * d + d) t') as [E|E]; [|reflexivity].
  exfalso. apply Hne. rewrite Et, <- E. nia.
Qed.

(** With the default [augment_control=False] the loop fails in the first step, because
    the current state is stored a second time. *)
Theorem C87_default_refuted : Setting ->
  forall (P : list (row S)) (s s' : S) (past : list V) (refs : list R) (t tx : Z) (u : C) (us : list C),
  ValidRows (P ++ [mkRow 0 t s]) -> OnlySeries (P ++ [mkRow 0 t s]) 0 ->
  0 <= tx -> (n <= length past)%nat -> t = tx + (Z.of_nat (length past) - 1) * d -> (2 <= length refs)%nat ->
  solve (repr (latest n past)) (window h refs) = Some (u :: us) -> step s u = Some s' ->
  control_system_reference kind lift solve plant features n d h false
    (P ++ [mkRow 0 t s]) (sampled (t + d) d refs) (sampled tx d past) = Err AttributeError.
Proof.
  intros (Hk & Hd & Hn & Hh & HL & HP & HS) P s s' past refs t tx u us HV HO Htx Hp Et H2 EU EStep.
  assert (Ht : 0 <= t) by nia. assert (Hr : refs <> []) by (destruct refs; [cbn in H2; lia|discriminate]).
  unfold control_system_reference. rewrite sampled_length. destruct (length refs - 1)%nat as [|m] eqn:Em; [lia|]. cbn [seq control_loop].
  assert (HW := reference_ok kind h [] (t + d) d refs Hk ltac:(lia) Hd H2). cbn [app length] in HW. rewrite HW. cbn [bind].
  assert (HQ := sequence_ok lift repr solve n d h Hd Hn Hh HL HP tx past refs Htx Hp Hr). cbv zeta in HQ. rewrite <- Et, EU in HQ.
  rewrite HQ. cbn [bind sampled firstn]. rewrite tail_one. rewrite sampled_time_values by exact Hd.
  assert (HWL := window_length h refs Hr).
  destruct (window h refs) as [|w ws] eqn:EW; [cbn in HWL; lia|]. cbn [sampled map hd rtime].
  change (hd 0 (time_values [mkRow 0 t u])) with t. rewrite HS, EStep.
  unfold edmd_rows. cbn [map bind rid rtime rval].
  change (iloc_tail 1 [mkRow 0 t s; mkRow 0 (t + d) s']) with [mkRow 0 (t + d) s'].
  assert (HV' : ValidRows ((P ++ [mkRow 0 t s]) ++ [mkRow 0 (t + d) s'])).
  { apply append_valid; [exact HV|exact HO|]. intros r Hr'. assert (H := last_times P t s HV HO r Hr'). lia. }
  rewrite (proj2 (tsc_ok ((P ++ [mkRow 0 t s]) ++ [mkRow 0 (t + d) s']) _) (conj HV' eq_refl)). cbn [bind].
  match goal with |- bind ?x _ = _ => destruct x as [F|e] eqn:EF end.
  - exfalso. apply tsc_ok in EF. destruct EF as [HVF _].
    assert (Hpn : past <> []) by (destruct past; [cbn in Hp; lia|discriminate]).
    destruct (exists_last Hpn) as (p' & x & Ep). rewrite Ep, sampled_app in HVF. cbn [sampled] in HVF.
    assert (H := vr_inc _ HVF (mkRow 0 (tx + Z.of_nat (length p') * d) x) (mkRow 0 t (features s None))).
    rewrite Ep, app_length in Et. cbn [length] in Et. cbn [rtime rid] in H.
    assert (HB : tx + Z.of_nat (length p') * d < t); [|nia]. apply H; [|reflexivity].
    exists (sampled tx d p'), [], [mkRow 0 (t + d) (features s' None)]. rewrite <- app_assoc. reflexivity.
  - cbn [bind]. f_equal. apply (tsc_error _ e) in EF; [exact EF|]. intros E. apply app_eq_nil in E. destruct E. discriminate.
Qed.

(** A plant whose series has another ID than 0 fails with [augment_control=True]. *)
Theorem C87_id_refuted : Setting ->
  forall (P : list (row S)) (i : Z) (s s' : S) (past : list V) (refs : list R) (t tx : Z) (u : C) (us : list C),
  i <> 0 ->
  0 <= tx -> (n <= length past)%nat -> t = tx + (Z.of_nat (length past) - 1) * d -> (2 <= length refs)%nat ->
  solve (repr (latest n past)) (window h refs) = Some (u :: us) -> step s u = Some s' ->
  control_system_reference kind lift solve plant features n d h true
    (P ++ [mkRow i t s]) (sampled (t + d) d refs) (sampled tx d past) = Err AssertionError.
Proof.
  intros (Hk & Hd & Hn & Hh & HL & HP & HS) P i s s' past refs t tx u us Hi Htx Hp Et H2 EU EStep.
  assert (Ht : 0 <= t) by nia. assert (Hr : refs <> []) by (destruct refs; [cbn in H2; lia|discriminate]).
  unfold control_system_reference. rewrite sampled_length. destruct (length refs - 1)%nat as [|m] eqn:Em; [lia|]. cbn [seq control_loop].
  assert (HW := reference_ok kind h [] (t + d) d refs Hk ltac:(lia) Hd H2). cbn [app length] in HW. rewrite HW. cbn [bind].
  assert (HQ := sequence_ok lift repr solve n d h Hd Hn Hh HL HP tx past refs Htx Hp Hr). cbv zeta in HQ. rewrite <- Et, EU in HQ.
  rewrite HQ. cbn [bind sampled firstn]. rewrite tail_one. rewrite sampled_time_values by exact Hd.
  assert (HWL := window_length h refs Hr).
  destruct (window h refs) as [|w ws] eqn:EW; [cbn in HWL; lia|]. cbn [sampled map hd rtime].
  change (hd 0 (time_values [mkRow 0 t u])) with t. rewrite HS, EStep.
  unfold edmd_rows, augment_control_input. cbn. rewrite Z.sub_diag. cbn. unfold pair_eqb. cbn.
  destruct (Z.eqb_spec i 0); [congruence|]. reflexivity.
Qed.

End C87.
Print Assumptions C87_closed_loop.
Print Assumptions C87_last_refuted.
Print Assumptions C87_start.
Print Assumptions C87_default_refuted.
Print Assumptions C87_id_refuted.

(** Example: an integrator, whose model has the state and the last control as
    features; the plan reaches each reference value exactly; horizon 3. *)
Definition ex87_lift (X : list (row (Z * Z))) : result (list (row Z)) :=
  match rev X with [r] => Ok [mkRow (rid r) (rtime r) (fst (rval r))] | _ => Err ValueError end.
Fixpoint ex87_solve (z : Z) (refs : list Z) : option (list Z) :=
  match refs with
  | [] => Some []
  | r :: refs => match ex87_solve r refs with Some l => Some ((r - z) :: l) | None => None end
  end.
Definition ex87_step (s u : Z) : option Z := if s + u <? 100 then Some (s + u) else None.
Definition ex87_plant (X : list (row Z)) (U : list (row Z)) (t : list Z) : result (list (row Z)) :=
  match X, U, t with
  | [x], [u], [_; t'] => match ex87_step (rval x) (rval u) with
                         | Some s' => Ok [x; mkRow (rid x) t' s']
                         | None => Err RuntimeError
                         end
  | _, _, _ => Err ValueError
  end.
Definition ex87_features (s : Z) (u : option Z) : Z * Z := (s, match u with Some u => u | None => 0 end).

Lemma ex87_setting : Setting KFloat ex87_lift (fun l => fst (hd (0, 0) l)) ex87_solve ex87_plant ex87_step 1 2 3.
Proof.
  repeat split; try lia; try discriminate.
  - intros t [|x [|]] Ht HL; try discriminate HL. cbn. do 2 f_equal. f_equal; lia.
  - intros z refs U HL HE. rewrite <- HL. clear HL. revert z U HE.
    induction refs as [|r refs IH]; intros z U HE; cbn in HE; [injection HE as <-; reflexivity|].
    destruct (ex87_solve r refs) as [l|] eqn:E; [|discriminate]. injection HE as <-. cbn. f_equal. apply (IH _ _ E).
Qed.

Example C87_example :
  control_system_reference KFloat ex87_lift ex87_solve ex87_plant ex87_features 1 2 3 true
    [mkRow 0 6 5] (sampled 8 2 [1; 4; 9; 16]) (sampled 6 2 [(5, 0)]) =
  Ok ([mkRow 0 6 5; mkRow 0 8 1; mkRow 0 10 4; mkRow 0 12 9], Some (sampled 6 2 [-4; 3; 5])) /\
  control_system_reference KFloat ex87_lift ex87_solve ex87_plant ex87_features 1 2 3 true
    [mkRow 0 6 5] (sampled 8 2 [1; 400; 9; 16]) (sampled 6 2 [(5, 0)]) =
  Ok ([mkRow 0 6 5; mkRow 0 8 1], Some (sampled 6 2 [-4])) /\
  control_system_reference KFloat ex87_lift ex87_solve ex87_plant ex87_features 1 2 3 false
    [mkRow 0 6 5] (sampled 8 2 [1; 4; 9; 16]) (sampled 6 2 [(5, 0)]) = Err AttributeError /\
  control_system_reference KFloat ex87_lift ex87_solve ex87_plant ex87_features 1 2 3 true
    [mkRow 7 6 5] (sampled 8 2 [1; 4; 9; 16]) (sampled 6 2 [(5, 0)]) = Err AssertionError.
Proof. repeat split; vm_compute; reflexivity. Qed.
