(** * Linear dynamical systems: proofs for C28 and C29. *)

From Coq Require Import List ZArith Bool Arith Lia.
From Verif Require Import Np SysModel SysSpec.
Import ListNotations.

Lemma supported_iff c : (exists s, new_system c = Ok s) <-> Supported c.
Proof.
  unfold Supported. destruct c as [[] [] [] [] []]; cbn; split;
    try (intros [s H]; try discriminate H; intuition (try discriminate; auto); fail);
    try (intros H; eexists; reflexivity);
    intros H; exfalso; intuition (try discriminate).
Qed.

Lemma affine_unreachable c :
  new_system c <> Ok differential_matrix_controlled_affine
  /\ new_system c <> Ok differential_matrix_controlled.
Proof. destruct c as [[] [] [] [] []]; cbn; split; discriminate. Qed.

Section Evolve.
Context {X W : Type}.

Lemma control_loop_trajectory (f : X -> W -> X) us : forall n x,
  length us = n -> Trajectory f x us (S n) (control_loop f x us n).
Proof.
  induction us as [|u us IH]; intros n x H; destruct n as [|n]; try discriminate H.
  - repeat split. intros i a b c Ha Hb. destruct i; discriminate Hb.
  - cbn in H. injection H as H. destruct (IH n (f x u) H) as (L & Z0 & S0).
    cbn. split; [cbn; congruence|]. split; [reflexivity|].
    intros [|i] a b c Ha Hb Hc.
    + injection Ha as <-. injection Hb as <-.
      change (nth_error (control_loop f (f x u) us n) 0 = Some c) in Hc. congruence.
    + eapply S0; eauto.
Qed.

Lemma flowmap_matrix_control c req (P : parts) (x : X) (us : list W) ts xs :
  c_type c = TFlowmap -> c_mode c = MMatrix -> c_controlled c = true -> req = false ->
  evolve_system c req P x us ts = Ok xs ->
  Trajectory (fun x u => k_add P (k_A P x) (k_B P u)) x us (length ts) xs.
Proof.
  destruct c as [t m ctl aff inv]; cbn; intros -> -> -> ->. unfold evolve_system.
  destruct inv; cbn; [|discriminate]. destruct aff; cbn; [discriminate|].
  destruct (length us + 1 =? length ts)%nat eqn:E; cbn; [|discriminate].
  apply Nat.eqb_eq in E. intros H. injection H as <-.
  replace (length ts) with (S (length ts - 1)) at 1 by lia.
  apply control_loop_trajectory. lia.
Qed.

Lemma flowmap_spectral_control c req (P : parts) (x : X) (us : list W) ts xs :
  c_type c = TFlowmap -> c_mode c = MSpectral -> c_controlled c = true -> req = false ->
  evolve_system c req P x us ts = Ok xs ->
  Trajectory (fun x u => k_add P (k_rec P x) (k_B P u)) (k_out P x) us (length ts) xs.
Proof.
  destruct c as [t m ctl aff inv]; cbn; intros -> -> -> ->. unfold evolve_system.
  destruct inv; cbn; [|discriminate]. destruct aff; cbn; [discriminate|].
  destruct (length us + 1 =? length ts)%nat eqn:E; cbn; [|discriminate].
  apply Nat.eqb_eq in E. intros H. injection H as <-.
  replace (length ts) with (S (length ts - 1)) at 1 by lia.
  apply control_loop_trajectory. lia.
Qed.

Lemma control_ignored c req (P : parts) (x : X) (us us' : list W) ts xs :
  c_type c = TDifferential -> c_controlled c = true -> length us' = length us ->
  evolve_system c req P x us ts = Ok xs ->
  evolve_system c req P x us' ts = Ok xs /\ xs = map (fun t => k_exp P t x) ts.
Proof.
  destruct c as [t m ctl aff inv]; cbn; intros -> -> EL. unfold evolve_system. rewrite EL.
  destruct m, inv, aff; cbn; try discriminate;
  destruct (length us + (if req then 0 else 1) =? length ts)%nat eqn:E; cbn; try discriminate;
  intros H; injection H as <-; auto.
Qed.

End Evolve.

Section Setup.
Context {P : Type}.

Lemma opt_nat_eqb_eq a b : opt_nat_eqb a b = true <-> a = b.
Proof.
  destruct a as [a|], b as [b|]; cbn; split; try congruence.
  - intros H. apply Nat.eqb_eq in H. congruence.
  - intros H. injection H as ->. apply Nat.eqb_refl.
Qed.

Lemma shape_eqb_eq a : forall b, shape_eqb a b = true <-> a = b.
Proof.
  induction a as [|x a IH]; intros [|y b]; cbn; split; try congruence.
  - intros H. apply andb_true_iff in H as [H1 H2]. apply Nat.eqb_eq in H1. apply IH in H2. congruence.
  - intros H. injection H as -> ->. rewrite Nat.eqb_refl. apply IH. reflexivity.
Qed.

Lemma is_matrix_ok (a : arg P) : is_matrix a = Ok tt <-> exists r k p, a = AArray [r; k] p.
Proof.
  split.
  - destruct a as [|[|r [|k [|? ?]]] p|]; cbn; try discriminate. eauto.
  - intros (r & k & p & ->). reflexivity.
Qed.

Lemma is_vector_ok (a : arg P) : is_vector a = Ok tt <-> exists k p, a = AArray [S k] p.
Proof.
  split.
  - destruct a as [|[|[|r] [|k ?]] p|]; cbn; try discriminate. eauto.
  - intros (k & p & ->). reflexivity.
Qed.

Ltac unit_res := repeat match goal with u : unit |- _ => destruct u end.

(** a matrix set-up of a system that is not yet set up *)
Lemma setup_matrix_ok c (st : sys_state P) A B :
  is_setup c st = false ->
  (snd (setup_matrix_system c st A B) = Ok tt <-> ValidMatrix c A B).
Proof.
  intros HS. unfold setup_matrix_system, ValidMatrix. rewrite HS.
  destruct (is_matrix A) as [u|e] eqn:EA; unit_res; cbn.
  2:{ split; [discriminate|]. intros (r & k & p & -> & _). discriminate EA. }
  apply is_matrix_ok in EA. destruct EA as (r & k & p & ->).
  destruct (c_controlled c), (c_affine c); cbn.
  - destruct B as [|s b|]; cbn;
      try (split; [discriminate|]; intros (r' & k' & p' & E & q & b' & E'); discriminate E').
    destruct (length s =? 3)%nat eqn:E3; cbn.
    + apply Nat.eqb_eq in E3. destruct s as [|x [|y [|z [|? ?]]]]; try discriminate E3. cbn.
      destruct (x =? r)%nat eqn:Ex; cbn; [destruct (y =? k)%nat eqn:Ey; cbn|].
      * apply Nat.eqb_eq in Ex, Ey. subst. split; [|reflexivity]. intros _.
        exists r, k, p. split; [reflexivity|]. eauto.
      * split; [discriminate|]. intros (r' & k' & p' & E & q & b' & E').
        injection E as -> -> ->. injection E' as -> -> -> ->. rewrite Nat.eqb_refl in Ey. discriminate.
      * split; [discriminate|]. intros (r' & k' & p' & E & q & b' & E').
        injection E as -> -> ->. injection E' as -> -> -> ->. rewrite Nat.eqb_refl in Ex. discriminate.
    + split; [discriminate|]. intros (r' & k' & p' & E & q & b' & E').
      injection E' as -> ->. discriminate E3.
  - destruct (is_matrix B) as [u|e] eqn:EB; unit_res; cbn.
    + apply is_matrix_ok in EB. destruct EB as (r' & q & b & ->). cbn.
      destruct (r' =? r)%nat eqn:Er; cbn.
      * apply Nat.eqb_eq in Er. subst. split; [|reflexivity]. intros _. exists r, k, p. eauto.
      * split; [discriminate|]. intros (r1 & k' & p' & E & q' & b' & E').
        injection E as -> -> ->. injection E' as -> -> ->. rewrite Nat.eqb_refl in Er. discriminate.
    + split; [discriminate|]. intros (r' & k' & p' & E & q & b' & E'). subst B. discriminate EB.
  - destruct B; cbn; split; try discriminate; try (intros (? & ? & ? & _ & E); discriminate E); eauto.
  - destruct B; cbn; split; try discriminate; try (intros (? & ? & ? & _ & E); discriminate E); eauto.
Qed.

Lemma setup_matrix_state c (st : sys_state P) A B :
  snd (setup_matrix_system c st A B) = Ok tt ->
  a_sys (fst (setup_matrix_system c st A B)) = Some A
  /\ (c_controlled c = true -> a_control (fst (setup_matrix_system c st A B)) = Some B).
Proof.
  unfold setup_matrix_system.
  destruct (is_setup c st); cbn; [discriminate|].
  destruct (is_matrix A); cbn; [|discriminate].
  destruct (c_controlled c), (c_affine c); cbn;
    try (destruct B as [|s ?|]; cbn; try discriminate;
         try (destruct (length s =? 3)%nat; cbn; try discriminate;
              destruct (shape_eqb _ _); cbn; try discriminate); intros _; split; congruence).
  destruct (is_matrix B); cbn; [|discriminate].
  destruct (opt_nat_eqb _ _); cbn; [|discriminate]. auto.
Qed.

Lemma setup_done c (st : sys_state P) A B :
  is_setup c st = true -> setup_matrix_system c st A B = (st, Err RuntimeError).
Proof. unfold setup_matrix_system. intros ->. reflexivity. Qed.

Lemma setup_spectral_ok c (st : sys_state P) V E L B :
  c_mode c = MSpectral ->
  (snd (setup_spectral_system c st V E L B) = Ok tt <-> ValidSpectral V E).
Proof.
  intros HM. unfold setup_spectral_system, ValidSpectral. rewrite HM. cbn.
  destruct (is_matrix V) as [u|e] eqn:EV; unit_res; cbn.
  2:{ split; [discriminate|]. intros (r & k & v & e' & -> & _). discriminate EV. }
  replace (if is_none_arg L then Ok tt else @Ok unit tt) with (@Ok unit tt) by (destruct (is_none_arg L); reflexivity).
  destruct (is_vector E) as [u|e] eqn:EE; unit_res; cbn.
  2:{ split; [discriminate|]. intros (r & k & v & e' & _ & ->). discriminate EE. }
  apply is_matrix_ok in EV. destruct EV as (r & k & p & ->).
  apply is_vector_ok in EE. destruct EE as (j & e & ->). cbn [dim nth_error opt_nat_eqb].
  destruct (S j =? k)%nat eqn:Ek; cbn.
  - apply Nat.eqb_eq in Ek. subst k. split; [|reflexivity]. intros _. exists r, j, p, e. auto.
  - split; [discriminate|]. intros (r' & k' & v & e' & E1 & E2). injection E1 as -> -> ->.
    injection E2 as -> ->. rewrite Nat.eqb_refl in Ek. discriminate.
Qed.

Lemma setup_spectral_state c (st : sys_state P) V E L B :
  match snd (setup_spectral_system c st V E L B) with
  | Ok _ => fst (setup_spectral_system c st V E L B)
            = SysState (a_sys st) (Some B) (Some V) (Some E) (Some L)
  | Err _ => fst (setup_spectral_system c st V E L B) = st
  end.
Proof.
  unfold setup_spectral_system.
  destruct (negb _); cbn; [reflexivity|].
  destruct (is_matrix V) as [[]|]; cbn; [|reflexivity].
  replace (if is_none_arg L then Ok tt else @Ok unit tt) with (@Ok unit tt) by (destruct (is_none_arg L); reflexivity).
  destruct (is_vector E); cbn; [|reflexivity].
  destruct (opt_nat_eqb _ _); reflexivity.
Qed.

(** matrix mode: once the system matrix is set nothing changes any more *)
Lemma run_done c (ks : list (call P)) : forall st st' rs,
  c_mode c = MMatrix -> is_setup c st = true ->
  run_calls c st ks = (st', rs) -> st' = st /\ Forall (fun r => r = Err RuntimeError) rs.
Proof.
  induction ks as [|k ks IH]; intros st st' rs HM HS H; cbn in H.
  - injection H as <- <-. auto.
  - assert (E : run_call c st k = (st, Err RuntimeError)).
    { destruct k as [A B|V E L B]; cbn.
      - apply setup_done. exact HS.
      - unfold setup_spectral_system. rewrite HM. reflexivity. }
    rewrite E in H. destruct (run_calls c st ks) as [s2 r2] eqn:E2. injection H as <- <-.
    destruct (IH _ _ _ HM HS E2) as [-> F]. auto.
Qed.

Lemma matrix_once c (ks : list (call P)) : forall st st' rs i A B,
  c_mode c = MMatrix -> run_calls c st ks = (st', rs) ->
  nth_error ks i = Some (CallMatrix A B) -> nth_error rs i = Some (Ok tt) ->
  a_sys st' = Some A /\ (c_controlled c = true -> a_control st' = Some B)
  /\ (forall j, j <> i -> nth_error rs j <> Some (Ok tt)).
Proof.
  induction ks as [|k ks IH]; intros st st' rs i A B HM H Hk Hr.
  - destruct i; discriminate Hk.
  - cbn in H. destruct (run_call c st k) as [s1 r1] eqn:E1.
    destruct (run_calls c s1 ks) as [s2 r2] eqn:E2. injection H as <- <-.
    destruct i as [|i]; cbn in Hk, Hr.
    + injection Hk as ->. injection Hr as ->. cbn in E1.
      destruct (setup_matrix_state c st A B) as [HA HB]; [rewrite E1; reflexivity|].
      rewrite E1 in HA, HB. cbn in HA, HB.
      assert (HS : is_setup c s1 = true) by (unfold is_setup; rewrite HM, HA; reflexivity).
      destruct (run_done c ks s1 s2 r2 HM HS E2) as [-> F].
      split; [exact HA|]. split; [exact HB|].
      intros [|j] Hj; [congruence|]. cbn. intros E. apply nth_error_In in E.
      rewrite Forall_forall in F. specialize (F _ E). discriminate F.
    + destruct (IH _ _ _ _ _ _ HM E2 Hk Hr) as (HA & HB & HC).
      split; [exact HA|]. split; [exact HB|].
      intros [|j] Hj; cbn; [|apply HC; congruence].
      intros E. injection E as ->.
      assert (HS : is_setup c s1 = true).
      { destruct k as [A' B'|V E L B']; cbn in E1.
        - destruct (setup_matrix_state c st A' B') as [HA' _]; [rewrite E1; reflexivity|].
          rewrite E1 in HA'. cbn in HA'. unfold is_setup. rewrite HM, HA'. reflexivity.
        - unfold setup_spectral_system in E1. rewrite HM in E1. cbn in E1. congruence. }
      destruct (run_done c ks s1 s2 r2 HM HS E2) as [-> F].
      apply nth_error_In in Hr. rewrite Forall_forall in F. specialize (F _ Hr). discriminate F.
Qed.

(** a failed set-up that got past the check of the system matrix blocks all later ones *)
Lemma failed_blocks c A B (ks : list (call P)) st rs r k p :
  c_mode c = MMatrix -> A = AArray [r; k] p -> ~ ValidMatrix c A B ->
  run_calls c fresh (CallMatrix A B :: ks) = (st, rs) ->
  is_setup c st = true /\ Forall (fun x => x <> Ok tt) rs.
Proof.
  intros HM -> HV H. cbn in H.
  destruct (setup_matrix_system c fresh (AArray [r; k] p) B) as [s1 r1] eqn:E1.
  destruct (run_calls c s1 ks) as [s2 r2] eqn:E2. injection H as <- <-.
  assert (HS : is_setup c s1 = true).
  { revert E1. unfold setup_matrix_system, is_setup. rewrite HM. cbn.
    destruct (c_controlled c), (c_affine c); cbn.
    - destruct B as [|s b|]; cbn; try (intros E; injection E as <- <-; reflexivity).
      destruct (negb _); [intros E; injection E as <- <-; reflexivity|].
      destruct (shape_eqb _ _); intros E; injection E as <- <-; reflexivity.
    - destruct (is_matrix B); [|intros E; injection E as <- <-; reflexivity].
      destruct (opt_nat_eqb _ _); intros E; injection E as <- <-; reflexivity.
    - destruct (is_none_arg B); intros E; injection E as <- <-; reflexivity.
    - destruct (is_none_arg B); intros E; injection E as <- <-; reflexivity. }
  destruct (run_done c ks s1 s2 r2 HM HS E2) as [-> F].
  split; [exact HS|]. constructor.
  - intros ->. apply HV. apply (setup_matrix_ok c fresh).
    + unfold is_setup. rewrite HM. reflexivity.
    + rewrite E1. reflexivity.
  - eapply Forall_impl; [|exact F]. cbn. intros ? ->. discriminate.
Qed.

(** spectral mode *)
Lemma run_app c (ks1 ks2 : list (call P)) : forall st,
  run_calls c st (ks1 ++ ks2)
  = (fst (run_calls c (fst (run_calls c st ks1)) ks2),
     snd (run_calls c st ks1) ++ snd (run_calls c (fst (run_calls c st ks1)) ks2)).
Proof.
  induction ks1 as [|k ks1 IH]; intros st; cbn.
  - destruct (run_calls c st ks2); reflexivity.
  - destruct (run_call c st k) as [s1 r1]. rewrite IH.
    destruct (run_calls c s1 ks1) as [s2 r2]. reflexivity.
Qed.

Lemma spectral_success c (ks : list (call P)) : forall st st' rs i V E L B,
  c_mode c = MSpectral -> run_calls c st ks = (st', rs) ->
  nth_error ks i = Some (CallSpectral V E L B) ->
  (nth_error rs i = Some (Ok tt) <-> ValidSpectral V E).
Proof.
  induction ks as [|k ks IH]; intros st st' rs i V E L B HM H Hk.
  - destruct i; discriminate Hk.
  - cbn in H. destruct (run_call c st k) as [s1 r1] eqn:E1.
    destruct (run_calls c s1 ks) as [s2 r2] eqn:E2. injection H as <- <-.
    destruct i as [|i]; cbn in Hk |- *.
    + injection Hk as ->. cbn in E1. rewrite <- (setup_spectral_ok c st V E L B HM). rewrite E1. cbn.
      split; congruence.
    + eapply IH; eauto.
Qed.

Definition holds (st : sys_state P) (V E L B : arg P) : Prop :=
  a_right st = Some V /\ a_values st = Some E /\ a_left st = Some L /\ a_control st = Some B.

Lemma holds_setup c st V E L B : c_mode c = MSpectral -> holds st V E L B -> is_setup c st = true.
Proof. intros HM (H1 & H2 & _). unfold is_setup. rewrite HM, H1, H2. reflexivity. Qed.

Lemma spectral_keeps c (ks : list (call P)) : forall st st' rs V E L B,
  c_mode c = MSpectral -> holds st V E L B -> run_calls c st ks = (st', rs) ->
  (forall j V' E' L' B', nth_error ks j = Some (CallSpectral V' E' L' B') -> ~ ValidSpectral V' E') ->
  holds st' V E L B.
Proof.
  induction ks as [|k ks IH]; intros st st' rs V E L B HM HH H HN; cbn in H.
  - injection H as <- <-. exact HH.
  - destruct (run_call c st k) as [s1 r1] eqn:E1.
    destruct (run_calls c s1 ks) as [s2 r2] eqn:E2. injection H as <- <-.
    assert (s1 = st) as ->.
    { destruct k as [A' B'|V' E' L' B']; cbn in E1.
      - rewrite (setup_done c st A' B' (holds_setup c st V E L B HM HH)) in E1. congruence.
      - pose proof (setup_spectral_state c st V' E' L' B') as HS. rewrite E1 in HS. cbn in HS.
        destruct r1 as [[]|]; [|exact HS]. exfalso.
        apply (HN 0%nat V' E' L' B'); [reflexivity|].
        rewrite <- (setup_spectral_ok c st V' E' L' B' HM), E1. reflexivity. }
    eapply IH; eauto. intros j V' E' L' B' Hj. exact (HN (S j) V' E' L' B' Hj).
Qed.

Lemma spectral_last_wins c (ks : list (call P)) : forall st st' rs i V E L B,
  c_mode c = MSpectral -> run_calls c st ks = (st', rs) ->
  LastValidSpectral ks i V E L B -> holds st' V E L B.
Proof.
  induction ks as [|k ks IH]; intros st st' rs i V E L B HM H (Hi & HV & HN).
  - destruct i; discriminate Hi.
  - cbn in H. destruct (run_call c st k) as [s1 r1] eqn:E1.
    destruct (run_calls c s1 ks) as [s2 r2] eqn:E2. injection H as <- <-.
    destruct i as [|i]; cbn in Hi.
    + injection Hi as ->. cbn in E1. pose proof (setup_spectral_state c st V E L B) as HS.
      pose proof (proj2 (setup_spectral_ok c st V E L B HM) HV) as HO. rewrite HO in HS.
      rewrite E1 in HS. cbn in HS. subst s1.
      eapply spectral_keeps; [exact HM| |exact E2|].
      * repeat split.
      * intros j V' E' L' B' Hj. apply (HN (S j) V' E' L' B'); [lia|exact Hj].
    + eapply (IH s1 s2 r2 i); eauto. split; [exact Hi|]. split; [exact HV|].
      intros j V' E' L' B' Hj Hk. apply (HN (S j) V' E' L' B'); [lia|exact Hk].
Qed.

End Setup.
