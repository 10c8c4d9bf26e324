(** * Linear dynamical systems: the theorems of C28 and C29. *)

From Coq Require Import List ZArith Lia.
From Verif Require Import Np SysModel SysSpec SysProofs.
Import ListNotations.
Open Scope Z_scope.

(** Construction succeeds exactly for the supported configurations. *)
Theorem C28_supported_configurations :
  forall c, (exists s, new_system c = Ok s) <-> Supported c.
Proof. exact supported_iff. Qed.
Print Assumptions C28_supported_configurations.

(** A controlled discrete system in matrix mode: every predicted state is A x + B u of its
    predecessor and the control state of that step. *)
Theorem C28_flowmap_matrix_uses_control :
  forall (X W : Type) c req (P : parts) (x : X) (us : list W) ts xs,
    c_type c = TFlowmap -> c_mode c = MMatrix -> c_controlled c = true -> req = false ->
    evolve_system c req P x us ts = Ok xs ->
    Trajectory (fun x u => k_add P (k_A P x) (k_B P u)) x us (length ts) xs.
Proof. exact @flowmap_matrix_control. Qed.
Print Assumptions C28_flowmap_matrix_uses_control.

(** The same in spectral mode, with the matrix rebuilt from the spectral components. *)
Theorem C28_flowmap_spectral_uses_control :
  forall (X W : Type) c req (P : parts) (x : X) (us : list W) ts xs,
    c_type c = TFlowmap -> c_mode c = MSpectral -> c_controlled c = true -> req = false ->
    evolve_system c req P x us ts = Ok xs ->
    Trajectory (fun x u => k_add P (k_rec P x) (k_B P u)) (k_out P x) us (length ts) xs.
Proof. exact @flowmap_spectral_control. Qed.
Print Assumptions C28_flowmap_spectral_uses_control.

(** x' = 2 x + 10 u from 1 with inputs 1, 0, 3. *)
Example C28_example :
  evolve_system (Config TFlowmap MMatrix true false true) false
    (Parts Z.add (fun x => 2 * x) (fun u => 10 * u) (fun _ x => x) (fun _ x => x)
           (fun _ x => x) (fun _ x => x) (fun x => x) (fun x => x) (fun _ _ _ => nil))
    1 [1; 0; 3] [0; 1; 2; 3] = Ok [1; 12; 24; 78].
Proof. reflexivity. Qed.

(** No configuration, valid or not, selects a solver for controlled differential systems. *)
Theorem C28_controlled_differential_unreachable :
  forall c, new_system c <> Ok differential_matrix_controlled_affine
         /\ new_system c <> Ok differential_matrix_controlled.
Proof. exact affine_unreachable. Qed.
Print Assumptions C28_controlled_differential_unreachable.

(** Every controlled differential system ignores its control input: other inputs of the
    same length give the same prediction, that of the uncontrolled system. *)
Theorem C28_differential_ignores_control :
  forall (X W : Type) c req (P : parts) (x : X) (us us' : list W) ts xs,
    c_type c = TDifferential -> c_controlled c = true -> length us' = length us ->
    evolve_system c req P x us ts = Ok xs ->
    evolve_system c req P x us' ts = Ok xs /\ xs = map (fun t => k_exp P t x) ts.
Proof. exact @control_ignored. Qed.
Print Assumptions C28_differential_ignores_control.

(** The configuration of gDMDAffine (dmd.py 1788-1793, all control states required): the
    numerical solution of the affine system depends on the input, the prediction not. *)
Theorem C28_affine_refuted :
  exists (P : @parts Z Z) x us us' ts xs,
    let c := Config TDifferential MMatrix true true true in
    k_affine P x us ts <> k_affine P x us' ts
    /\ evolve_system c true P x us ts = Ok xs /\ evolve_system c true P x us' ts = Ok xs.
Proof.
  exists (Parts Z.add (fun x => x) (fun u => u) (fun t x => x + t) (fun t x => x)
           (fun t x => x) (fun t x => x) (fun x => x) (fun x => x)
           (fun x us ts => map (Z.add x) us)).
  exists 1, [1; 1], [2; 2], [0; 1]. eexists. cbn.
  split; [discriminate|]. split; reflexivity.
Qed.
Print Assumptions C28_affine_refuted.

(** ** C29 *)

(** The matrix set-up of a new object succeeds exactly for arguments that fit together. *)
Theorem C29_first_matrix_setup :
  forall (P : Type) c (A B : arg P), c_mode c = MMatrix ->
    (snd (setup_matrix_system c fresh A B) = Ok tt <-> ValidMatrix c A B).
Proof.
  intros P c A B HM. apply setup_matrix_ok. unfold is_setup. rewrite HM. reflexivity.
Qed.
Print Assumptions C29_first_matrix_setup.

(** In every history of set-up calls of a system in matrix mode at most one call
    succeeds, and its matrices are those of the object at the end. *)
Theorem C29_matrix_setup_once :
  forall (P : Type) c (ks : list (call P)) st rs i A B,
    c_mode c = MMatrix -> run_calls c fresh ks = (st, rs) ->
    nth_error ks i = Some (CallMatrix A B) -> nth_error rs i = Some (Ok tt) ->
    a_sys st = Some A /\ (c_controlled c = true -> a_control st = Some B)
    /\ (forall j, j <> i -> nth_error rs j <> Some (Ok tt)).
Proof. intros P c ks. exact (@matrix_once P c ks fresh). Qed.
Print Assumptions C29_matrix_setup_once.

(** Spectral mode: whether a set-up succeeds depends on its arguments only. *)
Theorem C29_spectral_setup_repeatable :
  forall (P : Type) c (ks : list (call P)) st rs i V E L B,
    c_mode c = MSpectral -> run_calls c fresh ks = (st, rs) ->
    nth_error ks i = Some (CallSpectral V E L B) ->
    (nth_error rs i = Some (Ok tt) <-> ValidSpectral V E).
Proof. intros P c ks. exact (@spectral_success P c ks fresh). Qed.
Print Assumptions C29_spectral_setup_repeatable.

(** Spectral mode: the last successful set-up wins, whatever other calls (also matrix
    set-ups) the history contains. *)
Theorem C29_spectral_last_wins :
  forall (P : Type) c (ks : list (call P)) st rs i V E L B,
    c_mode c = MSpectral -> run_calls c fresh ks = (st, rs) ->
    LastValidSpectral ks i V E L B ->
    a_right st = Some V /\ a_values st = Some E /\ a_left st = Some L /\ a_control st = Some B.
Proof. intros P c ks. exact (@spectral_last_wins P c ks fresh). Qed.
Print Assumptions C29_spectral_last_wins.

Example C29_spectral_example :
  let V k := AArray [2%nat; 2%nat] k in let E k := AArray [2%nat] k in
  let ks := [CallSpectral (V 1) (E 1) ANone ANone; CallMatrix (V 9) ANone;
             CallSpectral (V 2) (E 2) (V 3) ANone; CallSpectral (V 4) (V 4) ANone ANone] in
  LastValidSpectral ks 2 (V 2) (E 2) (V 3) ANone
  /\ snd (run_calls (Config TFlowmap MSpectral false false true) fresh ks)
     = [Ok tt; Err RuntimeError; Ok tt; Err ValueError].
Proof.
  cbn. split; [|reflexivity]. split; [reflexivity|]. split.
  - exists 2%nat, 1%nat, 2, 2. auto.
  - intros [|[|[|[|j]]]] V' E' L' B' Hj H; try lia; try discriminate H.
    + injection H as <- <- <- <-. intros (r & k & v & e & _ & E). discriminate E.
    + destruct j; discriminate H.
Qed.

(** A matrix set-up rejected because of its control matrix leaves an object that counts
    as set up, and every later set-up is rejected. *)
Theorem C29_failed_setup_blocks :
  forall (P : Type) c (A B : arg P) ks st rs r k p,
    c_mode c = MMatrix -> A = AArray [r; k] p -> ~ ValidMatrix c A B ->
    run_calls c fresh (CallMatrix A B :: ks) = (st, rs) ->
    is_setup c st = true /\ Forall (fun x => x <> Ok tt) rs.
Proof. exact @failed_blocks. Qed.
Print Assumptions C29_failed_setup_blocks.

(** The system of DMDControl: a 2 x 2 system with a control matrix of three rows is
    rejected, and so is the corrected set-up that would have succeeded first. *)
Theorem C29_failed_setup_refuted :
  exists c (A B B' : arg unit) st e,
    run_calls c fresh [CallMatrix A B'; CallMatrix A B] = (st, [Err e; Err RuntimeError])
    /\ snd (run_calls c fresh [CallMatrix A B]) = [Ok tt] /\ is_setup c st = true
    /\ a_control st = Some B'.
Proof.
  exists (Config TFlowmap MMatrix true false true), (AArray [2; 2]%nat tt), (AArray [2; 1]%nat tt),
    (AArray [3; 1]%nat tt). eexists. eexists. split; [reflexivity|]. repeat split.
Qed.
Print Assumptions C29_failed_setup_refuted.

(** Left eigenvectors are not checked: anything is accepted. *)
Theorem C29_left_eigenvectors_refuted :
  exists c (V E : arg unit) st,
    setup_spectral_system c fresh V E AOther ANone = (st, Ok tt) /\ a_left st = Some AOther.
Proof.
  exists (Config TFlowmap MSpectral false false true), (AArray [2; 2]%nat tt), (AArray [2]%nat tt).
  eexists. split; reflexivity.
Qed.
Print Assumptions C29_left_eigenvectors_refuted.

(** In spectral mode a matrix set-up is accepted although the object is not usable after it. *)
Theorem C29_matrix_setup_in_spectral_mode_refuted :
  exists c (A : arg unit) st,
    setup_matrix_system c fresh A ANone = (st, Ok tt) /\ is_setup c st = false.
Proof.
  exists (Config TFlowmap MSpectral false false true), (AArray [2; 2]%nat tt).
  eexists. split; reflexivity.
Qed.
Print Assumptions C29_matrix_setup_in_spectral_mode_refuted.
