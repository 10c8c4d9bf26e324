(** * Theorems: stepwise prediction (C84). *)

From Coq Require Import List ZArith Bool Arith Lia Sorted.
From Coq Require Import ZifyBool ZifyNat.
Import ListNotations.
From Verif Require Import Np TscModel TscSpec TscProofs AccSpec ChkSpec PredSpec BldModel BldSpec BldProofs BldBuild BldShift StepModel StepSpec StepProofs.
Close Scope nat_scope.
Open Scope Z_scope.

(** ** C84: predict of EDMD(stepwise_transform=True) *)

(** Initial conditions with the common times [ts], of which [t] is the last: every
    state at the requested times is the one-step prediction from the [n] states before
    it, of the same series, over the time between the two states. *)
Theorem C84_stepwise :
  forall (V : Type) (pred : list V -> Z -> V) (F : list (row V)) (ts : list Z) (t : Z) (new : list Z) (fill : V) (n : nat),
  ValidRows F -> IdsSorted F -> CommonTimes F ts -> length ts = n -> last ts 0 = t ->
  StronglySorted Z.lt (t :: new) -> new <> [] ->
  predict_stepwise pred F (t :: new) n fill = Ok (flat_map (stepwise_series pred F n t new) (ids F)).
Proof. exact (@predict_stepwise_ok). Qed.
Print Assumptions C84_stepwise.

(** The placeholders that mark the missing states never enter a prediction. *)
Theorem C84_placeholder :
  forall (V : Type) (pred : list V -> Z -> V) (F : list (row V)) (ts : list Z) (t : Z) (new : list Z) (a b : V) (n : nat),
  ValidRows F -> IdsSorted F -> CommonTimes F ts -> length ts = n -> last ts 0 = t ->
  StronglySorted Z.lt (t :: new) -> new <> [] ->
  predict_stepwise pred F (t :: new) n a = predict_stepwise pred F (t :: new) n b.
Proof.
  intros V pred F ts t new a b n H1 H2 H3 H4 H5 H6 H7.
  rewrite (C84_stepwise V pred F ts t new a n H1 H2 H3 H4 H5 H6 H7).
  symmetry. apply (C84_stepwise V pred F ts); assumption.
Qed.
Print Assumptions C84_placeholder.

(** The prediction of a series does not depend on the other series. *)
Theorem C84_independent :
  forall (V : Type) (pred : list V -> Z -> V) (F G : list (row V)) (ts : list Z) (t : Z) (new : list Z) (fill : V) (n : nat)
         (i : Z) (P Q : list (row V)),
  ValidRows F -> IdsSorted F -> CommonTimes F ts -> ValidRows G -> IdsSorted G -> CommonTimes G ts ->
  length ts = n -> last ts 0 = t -> StronglySorted Z.lt (t :: new) -> new <> [] ->
  rows_of F i = rows_of G i ->
  predict_stepwise pred F (t :: new) n fill = Ok P -> predict_stepwise pred G (t :: new) n fill = Ok Q ->
  rows_of P i = rows_of Q i.
Proof.
  intros V pred F G ts t new fill n i P Q VF SF CF VG SG CG Hn Ht Hs Hne HR EP EQ.
  rewrite (C84_stepwise V pred F ts t new fill n VF SF CF Hn Ht Hs Hne) in EP.
  rewrite (C84_stepwise V pred G ts t new fill n VG SG CG Hn Ht Hs Hne) in EQ.
  injection EP as <-. injection EQ as <-. apply (stepwise_rows_eq pred F G n t new i HR).
Qed.
Print Assumptions C84_independent.

Definition ex84_pred (past : list Z) (d : Z) : Z := fold_left Z.add past 0 + 100 * d.
Definition ex84_F : list (row Z) := [mkRow 0 0 1; mkRow 0 1 2; mkRow 3 0 10; mkRow 3 1 20].

Example C84_example :
  tsc ex84_F = Ok ex84_F /\ CommonTimes ex84_F [0; 1] /\
  predict_stepwise ex84_pred ex84_F [1; 2; 4; 5] 2 (-1) =
  Ok [mkRow 0 1 2; mkRow 0 2 103; mkRow 0 4 305; mkRow 0 5 508;
      mkRow 3 1 20; mkRow 3 2 130; mkRow 3 4 350; mkRow 3 5 580].
Proof.
  split; [reflexivity|]. split; [|reflexivity]. intros i (r & Hr & <-).
  cbn in Hr. repeat (destruct Hr as [<-|Hr]; [reflexivity|]). destruct Hr.
Qed.

(** Series not stored in the order of their IDs exchange their initial conditions
    (from C76). *)
Theorem C84_order_refuted :
  exists (F P : list (row Z)), tsc F = Ok F /\ CommonTimes F [0; 1] /\
    predict_stepwise ex84_pred F [1; 2] 2 (-1) = Ok P /\
    rows_of F 0 = [mkRow 0 0 1; mkRow 0 1 2] /\
    rows_of P 0 = [mkRow 0 1 20; mkRow 0 2 130].
Proof.
  exists [mkRow 3 0 10; mkRow 3 1 20; mkRow 0 0 1; mkRow 0 1 2]. eexists.
  split; [reflexivity|]. split; [|split; [reflexivity|split; reflexivity]].
  intros i (r & Hr & <-). cbn in Hr. repeat (destruct Hr as [<-|Hr]; [reflexivity|]). destruct Hr.
Qed.
Print Assumptions C84_order_refuted.

(** A request for the time of the initial condition only is answered for several
    series but fails for every single series. *)
Theorem C84_single_time_refuted :
  forall (V : Type) (pred : list V -> Z -> V) (F : list (row V)) (i t : Z) (n : nat) (fill : V),
  ValidRows F -> OnlySeries F i -> forall P, predict_stepwise pred F [t] n fill <> Ok P.
Proof.
  intros V pred F i t n fill HV HO P E. unfold predict_stepwise in E. cbn [tl] in E.
  destruct (expand_time_values F [] fill) as [G|e] eqn:EX; [|discriminate].
  apply (expand_single F i [] fill G HV HO) in EX. destruct EX as [H _]. apply H. reflexivity.
Qed.
Print Assumptions C84_single_time_refuted.

Example C84_single_time_example :
  predict_stepwise ex84_pred ex84_F [1] 2 (-1) = Ok [mkRow 0 1 2; mkRow 3 1 20] /\
  (exists e, predict_stepwise ex84_pred (firstn 2 ex84_F) [1] 2 (-1) = Err e).
Proof. split; [reflexivity|]. eexists. reflexivity. Qed.
