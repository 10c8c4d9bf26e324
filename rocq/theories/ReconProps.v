(** * Theorems about reconstructions (C16). *)

From Coq Require Import List ZArith Bool Arith Lia Sorted Permutation.
From Coq Require Import ZifyBool ZifyNat.
Import ListNotations.
From Verif Require Import Np TscModel TscSpec ReconModel ReconSpec ReconProofs ReconEdmd.
Close Scope nat_scope.
Open Scope Z_scope.

(** DMD: a reconstruction of a regularly sampled collection has exactly one
    kind of rows: for every sample of the data a row with the ID and time of the
    sample, predicted from the first sample of the same series; any number of
    series of any lengths and start times, stored in any order. *)
Theorem C16_dmd_labels :
  forall (V : Type) (pred : list V -> Z -> V) (F G : list (row V)),
  ValidRows F -> SmallSteps F -> dmd_reconstruct pred KInt F = Ok G ->
  forall r, In r G <-> exists q, Reconstructs pred F r q.
Proof. exact (@dmd_labels). Qed.
Print Assumptions C16_dmd_labels.

(** ... and every sample is reconstructed exactly once. *)
Theorem C16_dmd_once :
  forall (V : Type) (pred : list V -> Z -> V) (F G : list (row V)),
  ValidRows F -> SmallSteps F -> dmd_reconstruct pred KInt F = Ok G ->
  Permutation G (flat_map (reconstruction pred F 1) (ids F)).
Proof. exact (@dmd_once). Qed.
Print Assumptions C16_dmd_once.

Theorem C16_dmd_succeeds :
  forall (V : Type) (pred : list V -> Z -> V) (F : list (row V)) (d : Z),
  ValidRows F -> SmallSteps F -> (forall i, Occurs F i -> Regular F i d) ->
  exists G, dmd_reconstruct pred KInt F = Ok G.
Proof. exact (@dmd_succeeds). Qed.
Print Assumptions C16_dmd_succeeds.

(** EDMD: if series with larger IDs are never shorter, the reconstruction lists
    the series in the order of their IDs; each from its own first [n] samples,
    labelled with its own ID and original times. *)
Theorem C16_edmd_labels :
  forall (V : Type) (pred : list V -> Z -> V) (F : list (row V)) (d : Z) (n : nat),
  ValidRows F -> IdsSorted F -> SmallSteps F -> (1 <= n)%nat ->
  (forall i, Occurs F i -> Regular F i d /\ (n < length (rows_of F i))%nat) ->
  LengthsAscending F ->
  edmd_reconstruct pred KInt F n = Ok (flat_map (reconstruction pred F n) (ids F)).
Proof. exact (@edmd_reconstruct_spec). Qed.
Print Assumptions C16_edmd_labels.

Definition ex_pred (ic : list Z) (t : Z) : Z := last ic 0 + t.

Definition ex_data : list (row Z) :=
  [mkRow 2 5 20; mkRow 2 7 21; mkRow 2 9 22; mkRow 4 1 40; mkRow 4 3 41; mkRow 4 5 42; mkRow 4 7 43].

Example C16_example_edmd :
  edmd_reconstruct ex_pred KInt ex_data 2
  = Ok [mkRow 2 7 21; mkRow 2 9 23; mkRow 4 3 41; mkRow 4 5 43; mkRow 4 7 45].
Proof. vm_compute. reflexivity. Qed.

Example C16_example_dmd :
  dmd_reconstruct ex_pred KInt ex_data
  = Ok [mkRow 4 1 40; mkRow 4 3 42; mkRow 4 5 44; mkRow 4 7 46; mkRow 2 5 20; mkRow 2 7 22; mkRow 2 9 24].
Proof. vm_compute. reflexivity. Qed.

(** EDMD with a longer series before a shorter one: the groups come out in the
    order of their end times while the labels are assigned in the order of the
    data, so a row predicted from series 1 carries a label of series 0. *)
Theorem C16_edmd_refuted :
  exists (pred : list Z -> Z -> Z) (F G : list (row Z)) (r : row Z),
    tsc F = Ok F /\
    (forall i, Occurs F i -> Regular F i 1 /\ (1 < length (rows_of F i))%nat) /\
    edmd_reconstruct pred KInt F 1 = Ok G /\ In r G /\
    ~ exists q, Reconstructs pred F r q.
Proof.
  exists ex_pred,
    [mkRow 0 0 100; mkRow 0 1 101; mkRow 0 2 102; mkRow 1 0 200; mkRow 1 1 201],
    [mkRow 0 0 200; mkRow 0 1 201; mkRow 0 2 100; mkRow 1 0 101; mkRow 1 1 102],
    (mkRow 0 0 200).
  split; [vm_compute; reflexivity|]. split; [|split; [vm_compute; reflexivity|split; [left; reflexivity|]]].
  - intros i (q & Hq & <-). cbn in Hq.
    assert (HN : forall a b : row Z, Next [mkRow 0 0 100; mkRow 0 1 101; mkRow 0 2 102; mkRow 1 0 200; mkRow 1 1 201] a b ->
       rid a = rid b -> rtime b - rtime a = 1).
    { intros a b (l & r & E) Eab.
      destruct l as [|x1 [|x2 [|x3 [|x4 [|x5 l]]]]]; cbn in E;
        repeat match type of E with _ :: _ = _ :: _ => injection E; clear E; intros E; intros; subst; cbn in * end;
        try discriminate; subst; cbn in *; try lia; try discriminate.
      all: try (destruct l; discriminate). }
    split; [split|].
    + repeat destruct Hq as [<-|Hq]; try (destruct Hq); cbn; lia.
    + intros a b Hn Ha Hb. apply HN; [exact Hn|congruence].
    + repeat destruct Hq as [<-|Hq]; try (destruct Hq); cbn; lia.
  - intros (q & Hq & Er & Et & q0 & Hh & Ev). cbn in Hq, Er, Et.
    repeat destruct Hq as [<-|Hq]; try (destruct Hq); cbn in *; try discriminate.
    injection Hh as <-. vm_compute in Ev. discriminate.
Qed.
Print Assumptions C16_edmd_refuted.
