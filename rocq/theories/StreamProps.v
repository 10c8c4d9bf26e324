(** * StreamingDMD: the theorems of C24. *)

From Coq Require Import List ZArith Bool Arith Lia Permutation.
From Verif Require Import Np TscModel TscSpec TscProofs StreamModel StreamSpec StreamProofs TscOps TscProps.
Import ListNotations.
Open Scope Z_scope.

(** A model that is already fitted processes every snapshot pair of a batch once. *)
Theorem C24_later_batches_complete :
  forall (V : Type) k d (F : list (row V)) d' ps,
    ValidRows F -> IdsSorted F -> stream_partial_fit k (Some d) F = Ok (d', ps) ->
    d' = d /\ ps = snapshot_pairs F.
Proof. exact @later_batch. Qed.
Print Assumptions C24_later_batches_complete.

(** The first batch: the pair of the first two rows and all pairs of the rows from the
    third on are processed, nothing else. *)
Theorem C24_first_batch :
  forall (V : Type) k (F : list (row V)) d ps,
    ValidRows F -> IdsSorted F -> stream_partial_fit k None F = Ok (d, ps) ->
    exists a b rest, F = a :: b :: rest /\ rid a = rid b /\ ps = (rval a, rval b) :: snapshot_pairs rest.
Proof. exact @first_batch. Qed.
Print Assumptions C24_first_batch.

(** So no pair is lost exactly if the first series has two samples. *)
Theorem C24_first_batch_complete_iff :
  forall (V : Type) k (F : list (row V)) d ps i,
    ValidRows F -> IdsSorted F -> stream_partial_fit k None F = Ok (d, ps) ->
    hd_error (ids_index F) = Some i ->
    (ps = snapshot_pairs F <-> length (rows_of F i) = 2%nat).
Proof. exact @first_batch_complete. Qed.
Print Assumptions C24_first_batch_complete_iff.

(** One series with values 10, 11, 12, 13: the pair (11, 12) is not used. *)
Theorem C24_first_batch_refuted :
  exists (F : list (row Z)) d ps, ValidRows F /\ IdsSorted F
    /\ stream_partial_fit KInt None F = Ok (d, ps)
    /\ In (11, 12) (snapshot_pairs F) /\ ~ In (11, 12) ps.
Proof.
  exists [rw 0 0 10; rw 0 1 11; rw 0 2 12; rw 0 3 13]. eexists. eexists.
  split; [valid|]. split; [apply lexsorted_iff; reflexivity|].
  split; [reflexivity|]. split; [vm_compute; auto|]. vm_compute. intuition discriminate.
Qed.
Print Assumptions C24_first_batch_refuted.

(** The sampling interval of the first batch is read off its first pair only: the rest
    may be sampled differently (1 and 5 here) and is accepted. *)
Theorem C24_sampling_of_first_batch_refuted :
  exists (F : list (row Z)) ps, ValidRows F /\ IdsSorted F
    /\ stream_partial_fit KInt None F = Ok (1, ps) /\ ~ SampledWith F 1.
Proof.
  exists [rw 0 0 10; rw 0 1 11; rw 0 6 12; rw 0 11 13]. eexists.
  split; [valid|]. split; [apply lexsorted_iff; reflexivity|].
  split; [reflexivity|]. intro H.
  specialize (H (rw 0 6 12) (rw 0 11 13)). simpl in H.
  assert (E : 11 - 6 = 1); [|discriminate E].
  apply H; [|reflexivity]. exists [rw 0 0 10; rw 0 1 11], []. reflexivity.
Qed.
Print Assumptions C24_sampling_of_first_batch_refuted.

(** Compression to [max_rank] directions keeps those with the smallest eigenvalues. *)
Theorem C24_compression_keeps_smallest :
  forall (K D : Type) (leb : K -> K -> bool),
    (forall a b, leb a b = true \/ leb b a = true) ->
    (forall a b c, leb a b = true -> leb b c = true -> leb a c = true) ->
    forall r (dirs : list (K * D)),
      KeepsSmallest leb dirs (compress leb (Some r) dirs)
      /\ length (compress leb (Some r) dirs) = Nat.min r (length dirs).
Proof. exact @compress_smallest. Qed.
Print Assumptions C24_compression_keeps_smallest.

Theorem C24_compression_refuted :
  exists (dirs : list (Z * nat)), ~ KeepsLargest Z.leb dirs (compress Z.leb (Some 1%nat) dirs).
Proof.
  exists [(9, 0%nat); (1, 1%nat)]. intros (dropped & Hp & Hle).
  change (compress Z.leb (Some 1%nat) [(9, 0%nat); (1, 1%nat)]) with [(1, 1%nat)] in *.
  assert (Hin : In (9, 0%nat) ([(1, 1%nat)] ++ dropped)).
  { apply (Permutation_in _ Hp). simpl; auto. }
  destruct Hin as [H|Hin]; [discriminate|].
  specialize (Hle (1, 1%nat) (9, 0%nat)). simpl in Hle.
  assert (H : 9 <=? 1 = true) by (apply Hle; auto). discriminate.
Qed.
Print Assumptions C24_compression_refuted.

(** Two batches of two series each: the first one starts with a series of two samples. *)
Example C24_example :
  stream_partial_fit KInt None [rw 0 0 10; rw 0 1 11; rw 3 0 20; rw 3 1 21; rw 3 2 22]
    = Ok (1, [(10, 11); (20, 21); (21, 22)])
  /\ stream_partial_fit KInt (Some 1) [rw 0 0 10; rw 0 1 11; rw 3 0 20; rw 3 1 21; rw 3 2 22]
    = Ok (1, [(10, 11); (20, 21); (21, 22)])
  /\ stream_partial_fit KInt (Some 2) [rw 0 0 10; rw 0 1 11] = Err TSCException.
Proof. repeat split; reflexivity. Qed.
