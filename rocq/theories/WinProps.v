(** * Theorems C81-C83: windowed reconstruction, reconstruction with control input. *)

From Coq Require Import List ZArith Bool Arith Lia.
Import ListNotations.
From Verif Require Import Np TscModel TscSpec ReconModel ChkSpec WinModel WinSpec WinProofs CtrModel CtrSpec CtrProofs CtrWin.
Open Scope Z_scope.

(** ** C81: windowed reconstruction *)

(** Every window of [w] samples starting at the positions 0, o, 2o, ... of every
    series is predicted from its own first [n] samples and keeps its own times; the
    windows are numbered 0, 1, 2, ... in the order of the IDs and of the time. *)
Theorem C81_windows :
  forall (V : Type) (pred : list V -> Z -> V) (F : list (row V)) (d : Z) (n : nat) (w o : Z) (ws : list (list (row V))),
  ValidRows F -> SmallSteps F -> AllRegular F d -> (1 <= n)%nat -> Z.of_nat n < w -> 0 < o ->
  (forall i, Occurs F i -> w <= Z.of_nat (length (rows_of F i))) ->
  Windows F (Z.to_nat w) (Z.to_nat o) ws ->
  window_reconstruct pred KInt F n w o
  = Ok (flat_map (fun p => window_prediction pred n (fst p) (snd p)) (enumerate ws),
        flat_map (fun p => labelled (fst p) (snd p)) (enumerate ws)).
Proof. intros V pred F d n w o ws. apply window_reconstruct_ok. Qed.
Print Assumptions C81_windows.

(** The score compares every prediction with the sample of the same window at the
    same time. *)
Theorem C81_score :
  forall (V : Type) (pred : list V -> Z -> V) (F : list (row V)) (d : Z) (n : nat) (w o : Z) (ws : list (list (row V))),
  ValidRows F -> SmallSteps F -> AllRegular F d -> (1 <= n)%nat -> Z.of_nat n < w -> 0 < o ->
  (forall i, Occurs F i -> w <= Z.of_nat (length (rows_of F i))) ->
  Windows F (Z.to_nat w) (Z.to_nat o) ws ->
  window_score_data pred KInt F n w o false
  = Ok (flat_map (fun p => labelled (fst p) (skipn (n - 1) (snd p))) (enumerate ws),
        flat_map (fun p => window_prediction pred n (fst p) (snd p)) (enumerate ws)).
Proof. intros V pred F d n w o ws. apply window_score_ok. Qed.
Print Assumptions C81_score.

Theorem C81_errors :
  forall (V : Type) (pred : list V -> Z -> V) (F : list (row V)) (n : nat) (w o : Z),
  ValidRows F -> SmallSteps F -> (1 <= n)%nat ->
  (w <= Z.of_nat n -> window_reconstruct pred KInt F n w o = Err ValueError) /\
  (Z.of_nat n < w ->
   ~ ((exists d, AllRegular F d) /\ forall i, Occurs F i -> w <= Z.of_nat (length (rows_of F i))) ->
   window_reconstruct pred KInt F n w o = Err TSCException) /\
  (Z.of_nat n < w -> o <= 0 ->
   (exists d, AllRegular F d) -> (forall i, Occurs F i -> w <= Z.of_nat (length (rows_of F i))) ->
   window_reconstruct pred KInt F n w o = Err ValueError).
Proof. intros V pred F n w o. apply window_reconstruct_errors. Qed.
Print Assumptions C81_errors.

Definition exW_F : list (row Z) :=
  [mkRow 4 10 1; mkRow 4 12 2; mkRow 4 14 3; mkRow 4 16 4; mkRow 4 18 5; mkRow 9 0 6; mkRow 9 2 7; mkRow 9 4 8].
Definition exW_pred (ic : list Z) (t : Z) : Z := 100 * hd 0 ic + t.

Example C81_example :
  window_reconstruct exW_pred KInt exW_F 2 3 2
  = Ok ([mkRow 0 12 100; mkRow 0 14 102; mkRow 1 16 300; mkRow 1 18 302; mkRow 2 2 600; mkRow 2 4 602],
        [mkRow 0 10 1; mkRow 0 12 2; mkRow 0 14 3; mkRow 1 14 3; mkRow 1 16 4; mkRow 1 18 5; mkRow 2 0 6; mkRow 2 2 7; mkRow 2 4 8])
  /\ window_score_data exW_pred KInt exW_F 2 3 2 false
  = Ok ([mkRow 0 12 2; mkRow 0 14 3; mkRow 1 16 4; mkRow 1 18 5; mkRow 2 2 7; mkRow 2 4 8],
        [mkRow 0 12 100; mkRow 0 14 102; mkRow 1 16 300; mkRow 1 18 302; mkRow 2 2 600; mkRow 2 4 602])
  /\ window_reconstruct exW_pred KInt exW_F 2 4 2 = Err TSCException
  /\ window_reconstruct exW_pred KInt exW_F 2 2 2 = Err ValueError.
Proof. vm_compute. repeat split. Qed.

(** The score of a model with control input always fails. *)
Theorem C81_score_control_refuted :
  forall (V : Type) (pred : list V -> Z -> V) (F : list (row V)) (n : nat) (w o : Z),
  window_score_data pred KInt F n w o true = Err ValueError.
Proof. intros V pred F n w o. unfold window_score_data. destruct (w <=? Z.of_nat n); reflexivity. Qed.
Print Assumptions C81_score_control_refuted.

(** ** C82: reconstruction with control input *)

(** If the series start at time 0 and share their times, every series is predicted
    from its own first [n] samples with its own control samples, one per step, at
    its own times. *)
Theorem C82_reconstruct :
  forall (V W S : Type) (enc : list V -> S) (step : S -> W -> S) (out : S -> V)
         (F : list (row V)) (G : list (row W)) (d : Z) (n : nat),
  ValidRows F -> IdsSorted F -> SmallSteps F -> AllRegular F d -> SameTimes F ->
  (forall i, Occurs F i -> hd 0 (times_of F i) = 0) ->
  (1 <= n)%nat -> (forall i, Occurs F i -> (n < length (rows_of F i))%nat) ->
  ValidRows G -> IdsSorted G -> ControlFor F G n ->
  edmd_reconstruct_controlled enc step out d F G n
  = Ok (flat_map (controlled_reconstruction enc step out F G n) (ids F)).
Proof. intros V W S enc step out F G d n. apply controlled_zero. Qed.
Print Assumptions C82_reconstruct.

(** For other series the times of the control must be counted from the start of the
    series of X. *)
Theorem C82_elapsed :
  forall (V W S : Type) (enc : list V -> S) (step : S -> W -> S) (out : S -> V)
         (F : list (row V)) (G : list (row W)) (d : Z) (n : nat),
  ValidRows F -> IdsSorted F -> SmallSteps F -> AllRegular F d -> SameLength F ->
  (1 <= n)%nat -> (forall i, Occurs F i -> (n < length (rows_of F i))%nat) ->
  ValidRows G -> IdsSorted G -> ControlElapsed F G n ->
  edmd_reconstruct_controlled enc step out d F G n
  = Ok (flat_map (controlled_reconstruction enc step out F G n) (ids F)).
Proof. intros V W S enc step out F G d n. apply edmd_controlled_ok. Qed.
Print Assumptions C82_elapsed.

(** The control that belongs to the data is rejected whenever some series does not
    start at time 0. *)
Theorem C82_start_refuted :
  forall (V W S : Type) (enc : list V -> S) (step : S -> W -> S) (out : S -> V)
         (F : list (row V)) (G : list (row W)) (d : Z) (n : nat) (i : Z),
  ValidRows F -> IdsSorted F -> SmallSteps F -> AllRegular F d ->
  (1 <= n)%nat -> (forall i, Occurs F i -> (n < length (rows_of F i))%nat) -> ValidRows G ->
  ControlFor F G n -> Occurs F i -> hd 0 (times_of F i) <> 0 ->
  edmd_reconstruct_controlled enc step out d F G n = Err TSCException.
Proof. intros V W S enc step out F G d n i. apply controlled_late. Qed.
Print Assumptions C82_start_refuted.

(** Series of different lengths cannot be reconstructed with control input. *)
Theorem C82_lengths_refuted :
  forall (V W S : Type) (enc : list V -> S) (step : S -> W -> S) (out : S -> V)
         (F : list (row V)) (G : list (row W)) (d : Z) (n : nat) (i j : Z),
  ValidRows F -> IdsSorted F -> SmallSteps F -> AllRegular F d ->
  (1 <= n)%nat -> (forall i, Occurs F i -> (n < length (rows_of F i))%nat) -> ValidRows G ->
  (forall i, Occurs F i -> Occurs G i) ->
  Occurs F i -> Occurs F j -> length (rows_of F i) <> length (rows_of F j) ->
  edmd_reconstruct_controlled enc step out d F G n = Err TSCException.
Proof. intros V W S enc step out F G d n i j. apply controlled_lengths. Qed.
Print Assumptions C82_lengths_refuted.

Definition exC_enc (l : list Z) : Z := fold_left (fun a x => 10 * a + x) l 0.
Definition exC_step (x u : Z) : Z := 2 * x + u.
Definition exC_out (x : Z) : Z := x.
Definition exC_F (s : Z) : list (row Z) :=
  [mkRow 0 s 1; mkRow 0 (s + 2) 2; mkRow 0 (s + 4) 3; mkRow 0 (s + 6) 4;
   mkRow 5 s 5; mkRow 5 (s + 2) 6; mkRow 5 (s + 4) 7; mkRow 5 (s + 6) 8].
Definition exC_G (s : Z) : list (row Z) :=
  [mkRow 0 (s + 2) 100; mkRow 0 (s + 4) 200; mkRow 5 (s + 2) 300; mkRow 5 (s + 4) 400].

Example C82_example :
  edmd_reconstruct_controlled exC_enc exC_step exC_out 2 (exC_F 0) (exC_G 0) 2
  = Ok [mkRow 0 2 12; mkRow 0 4 124; mkRow 0 6 448; mkRow 5 2 56; mkRow 5 4 412; mkRow 5 6 1224] /\
  edmd_reconstruct_controlled exC_enc exC_step exC_out 2 (exC_F 7) (exC_G 0) 2
  = Ok [mkRow 0 9 12; mkRow 0 11 124; mkRow 0 13 448; mkRow 5 9 56; mkRow 5 11 412; mkRow 5 13 1224] /\
  edmd_reconstruct_controlled exC_enc exC_step exC_out 2 (exC_F 7) (exC_G 7) 2 = Err TSCException /\
  edmd_reconstruct_controlled exC_enc exC_step exC_out 2
    [mkRow 0 0 1; mkRow 0 2 2; mkRow 0 4 3; mkRow 1 0 1; mkRow 1 2 2]
    [mkRow 0 0 1; mkRow 0 2 1; mkRow 1 0 1; mkRow 1 2 1] 1 = Err TSCException.
Proof. vm_compute. repeat split. Qed.

(** ** C83: windowed reconstruction with control input *)

(** If U has a sample for every sample of X and the first series starts at time 0,
    every window is predicted from its own first [n] samples with the control samples
    of the same window. *)
Theorem C83_windows :
  forall (V W S : Type) (enc : list V -> S) (step : S -> W -> S) (out : S -> V)
         (F : list (row V)) (G : list (row W)) (d : Z) (n : nat) (w o : Z) ws us (i0 : Z),
  ValidRows F -> SmallSteps F -> AllRegular F d -> ValidRows G ->
  (forall i, Occurs G i <-> Occurs F i) -> (forall i, Occurs F i -> times_of G i = times_of F i) ->
  (1 <= n)%nat -> Z.of_nat n < w -> 0 < o ->
  (forall i, Occurs F i -> w <= Z.of_nat (length (rows_of F i))) ->
  Windows F (Z.to_nat w) (Z.to_nat o) ws -> Windows G (Z.to_nat w) (Z.to_nat o) us ->
  Occurs F i0 -> (forall j, Occurs F j -> i0 <= j) -> hd 0 (times_of F i0) = 0 ->
  window_reconstruct_controlled enc step out d F G n w o
  = Ok (flat_map (controlled_window enc step out n (Z.to_nat w)) (enumerate (combine ws us)),
        flat_map (fun p => labelled (fst p) (snd p)) (enumerate ws),
        flat_map (fun p => labelled (fst p) (control_window n (Z.to_nat w) (snd p))) (enumerate us)).
Proof.
  intros V W S enc step out F G d n w o ws us i0 HV HSS HR VG HO HT Hn Hnw Ho Hlen HW HU Hi Hmin H0.
  exact (proj1 (window_same_times enc step out F G d n w o ws us i0 HV HSS HR VG HO HT Hn Hnw Ho Hlen HW HU Hi Hmin) H0).
Qed.
Print Assumptions C83_windows.

(** Otherwise it fails for every such collection. *)
Theorem C83_start_refuted :
  forall (V W S : Type) (enc : list V -> S) (step : S -> W -> S) (out : S -> V)
         (F : list (row V)) (G : list (row W)) (d : Z) (n : nat) (w o : Z) ws us (i0 : Z),
  ValidRows F -> SmallSteps F -> AllRegular F d -> ValidRows G ->
  (forall i, Occurs G i <-> Occurs F i) -> (forall i, Occurs F i -> times_of G i = times_of F i) ->
  (1 <= n)%nat -> Z.of_nat n < w -> 0 < o ->
  (forall i, Occurs F i -> w <= Z.of_nat (length (rows_of F i))) ->
  Windows F (Z.to_nat w) (Z.to_nat o) ws -> Windows G (Z.to_nat w) (Z.to_nat o) us ->
  Occurs F i0 -> (forall j, Occurs F j -> i0 <= j) -> hd 0 (times_of F i0) <> 0 ->
  window_reconstruct_controlled enc step out d F G n w o = Err TSCException.
Proof.
  intros V W S enc step out F G d n w o ws us i0 HV HSS HR VG HO HT Hn Hnw Ho Hlen HW HU Hi Hmin H0.
  exact (proj2 (window_same_times enc step out F G d n w o ws us i0 HV HSS HR VG HO HT Hn Hnw Ho Hlen HW HU Hi Hmin) H0).
Qed.
Print Assumptions C83_start_refuted.

(** With the control of C82, one sample per step of X, it fails if some window ends
    at the last sample of its series. *)
Theorem C83_matching_refuted :
  forall (V W S : Type) (enc : list V -> S) (step : S -> W -> S) (out : S -> V)
         (F : list (row V)) (G : list (row W)) (d : Z) (n : nat) (w o i : Z),
  ValidRows F -> SmallSteps F -> AllRegular F d -> ValidRows G ->
  (forall i, Occurs G i <-> Occurs F i) -> (forall i, Occurs F i -> times_of G i = removelast (times_of F i)) ->
  (1 <= n)%nat -> Z.of_nat n < w -> 0 < o ->
  (forall i, Occurs F i -> w < Z.of_nat (length (rows_of F i))) ->
  Occurs F i -> (exists k, Z.of_nat k * o + w = Z.of_nat (length (rows_of F i))) ->
  window_reconstruct_controlled enc step out d F G n w o = Err TSCException.
Proof. intros V W S enc step out F G d n w o i. apply window_matching_err. Qed.
Print Assumptions C83_matching_refuted.

Definition exC_X (s : Z) : list (row Z) :=
  [mkRow 0 s 1; mkRow 0 (s + 1) 2; mkRow 0 (s + 2) 3; mkRow 0 (s + 3) 4; mkRow 0 (s + 4) 5].
Definition exC_U (s : Z) : list (row Z) :=
  [mkRow 0 s 10; mkRow 0 (s + 1) 20; mkRow 0 (s + 2) 30; mkRow 0 (s + 3) 40; mkRow 0 (s + 4) 50].

Example C83_example :
  window_reconstruct_controlled exC_enc exC_step exC_out 1 (exC_X 0) (exC_U 0) 1 3 2
  = Ok ([mkRow 0 0 1; mkRow 0 1 12; mkRow 0 2 44; mkRow 1 2 3; mkRow 1 3 36; mkRow 1 4 112],
        [mkRow 0 0 1; mkRow 0 1 2; mkRow 0 2 3; mkRow 1 2 3; mkRow 1 3 4; mkRow 1 4 5],
        [mkRow 0 0 10; mkRow 0 1 20; mkRow 1 2 30; mkRow 1 3 40]) /\
  window_reconstruct_controlled exC_enc exC_step exC_out 1 (exC_X 1) (exC_U 1) 1 3 2 = Err TSCException /\
  window_reconstruct_controlled exC_enc exC_step exC_out 1 (exC_X 0) (removelast (exC_U 0)) 1 3 2 = Err TSCException.
Proof. vm_compute. repeat split. Qed.

(** Control of other times is accepted without notice: X starts at time 3, the
    control at time 0. *)
Theorem C83_times_refuted :
  exists (F G : list (row Z)) R, tsc F = Ok F /\ tsc G = Ok G /\
    (forall i, Occurs F i -> forall t, In t (times_of F i) -> 3 <= t) /\ hd 0 (times_of G 0) = 0 /\
    window_reconstruct_controlled exC_enc exC_step exC_out 1 F G 1 3 2 = Ok R.
Proof.
  exists (exC_X 3), (exC_U 0). eexists. split; [vm_compute; reflexivity|]. split; [vm_compute; reflexivity|].
  split; [|split; vm_compute; reflexivity].
  intros i (r & Hr & <-) t Ht. unfold times_of in Ht. apply in_map_iff in Ht. destruct Ht as (q & <- & Hq).
  apply filter_In in Hq. destruct Hq as [Hq _]. cbn in Hq.
  repeat (destruct Hq as [<-|Hq]; [cbn; lia|]). destruct Hq.
Qed.
Print Assumptions C83_times_refuted.
