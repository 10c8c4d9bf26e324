(** * Theorems: time values and control input of predictions (C15, C51-C53). *)

From Coq Require Import List ZArith Bool Arith Sorted.
Import ListNotations.
From Verif Require Import Np TscModel TscSpec TscProofs PredModel PredSpec PredProofs PredControl.
Open Scope Z_scope.

(** ** C15 *)

(** With a TSCDataFrame X the evaluated times are strictly increasing, contain
    every requested time and nothing else but the last time of X, start at the
    last time of X (up to the floating point tolerance), and no requested time is
    before it. *)
Theorem C15_requested_times :
  forall (V W : Type) (k : tkind) (eps now dt : Z) (rl : bool) (F : list (row V)) (U : uarg W)
         (l ts : list Z) (r : Z),
    ValidRows F -> 0 <= eps -> Reference F r ->
    predict_time_values k eps now dt rl (XFrame F) U (Some l) = Ok ts ->
    StronglySorted Z.lt ts /\ incl l ts /\
    (forall t, In t ts -> In t l \/ t = r) /\
    (forall t, In t l -> r - tol_of k eps <= t) /\
    (exists t0 rest, ts = t0 :: rest /\ Z.abs (t0 - r) <= tol_of k eps).
Proof. exact (@requested_times). Qed.
Print Assumptions C15_requested_times.

(** Exactly the non-empty, strictly increasing, non-negative requests from the
    reference on are accepted (uncontrolled). *)
Theorem C15_accepted_iff :
  forall (V W : Type) (k : tkind) (eps now dt : Z) (rl : bool) (F : list (row V)) (l : list Z) (r : Z),
    ValidRows F -> 0 <= eps -> Reference F r ->
    (exists ts, predict_time_values (W := W) k eps now dt rl (XFrame F) UNone (Some l) = Ok ts) <->
    (l <> [] /\ StronglySorted Z.lt l /\ (k = KDatetime \/ forall t, In t l -> 0 <= t) /\
     forall t, In t l -> r - tol_of k eps <= t).
Proof. exact (@requested_accepted). Qed.
Print Assumptions C15_accepted_iff.

Theorem C15_default :
  forall (V W : Type) (k : tkind) (eps now dt : Z) (rl : bool) (F : list (row V)) (r : Z),
    ValidRows F -> Reference F r ->
    predict_time_values (W := W) k eps now dt rl (XFrame F) UNone None = Ok [r; r + dt].
Proof. exact (@default_times). Qed.
Print Assumptions C15_default.

(** Initial conditions that end at different times are rejected. *)
Theorem C15_no_common_reference :
  forall (V W : Type) (k : tkind) (eps now dt : Z) (rl : bool) (F : list (row V)) (U : uarg W)
         (tv : option (list Z)) (i j s t : Z),
    ValidRows F -> LastTime F i s -> LastTime F j t -> s <> t ->
    predict_time_values k eps now dt rl (XFrame F) U tv = Err ValueError.
Proof. exact (@no_common_reference). Qed.
Print Assumptions C15_no_common_reference.

(** Array-valued X: exactly the strictly increasing non-negative requests are
    accepted, unchanged. *)
Theorem C15_array_initial_condition :
  forall (V W : Type) (k : tkind) (eps now dt : Z) (rl : bool) (l ts : list Z), k <> KDatetime ->
    predict_time_values (V := V) (W := W) k eps now dt rl XArray UNone (Some l) = Ok ts <->
    ts = l /\ StronglySorted Z.lt l /\ forall t, In t l -> 0 <= t.
Proof. exact (@array_times). Qed.
Print Assumptions C15_array_initial_condition.

(** Whenever a prediction with a control collection is accepted: all initial
    conditions are single samples at one time [r], the control series share the
    times [us] starting at [r], the evaluated times are those of U followed by one
    more step, and given time values agree with them. *)
Theorem C15_control_collection :
  forall (V W : Type) (k : tkind) (eps now dt : Z) (rl : bool) (F : list (row V)) (G : list (row W))
         (tv : option (list Z)) (pairs : list (row V * list W)) (ts : list Z),
    ValidRows F -> ValidRows G -> 0 <= eps -> 0 < dt ->
    predict_controlled k eps now dt rl F G tv = Ok (pairs, ts) ->
    exists r us, Reference F r /\ CommonTimes G us /\ hd_error us = Some r /\
      ids_index F = ids G /\ (forall i, Occurs F i -> length (rows_of F i) = 1%nat) /\
      pairs = combine F (control_tensor G) /\ length F = length (control_tensor G) /\
      match tv with
      | None => ts = us ++ (if rl then [] else [last us 0 + dt])
      | Some l => ts = l /\
          Forall2 (fun a b => Z.abs (a - b) <= tol_of k eps) l
                  (us ++ (if rl then [] else [last us 0 + dt]))
      end.
Proof. exact (@predict_controlled_inv). Qed.
Print Assumptions C15_control_collection.

(** Two initial conditions at time 4 and their control. *)
Definition ex_ic : list (row Z) := [mkRow 0 4 100; mkRow 2 4 200].
Definition ex_u : list (row Z) :=
  [mkRow 0 4 1; mkRow 0 6 2; mkRow 0 8 3; mkRow 2 4 7; mkRow 2 6 8; mkRow 2 8 9].

Example C15_example_valid : ValidRows ex_ic /\ ValidRows ex_u /\ Reference ex_ic 4.
Proof.
  split; [apply validate_valid; reflexivity|]. split; [apply validate_valid; reflexivity|].
  intros i (r & [<-|[<-|[]]] & <-); (split; [eexists; split; [|split; reflexivity]; cbn; auto|]);
    intros q [<-|[<-|[]]]; cbn; intros; try discriminate; apply Z.le_refl.
Qed.

Example C15_example :
  predict_time_values (W := Z) KInt 0 0 2 false (XFrame ex_ic) UNone (Some [5; 9]) = Ok [4; 5; 9] /\
  predict_time_values (W := Z) KInt 0 0 2 false (XFrame ex_ic) UNone (Some [3; 9]) = Err ValueError /\
  predict_controlled KInt 0 0 2 false ex_ic ex_u None
  = Ok ([(mkRow 0 4 100, [1; 2; 3]); (mkRow 2 4 200, [7; 8; 9])], [4; 6; 8; 10]).
Proof. repeat split. Qed.

(** ** C51: the control series of each initial condition is the one with its ID *)

Theorem C51_control_matched_by_id :
  forall (V W : Type) (k : tkind) (eps now dt : Z) (rl : bool) (F : list (row V)) (G : list (row W))
         (tv : option (list Z)) (pairs : list (row V * list W)) (ts : list Z),
    ValidRows F -> ValidRows G -> IdsSorted G -> 0 <= eps -> 0 < dt ->
    predict_controlled k eps now dt rl F G tv = Ok (pairs, ts) ->
    map fst pairs = F /\ forall x u, In (x, u) pairs -> u = values_of G (rid x).
Proof. exact (@control_matched). Qed.
Print Assumptions C51_control_matched_by_id.

(** If the control collection does not store its IDs in increasing order, the
    prediction is accepted and the initial conditions get each other's control. *)
Theorem C51_unsorted_control_refuted :
  exists (F G : list (row Z)) pairs ts x u,
    ValidRows F /\ ValidRows G /\ predict_controlled KInt 0 0 1 false F G None = Ok (pairs, ts) /\
    In (x, u) pairs /\ u <> values_of G (rid x).
Proof.
  exists [mkRow 0 0 100; mkRow 1 0 200].
  exists [mkRow 1 0 11; mkRow 1 1 12; mkRow 0 0 1; mkRow 0 1 2].
  eexists. eexists. exists (mkRow 0 0 100), [11; 12].
  split; [apply validate_valid; reflexivity|]. split; [apply validate_valid; reflexivity|].
  split; [reflexivity|]. split; [left; reflexivity|discriminate].
Qed.
Print Assumptions C51_unsorted_control_refuted.

(** ** C52: a controlled prediction labelled t is the state (t - t0)/dt steps later *)

(** True for time values spaced by dt. *)
Theorem C52_flow_on_equispaced_times :
  forall (W S : Type) (step : S -> W -> S) (x : S) (us : list W) (t0 dt : Z) (n : nat),
    (n <= length us)%nat ->
    nth_error (flowmap_controlled S step x us (equispaced t0 dt (Datatypes.S (length us)))) n
    = Some (t0 + Z.of_nat n * dt, fold_left step (firstn n us) x).
Proof. exact (@flow_equispaced). Qed.
Print Assumptions C52_flow_on_equispaced_times.

(** Put together: an accepted prediction with a control collection sampled with dt
    (IDs stored in increasing order) holds at label r + n dt of series i the state
    reached from the initial condition of i by the first n controls of i. *)
Theorem C52_controlled_prediction :
  forall (V W : Type) (step : V -> W -> V) (k : tkind) (eps now dt : Z)
         (F : list (row V)) (G : list (row W)) (pairs : list (row V * list W)) (ts : list Z)
         (r : Z) (x : row V) (u : list W) (n : nat),
    ValidRows F -> ValidRows G -> IdsSorted G -> SampledWith G dt -> 0 <= eps -> 0 < dt ->
    Reference F r ->
    predict_controlled k eps now dt false F G None = Ok (pairs, ts) ->
    In (x, u) pairs -> (n <= length (values_of G (rid x)))%nat ->
    nth_error (flowmap_controlled V step (rval x) u ts) n
    = Some (r + Z.of_nat n * dt, fold_left step (firstn n (values_of G (rid x))) (rval x)).
Proof. exact (@controlled_prediction). Qed.
Print Assumptions C52_controlled_prediction.

(** False for other spacings, which are accepted: with control samples every
    second time unit and dt = 1 the state after one step is labelled t0 + 2. *)
Theorem C52_other_spacing_refuted :
  exists (F G : list (row Z)) x u ts,
    ValidRows F /\ ValidRows G /\
    predict_controlled KInt 0 0 1 false F G None = Ok ([(x, u)], ts) /\
    flowmap_controlled Z (fun s v => 3 * s + v) (rval x) u ts
    = [(0, 1); (2, 3 * 1 + 10); (4, 3 * (3 * 1 + 10) + 20); (5, 3 * (3 * (3 * 1 + 10) + 20) + 30)].
Proof.
  exists [mkRow 0 0 1], [mkRow 0 0 10; mkRow 0 2 20; mkRow 0 4 30].
  exists (mkRow 0 0 1), [10; 20; 30], [0; 2; 4; 5].
  split; [apply validate_valid; reflexivity|]. split; [apply validate_valid; reflexivity|].
  split; reflexivity.
Qed.
Print Assumptions C52_other_spacing_refuted.

(** ** C53: control input given as array *)

(** Integer or datetime reference: n control rows give the n + 1 times
    r, r + dt, ..., and EDMD.predict accepts them. *)
Theorem C53_array_control_times :
  forall (V W : Type) (k : tkind) (eps now dt : Z) (rl : bool) (F : list (row V)) (n : nat) (r : Z),
    ValidRows F -> 0 < dt -> Reference F r -> k <> KFloat ->
    predict_time_values (W := W) k eps now dt rl (XFrame F) (UArray n) None
    = Ok (equispaced r dt (if rl then n else S n)).
Proof. exact (@control_array_times). Qed.
Print Assumptions C53_array_control_times.

Theorem C53_edmd_accepts :
  forall (r dt : Z) (n : nat), edmd_array_control n (equispaced r dt (S n)) = Ok tt.
Proof. exact edmd_accepts. Qed.
Print Assumptions C53_edmd_accepts.

(** Floating point reference: one time value too many for every n, so that
    EDMD.predict rejects every array of controls. *)
Theorem C53_float_reference_refuted :
  forall (V W : Type) (eps now dt : Z) (F : list (row V)) (n : nat) (r : Z),
    ValidRows F -> 0 < eps <= dt -> Reference F r ->
    exists ts,
      predict_time_values (W := W) KFloat eps now dt false (XFrame F) (UArray n) None = Ok ts /\
      length ts = (n + 2)%nat /\ edmd_array_control n ts = Err ValueError.
Proof. exact (@edmd_float_rejects). Qed.
Print Assumptions C53_float_reference_refuted.

(** DMDControl.predict rejects every array of controls, whatever the times. *)
Theorem C53_dmd_refuted :
  forall (V W : Type) (k : tkind) (eps now dt : Z) (F : list (row V)) (n : nat)
         (tv : option (list Z)) (ts : list Z) (r : Z),
    ValidRows F -> 0 <= eps <= dt -> 0 < dt -> Reference F r ->
    predict_time_values (W := W) k eps now dt false (XFrame F) (UArray n) tv = Ok ts ->
    dmd_array_control n ts = Err ValueError.
Proof. exact (@dmd_array_rejects). Qed.
Print Assumptions C53_dmd_refuted.
