(** * Checks of time series collections, initial conditions and fit (C72-C74). *)

From Coq Require Import List ZArith Bool Lia.
Import ListNotations.
From Verif Require Import Np TscModel TscSpec TscProofs TscDt AccModel AccSpec AccProofs ChkModel ChkSpec ChkProofs.
Open Scope Z_scope.

(** C72: [check_tsc] returns a collection with integer times unchanged, if it has all requested
    properties, and raises a TSCException otherwise. *)
Theorem C72_check : forall (V : Type) (finite : V -> bool) (n_features : nat) (o : checks) (F : list (row V)),
  ValidRows F -> SmallSteps F ->
  (forall r, ensure_delta_time o = Some r -> exists d, r = DtScalar (Some d) /\ Z.abs d < 100000000000) ->
  (Requested finite n_features o F /\ check_tsc finite n_features KInt o F = Ok F) \/
  (~ Requested finite n_features o F /\ check_tsc finite n_features KInt o F = Err TSCException).
Proof. intros V finite nf. exact (check_tsc_decides finite nf). Qed.

(** A required sampling interval that does not match is not reported as TSCException for datetime. *)
Theorem C72_datetime_refuted :
  ~ (forall (V : Type) (finite : V -> bool) (n_features : nat) (o : checks) (F : list (row V)) (e : err),
       ValidRows F -> check_tsc finite n_features KDatetime o F = Err e -> e = TSCException).
Proof.
  intros H.
  specialize (H Z (fun _ => true) 1%nat (Checks true 1 1 false true (Some (DtScalar (Some 2))) false false None None None true None)
    [mkRow 0 0 1; mkRow 0 1 2] AttributeError).
  discriminate (H ltac:(match goal with |- ValidRows ?F => apply (proj1 (tsc_ok F F)); reflexivity end) eq_refl).
Qed.

(** Nor is a degenerate series in a collection with float times and series of different length. *)
Theorem C72_float_refuted :
  ~ (forall (V : Type) (finite : V -> bool) (n_features : nat) (o : checks) (F : list (row V)) (e : err),
       ValidRows F -> check_tsc finite n_features KFloat o F = Err e -> e = TSCException).
Proof.
  intros H.
  specialize (H Z (fun _ => true) 1%nat (Checks true 1 1 false true None false false None None None true None)
    [mkRow 0 0 1; mkRow 0 1 2; mkRow 1 0 3] ValueError).
  discriminate (H ltac:(match goal with |- ValidRows ?F => apply (proj1 (tsc_ok F F)); reflexivity end) eq_refl).
Qed.

(** C73: [InitialCondition.validate] without a sampling interval. *)
Theorem C73_validate : forall (V : Type) (finite : V -> bool) (n_features : nat) (F : list (row V)) (n : option nat),
  ValidRows F -> SmallSteps F -> (1 <= n_features)%nat ->
  (ValidIC finite F /\ (forall m, n = Some m -> forall i, Occurs F i -> length (rows_of F i) = m) /\
   ic_validate finite n_features KInt F n None = Ok tt) \/
  (~ (ValidIC finite F /\ (forall m, n = Some m -> forall i, Occurs F i -> length (rows_of F i) = m)) /\
   ic_validate finite n_features KInt F n None = Err TSCException).
Proof. intros V finite nf. exact (ic_validate_decides finite nf). Qed.

(** With a sampling interval. *)
Theorem C73_validate_dt : forall (V : Type) (finite : V -> bool) (n_features : nat) (F : list (row V)) (n : nat) (d : Z),
  ValidRows F -> SmallSteps F -> (1 <= n_features)%nat -> n <> 1%nat -> Z.abs d < 100000000000 ->
  (ValidIC finite F /\ (forall i, Occurs F i -> length (rows_of F i) = n) /\ AllRegular F d /\
   ic_validate finite n_features KInt F (Some n) (Some (DtScalar (Some d))) = Ok tt) \/
  (~ (ValidIC finite F /\ (forall i, Occurs F i -> length (rows_of F i) = n) /\ AllRegular F d) /\
   ic_validate finite n_features KInt F (Some n) (Some (DtScalar (Some d))) = Err TSCException).
Proof. intros V finite nf. exact (ic_validate_dt finite nf). Qed.

(** A sampling interval needs a number of samples other than one. *)
Theorem C73_validate_arguments : forall (V : Type) (finite : V -> bool) (n_features : nat) (k : tkind) (F : list (row V)) (r : dt_result),
  ic_validate finite n_features k F None (Some r) = Err ValueError /\
  ic_validate finite n_features k F (Some 1%nat) (Some r) = Err ValueError.
Proof. intros. split; reflexivity. Qed.

(** Extracting initial conditions from a collection. *)
Theorem C73_from_tsc : forall (V : Type) (finite : V -> bool) (n_features : nat) (X : list (row V)) (n : nat),
  ValidRows X -> SmallSteps X -> (1 <= n)%nat -> (1 <= n_features)%nat ->
  (HasIC finite X n /\ exists G, ic_from_tsc finite n_features KInt X n = Ok G /\ ValidRows G /\ Subseq G X /\
     forall i, rows_of G i = firstn n (rows_of X i)) \/
  (~ HasIC finite X n /\ ic_from_tsc finite n_features KInt X n = Err TSCException).
Proof. intros V finite nf. exact (from_tsc_decides finite nf). Qed.

(** Initial conditions from an array with one state per row. *)
Theorem C73_from_array : forall (V : Type) (finite : V -> bool) (n_features : nat) (X : list V) (t : Z) (ts_ids : option (list Z)) (F : list (row V)),
  (1 <= n_features)%nat ->
  (ic_from_array finite n_features KInt X t ts_ids = Ok F <->
   X <> [] /\ 0 <= t /\ (forall x, In x X -> finite x = true) /\
   map rid F = (match ts_ids with None => map Z.of_nat (seq 0 (length X)) | Some l => l end) /\
   NoDup (map rid F) /\ (forall z, In z (map rid F) -> 0 <= z) /\
   map rval F = X /\ map rtime F = repeat t (length X)).
Proof. intros V finite nf X t ts_ids F Hf. exact (from_array_ok finite nf X t ts_ids F Hf). Qed.

(** C74: the data accepted by [fit]. *)
Theorem C74_accepted : forall (V W : Type) (requires_last : bool) (X : list (row V)) (U : option (list (row W))) (d : Z),
  ValidRows X -> SmallSteps X ->
  (fit_attrs KInt requires_last X U = Ok d <->
   AllRegular X d /\ (forall U', U = Some U' -> MatchingControls requires_last X U') /\
   (exists s, Span X s /\ NearMultiple s d)).
Proof. intros V W. exact fit_ok. Qed.

(** Regular collections on a common grid are accepted. *)
Theorem C74_aligned : forall (V W : Type) (requires_last : bool) (X : list (row V)) (U : option (list (row W))) (d : Z),
  ValidRows X -> SmallSteps X -> AllRegular X d -> Aligned X d ->
  (forall U', U = Some U' -> MatchingControls requires_last X U') ->
  fit_attrs KInt requires_last X U = Ok d.
Proof. intros V W. exact fit_aligned. Qed.

(** Controls that do not match the states are rejected. *)
Theorem C74_controls : forall (V W : Type) (requires_last : bool) (X : list (row V)) (U : list (row W)) (d : Z),
  ValidRows X -> AllRegular X d -> ~ MatchingControls requires_last X U ->
  fit_attrs KInt requires_last X (Some U) = Err ValueError.
Proof. intros V W. exact fit_control_error. Qed.

(** Data without constant sampling interval is rejected, but with an AttributeError instead of the
    intended NotImplementedError. *)
Theorem C74_irregular : forall (V W : Type) (requires_last : bool) (X : list (row V)),
  ValidRows X -> SmallSteps X -> (forall d, ~ AllRegular X d) ->
  fit_attrs KInt requires_last X (None : option (list (row W))) = Err AttributeError.
Proof. intros V W. exact fit_irregular. Qed.

(** Accepted data need not be on a common grid. *)
Theorem C74_aligned_refuted :
  ~ (forall (V W : Type) (requires_last : bool) (X : list (row V)) (U : option (list (row W))) (d : Z),
       ValidRows X -> SmallSteps X -> fit_attrs KInt requires_last X U = Ok d -> Aligned X d).
Proof.
  intros H.
  set (X := [mkRow 0 0 tt; mkRow 0 2 tt; mkRow 0 4 tt; mkRow 1 1 tt; mkRow 1 3 tt]).
  assert (HV : ValidRows X) by (apply (proj1 (tsc_ok X X)); reflexivity).
  assert (HS : SmallSteps X).
  { intros a b (l & r & E) _. assert (Hq : forall q, In q X -> 0 <= rtime q <= 4) by (intros q Hq; cbn in Hq; intuition (subst q; cbn; lia)).
    assert (H1 := Hq a ltac:(rewrite E; apply in_or_app; right; left; reflexivity)).
    assert (H2 := Hq b ltac:(rewrite E; apply in_or_app; right; right; left; reflexivity)). lia. }
  specialize (H unit unit false X None 2 HV HS eq_refl (mkRow 1 1 tt) (mkRow 0 0 tt) ltac:(cbn; tauto) ltac:(cbn; tauto)).
  destruct H as (z & Hz). cbn in Hz. lia.
Qed.

Print Assumptions C72_check.
Print Assumptions C72_datetime_refuted.
Print Assumptions C72_float_refuted.
Print Assumptions C73_validate.
Print Assumptions C73_validate_dt.
Print Assumptions C73_validate_arguments.
Print Assumptions C73_from_tsc.
Print Assumptions C73_from_array.
Print Assumptions C74_accepted.
Print Assumptions C74_aligned.
Print Assumptions C74_controls.
Print Assumptions C74_irregular.
Print Assumptions C74_aligned_refuted.

(** ** Concrete cases *)

Definition exC : list (row Z) := [mkRow 4 10 1; mkRow 4 13 2; mkRow 4 16 3; mkRow 2 10 4; mkRow 2 13 5].
Definition exC_finite (v : Z) : bool := negb (v =? 5).

Example exC_valid : ValidRows exC.
Proof. apply (proj1 (tsc_ok exC exC)). reflexivity. Qed.

Example exC_small : SmallSteps exC.
Proof.
  intros a b (l & r & E) _. assert (Hq : forall q, In q exC -> 10 <= rtime q <= 16) by (intros q Hq; cbn in Hq; intuition (subst q; cbn; lia)).
  assert (H1 := Hq a ltac:(rewrite E; apply in_or_app; right; left; reflexivity)).
  assert (H2 := Hq b ltac:(rewrite E; apply in_or_app; right; right; left; reflexivity)). lia.
Qed.

Definition exC_checks (n : nat) : checks :=
  Checks false 5 1 false true (Some (DtScalar (Some 3))) false false (Some 2%nat) (Some n) None true (Some KInt).

Example exC_accepted : check_tsc exC_finite 1 KInt (exC_checks 2) exC = Ok exC.
Proof. reflexivity. Qed.

Example exC_rejected : check_tsc exC_finite 1 KInt (exC_checks 3) exC = Err TSCException.
Proof. reflexivity. Qed.

(** A value that is not finite, but outside of the initial condition. *)
Example exC_ic : ic_from_tsc exC_finite 1 KInt exC 1 = Ok [mkRow 4 10 1; mkRow 2 10 4] /\
  ic_from_tsc exC_finite 1 KInt exC 2 = Err TSCException /\
  ic_from_tsc (fun _ => true) 1 KInt exC 2 = Ok [mkRow 4 10 1; mkRow 4 13 2; mkRow 2 10 4; mkRow 2 13 5].
Proof. repeat split. Qed.

Example exC_array : ic_from_array exC_finite 1 KInt [7; 8] 3 None = Ok [mkRow 0 3 7; mkRow 1 3 8] /\
  ic_from_array exC_finite 1 KInt [7; 8] 3 (Some [5; 2]) = Ok [mkRow 5 3 7; mkRow 2 3 8] /\
  ic_from_array exC_finite 1 KInt [7; 5] 3 None = Err TSCException /\
  ic_from_array exC_finite 1 KInt [7; 8] 3 (Some [5; 5]) = Err AttributeError.
Proof. repeat split. Qed.

Example exC_fit : fit_attrs KInt false exC (Some [mkRow 4 10 true; mkRow 4 13 false; mkRow 2 10 true]) = Ok 3 /\
  fit_attrs KInt true exC (Some [mkRow 4 10 true; mkRow 4 13 false; mkRow 2 10 true]) = Err ValueError /\
  fit_attrs KInt false [mkRow 0 0 1; mkRow 0 3 1; mkRow 1 1 1; mkRow 1 4 1] (None : option (list (row bool))) = Err AssertionError.
Proof. repeat split. Qed.
