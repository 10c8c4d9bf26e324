(** * C96: the simulation of several DC motor trajectories at once (_systems.py). *)

From Coq Require Import List ZArith Bool Arith Lia Sorted.
Import ListNotations.
From Verif Require Import Np TscModel TscSpec PredSpec ChkSpec TscProofs DcmModel DcmSpec DcmProofs.
Open Scope Z_scope.

(** C96: initial conditions with one row per series, regularly sampled controls with common times and as
    many series: series j of the result starts in the j-th initial condition and is driven by the j-th
    control, at the times of the control and one step beyond.  Time values that were given are ignored. *)
Theorem C96_simulated :
  forall (V W : Type) (rk : Z -> V -> W -> V) (X : list (row V)) (U : list (row W)) tv ts d,
    X <> [] -> NoDup (map rid X) -> ValidRows U -> IdsSorted U -> SmallSteps U -> length X = length (ids U) ->
    CommonTimes U ts -> AllRegular U d ->
    exists R, predict_vectorize rk X U tv = Ok R /\ ValidRows R /\
      SimulatedByPosition rk (map rval X) (map (values_of U) (ids U)) d (ts ++ [last ts 0 + d]) R.
Proof. exact @vectorize_many. Qed.
Print Assumptions C96_simulated.

(** C96: with a single control sample the two time values are required; the time of the sample plays no role. *)
Theorem C96_single_control :
  forall (V W : Type) (rk : Z -> V -> W -> V) (X : list (row V)) (U : list (row W)) t a b,
    X <> [] -> NoDup (map rid X) -> ValidRows U -> IdsSorted U -> length X = length (ids U) ->
    CommonTimes U [t] -> 0 <= a < b ->
    exists R, predict_vectorize rk X U (Some [a; b]) = Ok R /\ ValidRows R /\
      SimulatedByPosition rk (map rval X) (map (values_of U) (ids U)) (b - a) [a; b] R.
Proof. exact @vectorize_one. Qed.
Print Assumptions C96_single_control.

(** C96: nothing else is accepted. *)
Theorem C96_accepted_only :
  forall (V W : Type) (rk : Z -> V -> W -> V) (X : list (row V)) (U : list (row W)) tv R,
    ValidRows U -> SmallSteps U -> predict_vectorize rk X U tv = Ok R ->
    length (ids X) = length (ids U) /\
    (((exists a b, tv = Some [a; b]) /\ forall i, Occurs U i -> length (rows_of U i) = 1%nat) \/
     (exists ts d, CommonTimes U ts /\ AllRegular U d)).
Proof. exact @vectorize_inv. Qed.
Print Assumptions C96_accepted_only.

(** C96: when the IDs are 0, 1, ... in this order for both arguments, this is the simulation of every
    series with its own control. *)
Theorem C96_by_id :
  forall (V W : Type) (rk : Z -> V -> W -> V) (X : list (row V)) (U : list (row W)) d ts R,
    map rid X = np_arange (length X) -> ids U = np_arange (length X) ->
    SimulatedByPosition rk (map rval X) (map (values_of U) (ids U)) d ts R -> SimulatedById rk X U d ts R.
Proof. exact @position_id. Qed.
Print Assumptions C96_by_id.

Definition ex_rk (d x u : Z) : Z := x + d * u.
Definition ex_U : list (row Z) := [mkRow 3 0 10; mkRow 3 2 20; mkRow 5 0 1; mkRow 5 2 2].
Definition ex_X : list (row Z) := [mkRow 5 0 100; mkRow 3 0 500].

Example C96_example_U : tsc ex_U = Ok ex_U.
Proof. reflexivity. Qed.

Example C96_hypotheses : NoDup (map rid ex_X) /\ ValidRows ex_U /\ IdsSorted ex_U /\ CommonTimes ex_U [0; 2] /\ AllRegular ex_U 2.
Proof.
  assert (HV : ValidRows ex_U) by (apply (proj1 (proj1 (tsc_ok ex_U ex_U) eq_refl))).
  assert (HS : SmallSteps ex_U).
  { intros a b (l & q & E) Eab. unfold ex_U in E. destruct l as [|x1 [|x2 [|x3 [|x4 l]]]]; cbn in E;
      repeat match type of E with _ :: _ = _ :: _ => injection E; clear E; intros E; intros; subst; cbn in * end; try discriminate; subst; cbn in *; try lia; try discriminate.
    all: try (destruct l; discriminate). }
  split; [repeat constructor; cbn; intuition lia|]. split; [exact HV|]. split.
  { intros a b HB. apply (TscBuild.sorted_before ex_U) in HB.
    - unfold TscBuild.rle, row_le in HB. lia.
    - repeat constructor. }
  split.
  - intros i (r & Hr & <-). cbn in Hr. destruct Hr as [<-|[<-|[<-|[<-|[]]]]]; reflexivity.
  - exact (proj1 (TscDt.const_dt_ok ex_U 2 HV HS) eq_refl).
Qed.

Example C96_example :
  predict_vectorize ex_rk ex_X ex_U None =
  Ok [mkRow 0 0 100; mkRow 0 2 120; mkRow 0 4 160; mkRow 1 0 500; mkRow 1 2 502; mkRow 1 4 506].
Proof. reflexivity. Qed.

(** C96: otherwise the IDs are lost and the controls are matched by position: the initial conditions of
    the series (5, 3) with the controls of the series (3, 5) give the series 0 and 1 with the controls
    exchanged. *)
Theorem C96_by_id_refuted :
  exists (X U R : list (row Z)),
    NoDup (map rid X) /\ tsc U = Ok U /\ (forall i, Occurs X i <-> Occurs U i) /\ CommonTimes U [0; 2] /\
    predict_vectorize ex_rk X U None = Ok R /\ ~ SimulatedById ex_rk X U 2 [0; 2; 4] R /\
    (forall i, Occurs X i -> ~ Occurs R i).
Proof.
  exists ex_X, ex_U. eexists. destruct C96_hypotheses as (H1 & _ & _ & H2 & _).
  split; [exact H1|]. split; [reflexivity|]. split.
  { intros i. split; intros (r & Hr & <-); cbn in Hr.
    - destruct Hr as [<-|[<-|[]]]; [exists (mkRow 5 0 1)|exists (mkRow 3 0 10)]; cbn; auto.
    - destruct Hr as [<-|[<-|[<-|[<-|[]]]]]; [exists (mkRow 3 0 500)|exists (mkRow 3 0 500)|exists (mkRow 5 0 100)|exists (mkRow 5 0 100)]; cbn; auto. }
  split; [exact H2|]. split; [reflexivity|]. split.
  - intros (H & _). destruct (proj2 (H 5) ltac:(exists (mkRow 5 0 100); cbn; auto)) as (r & Hr & E).
    cbn in Hr. decompose [or] Hr; subst; cbn in E; try discriminate; contradiction.
  - intros i (r & Hr & <-) (q & Hq & E). cbn in Hr, Hq. decompose [or] Hr; decompose [or] Hq; subst; cbn in E; try discriminate; contradiction.
Qed.
Print Assumptions C96_by_id_refuted.
