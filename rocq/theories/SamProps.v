(** * Theorems about tables with the indices of another table (C114). *)

From Coq Require Import String.
From Coq Require Import List ZArith Bool Arith Lia.
Import ListNotations.
From Verif Require Import Np TscModel TrModel TscSpec TscProofs ColModel SamModel SamSpec.
Open Scope Z_scope.

Lemma nodupb_iff l : nodupb l = true <-> NoDup l.
Proof.
  induction l as [|x l IH]; cbn; [split; [constructor|reflexivity]|].
  rewrite andb_true_iff, IH, negb_true_iff. unfold mem. rewrite <- not_true_iff_false, existsb_exists. split.
  - intros [H1 H2]. constructor; [|exact H2]. intros Hx. apply H1. exists x. split; [exact Hx|apply String.eqb_refl].
  - intros H. inversion H as [|? ? H1 H2]; subst. split; [|exact H2]. intros (y & Hy & E). apply String.eqb_eq in E. subst y. exact (H1 Hy).
Qed.

Lemma fits_iff {V} (values : list (list V)) index columns :
  Nat.eqb (List.length values) (List.length index) && forallb (fun v => Nat.eqb (List.length v) (List.length columns)) values = true <->
  Fits values index columns.
Proof.
  unfold Fits. rewrite andb_true_iff, Nat.eqb_eq, forallb_forall. split; intros [H1 H2]; (split; [exact H1|]); intros v Hv; apply Nat.eqb_eq, H2, Hv.
Qed.

Lemma valid_same_index {V W} (F : list (row V)) (G : list (row W)) : map rid F = map rid G -> map rtime F = map rtime G ->
  ValidRows F -> ValidRows G.
Proof.
  intros E1 E2 HV. apply validate_valid. apply valid_validate in HV. unfold ids_index, time_index in *. rewrite <- E1, <- E2. exact HV.
Qed.

Lemma combine_fst_map {A B C} (f : A -> C) (l : list A) (m : list B) : List.length m = List.length l -> map (fun p => f (fst p)) (combine l m) = map f l.
Proof. revert m. induction l as [|x l IH]; intros [|y m] H; try discriminate; [reflexivity|]. cbn in *. f_equal. apply IH. lia. Qed.

Lemma rows_valid {V} index (values : list (list V)) : List.length values = List.length index ->
  (ValidRows (table_rows index values) <-> ValidIndex index).
Proof.
  intros HL. unfold ValidIndex, table_rows. split; apply valid_same_index; rewrite !map_map; cbn;
    rewrite ?(combine_fst_map (fun k => fst k) index values HL), ?(combine_fst_map (fun k => snd k) index values HL); reflexivity.
Qed.

Lemma tsc_frame_ok {V} (values : list (list V)) index columns t :
  tsc_frame values index columns = Ok t <-> t = mkTable index columns values /\ Collection t.
Proof.
  unfold tsc_frame, pd_frame, Collection.
  destruct (Nat.eqb (List.length values) (List.length index) && forallb (fun v => Nat.eqb (List.length v) (List.length columns)) values) eqn:EF; cbn.
  - apply fits_iff in EF. destruct (tsc (table_rows index values)) as [F|] eqn:ET; cbn.
    + apply tsc_ok in ET. destruct ET as [HV _]. apply rows_valid in HV; [|apply EF].
      destruct (nodupb columns) eqn:EN.
      * apply nodupb_iff in EN. split; [intros H; injection H as <-; auto|intros [-> _]; reflexivity].
      * split; [discriminate|]. intros (-> & _ & HN & _). apply nodupb_iff in HN. cbn in HN. congruence.
    + split; [discriminate|]. intros (-> & HV & _). cbn in HV. apply (rows_valid index values (proj1 EF)) in HV.
      pose proof (proj2 (tsc_ok _ _) (conj HV eq_refl)) as E. congruence.
  - split; [discriminate|]. intros (-> & _ & _ & HF). cbn in HF. apply fits_iff in HF. congruence.
Qed.

(** C114: exactly when it works, and what the result is: the values as they are, under the index and the
    columns of the other table or the ones given. *)
Theorem C114_result :
  forall (V : Type) (t : table V) values except_index except_columns out,
  from_same_indices_as (TSC t) values except_index except_columns = Ok out <->
  (except_index = None \/ except_columns = None) /\
  exists u, out = TSC u /\ Collection u /\
    t_index u = match except_index with None => t_index t | Some i => i end /\
    t_columns u = match except_columns with None => t_columns t | Some c => c end /\
    t_values u = match values with TSC s => t_values s | PD s => t_values s | Array a => a end.
Proof.
  intros V t values ei ec out. unfold from_same_indices_as, df_type_and_indices_from.
  assert (G : forall i c, bind (tsc_frame (asarray values) i c) (fun u => Ok (TSC u)) = Ok out <->
    exists u, out = TSC u /\ Collection u /\ t_index u = i /\ t_columns u = c /\ t_values u = asarray values).
  { intros i c. split.
    - destruct (tsc_frame (asarray values) i c) as [u|] eqn:E; cbn; [|discriminate]. intros H. injection H as <-.
      apply tsc_frame_ok in E. destruct E as [-> HC]. eexists. split; [reflexivity|]. split; [exact HC|]. repeat split; reflexivity.
    - intros (u & -> & HC & <- & <- & Ev). rewrite (proj2 (tsc_frame_ok _ _ _ u)); [reflexivity|]. split; [|exact HC]. destruct u; cbn in *; congruence. }
  destruct ei as [i|], ec as [c|]; try (rewrite G; unfold asarray; split; [intros H; split; [auto|exact H]|intros [_ H]; exact H]).
  split; [discriminate|]. intros [[H|H] _]; discriminate.
Qed.
Print Assumptions C114_result.

(** C114: a transformation that gives one row per row of a collection, with unique new names for its
    columns, always gives a collection with the same series and times. *)
Theorem C114_new_columns :
  forall (V : Type) (t : table V) values columns,
  Collection t -> NoDup columns -> List.length values = List.length (t_values t) ->
  (forall v, In v values -> List.length v = List.length columns) ->
  from_same_indices_as (TSC t) (Array values) None (Some columns) = Ok (TSC (mkTable (t_index t) columns values)).
Proof.
  intros V t values columns (HV & _ & HF & _) HN HL HW. apply C114_result. split; [auto|].
  eexists. split; [reflexivity|]. split; [|repeat split; reflexivity].
  split; [exact HV|]. split; [exact HN|]. split; [cbn; congruence|exact HW].
Qed.
Print Assumptions C114_new_columns.

(** C114: the value in row i and column j of the array is the value at the i-th series and time of the
    other table in its j-th column. *)
Theorem C114_cells :
  forall (V : Type) (t u : table V) values i j k c r v,
  from_same_indices_as (TSC t) (Array values) None None = Ok (TSC u) ->
  nth_error (t_index t) i = Some k -> nth_error (t_columns t) j = Some c ->
  nth_error values i = Some r -> nth_error r j = Some v -> Cell u k c v.
Proof.
  intros V t u values i j k c r v H Hk Hc Hr Hv. apply C114_result in H. destruct H as (_ & u' & E & _ & EI & EC & EV).
  injection E as <-. exists i, j, r. rewrite EI, EC, EV. auto.
Qed.
Print Assumptions C114_cells.

(** C114: the errors of wrong arguments. *)
Theorem C114_errors :
  forall (V : Type) (t : table V) (o values : object V) i c,
  from_same_indices_as (TSC t) values (Some i) (Some c) = Err ValueError /\
  (~ (exists s, o = TSC s) -> forall ei ec, from_same_indices_as o values ei ec = Err TypeError) /\
  (forall a, ~ Fits a (t_index t) (t_columns t) -> from_same_indices_as (TSC t) (Array a) None None = Err ValueError).
Proof.
  intros V t o values i c. split; [reflexivity|]. split.
  - intros H ei ec. destruct o as [s| |]; [exfalso; apply H; exists s; reflexivity|reflexivity|reflexivity].
  - intros a HF. unfold from_same_indices_as, df_type_and_indices_from, tsc_frame, pd_frame. cbn [asarray].
    destruct (Nat.eqb (List.length a) (List.length (t_index t)) && forallb (fun v => Nat.eqb (List.length v) (List.length (t_columns t))) a) eqn:E; [|reflexivity].
    apply fits_iff in E. tauto.
Qed.
Print Assumptions C114_errors.

(** C114 (refuted): a table given as values keeps the values of its labels.  They are placed by position:
    with the columns in another order they end up under the wrong names. *)
Theorem C114_aligned_refuted :
  exists t s u : table Z, Collection t /\ Collection s /\
  (forall c, In c (t_columns t) <-> In c (t_columns s)) /\ t_index t = t_index s /\
  from_same_indices_as (TSC t) (TSC s) None None = Ok (TSC u) /\
  exists k c v, Cell s k c v /\ ~ Cell u k c v.
Proof.
  set (t := mkTable [(0, 0); (0, 1)] ["x"; "y"]%string [[1; 2]; [3; 4]]).
  set (s := mkTable [(0, 0); (0, 1)] ["y"; "x"]%string [[10; 20]; [30; 40]]).
  set (u := mkTable [(0, 0); (0, 1)] ["x"; "y"]%string [[10; 20]; [30; 40]]).
  exists t, s, u.
  split; [apply (proj1 (tsc_frame_ok [[1; 2]; [3; 4]] [(0, 0); (0, 1)] ["x"; "y"]%string t)); reflexivity|].
  split; [apply (proj1 (tsc_frame_ok [[10; 20]; [30; 40]] [(0, 0); (0, 1)] ["y"; "x"]%string s)); reflexivity|].
  split; [intros c; cbn; tauto|]. split; [reflexivity|]. split; [reflexivity|].
  exists (0, 0), "x"%string, 20. split; [exists 0%nat, 1%nat, [10; 20]; repeat split|].
  intros (i & j & r & H1 & H2 & H3 & H4). destruct i as [|[|[|]]]; try discriminate.
  destruct j as [|[|[|]]]; try discriminate. cbn in H3. injection H3 as <-. discriminate.
Qed.
Print Assumptions C114_aligned_refuted.

Example C114_example :
  let t := mkTable [(0, 0); (0, 1); (3, 0)] ["x"; "y"]%string [[1; 2]; [3; 4]; [5; 6]] in
  from_same_indices_as (TSC t) (Array [[1]; [9]; [25]]) None (Some ["x^2"]%string) =
    Ok (TSC (mkTable [(0, 0); (0, 1); (3, 0)] ["x^2"]%string [[1]; [9]; [25]])) /\
  from_same_indices_as (TSC t) (Array [[1]; [9]; [25]]) None (Some ["a"; "a"]%string) = Err ValueError /\
  from_same_indices_as (TSC t) (Array [[1; 1]; [9; 9]; [25; 25]]) None (Some ["a"; "a"]%string) = Err AttributeError /\
  from_same_indices_as (TSC t) (Array [[7; 8]]) (Some [(4, 2)]) None = Ok (TSC (mkTable [(4, 2)] ["x"; "y"]%string [[7; 8]])).
Proof. repeat split; reflexivity. Qed.
