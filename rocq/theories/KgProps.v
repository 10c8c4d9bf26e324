(** * Property C102: control signals of [AffineKgMPC]. *)

From Coq Require Import List ZArith Bool Arith Lia.
From Verif Require Import Np NpFacts KgModel KgSpec KgProofs.
Import ListNotations.
Open Scope nat_scope.

(** Whatever a program did with the controller before, as long as it did not overwrite earlier
    initial conditions in place: the search is run against the objective of the lifted given initial
    state and the given reference (with the initial state at the first time), and its final input
    vector is returned by time and input; shapes are checked. *)
Theorem C102_control_signal :
  forall V T L A M (zero : V) eqb lift (objective : L -> list V -> list T -> list V -> result A)
         (default_method : M) minimize k past h c ic ref ts m h' c' r o0 o,
    (forall x y, eqb x y = true -> x = y) -> 0 < state_size V k -> Kept [] past ->
    history V T L A M zero eqb lift objective default_method minimize k past = (h, c) ->
    generate_control_signal V T L A M zero eqb lift objective default_method minimize k h c ic ref ts m = (h', c', r) ->
    nth_error h ic = Some o0 -> nth_error h ref = Some o ->
    let n := state_size V k in
    let steps := horizon V k in
    match match ts, o with
          | Some t, _ => Some t
          | None, Frame _ _ _ _ t _ => t
          | None, Ndarray _ _ _ _ => None
          end with
    | None => r = Err TypeError
    | Some t =>
      ((length t <> steps + 1 \/ dims o <> (n, steps + 1) \/ dims o0 <> (n, 1)) /\ r = Err ValueError) \/
      (length t = steps + 1 /\ dims o = (n, steps + 1) /\ dims o0 = (n, 1) /\
       exists x xr, State zero o0 n x /\ Target zero o0 o n steps xr /\
         match interact (minimize (match m with Some m => m | None => default_method end) (bounds V k)
                           (repeat zero (input_size V k * (steps + 1))))
                 (fun u => bind (lift x) (fun z => objective z xr t u)) with
         | Ok u => length u = input_size V k * (steps + 1) /\
                   (exists U, r = Ok U /\ Signal zero (input_size V k) steps u U)
                   \/ length u <> input_size V k * (steps + 1) /\ r = Err ValueError
         | Err e => r = Err e
         end)
    end.
Proof.
  intros V T L A M zero eqb lift objective default_method minimize k past h c ic ref ts m h' c' r o0 o
    He Hn Hk Hh Hg H0 H1 n steps.
  destruct (history_inv zero eqb lift objective default_method minimize He k past Hn Hk) as [used Hi].
  rewrite Hh in Hi.
  destruct (generate_spec zero eqb lift objective default_method minimize He _ _ _ _ _ _ _ _ _ _ _ Hn Hi Hg) as (_ & _ & H).
  specialize (H _ _ H0 H1). fold n in H. fold steps in H.
  replace (match ts, o with
           | Some t, _ => Some t
           | None, Frame _ _ _ _ t _ => t
           | None, Ndarray _ _ _ _ => None end) with (times_of o ts) by (now destruct ts, o).
  destruct (times_of o ts) as [t|]; [|exact H].
  destruct H as [H|(Ht & Hd & Hd0 & x & xr & Hx & Hxr & ->)]; [now left|].
  right. split; [exact Ht|]. split; [exact Hd|]. split; [exact Hd0|]. exists x, xr.
  split; [exact Hx|]. split; [exact Hxr|].
  destruct (interact _ _) as [u|e]; [|reflexivity]. cbn [bind].
  destruct (Nat.eq_dec (length u) (input_size V k * (steps + 1))) as [E|E].
  - left. split; [exact E|]. destruct (signal_defined zero _ _ _ E) as [U HU].
    exists U. split; [exact HU|]. now apply signal_spec.
  - right. split; [exact E|]. unfold as_signal. fold steps. now rewrite (proj2 (Nat.eqb_neq _ _) E).
Qed.
Print Assumptions C102_control_signal.

(** No object of the caller is changed by a call: the reference and the initial condition keep
    their values. *)
Theorem C102_arguments_unchanged :
  forall V T L A M (zero : V) eqb lift (objective : L -> list V -> list T -> list V -> result A)
         (default_method : M) minimize k h c ic ref ts m h' c' r l o,
    generate_control_signal V T L A M zero eqb lift objective default_method minimize k h c ic ref ts m = (h', c', r) ->
    nth_error h l = Some o -> nth_error h' l = Some o.
Proof.
  intros until o. intros H Hl. apply generate_heap in H as [extra ->].
  rewrite nth_error_app1; [exact Hl|]. apply nth_error_Some. congruence.
Qed.
Print Assumptions C102_arguments_unchanged.

(** The constructor accepts exactly the documented shapes. *)
Theorem C102_construct :
  forall V B_shape diff n steps bs (ib : list (V * V)) ci cs,
    (exists k, construct V B_shape diff n steps bs ib ci cs = Ok k) <->
    exists a b m, B_shape = [a; b; m] /\ diff = true /\ bs = [m; 2] /\
      (ci = None \/ ci = Some m) /\ (cs = None \/ cs = Some n).
Proof.
  intros V B_shape diff n steps bs ib ci cs. split.
  - intros [k H]. unfold construct in H.
    destruct B_shape as [|a [|b [|m [|]]]]; try discriminate.
    destruct diff; [|discriminate]. cbn [negb] in H.
    destruct bs as [|p [|q [|]]]; try discriminate.
    destruct ((p =? m) && (q =? 2)) eqn:E; [|discriminate]. cbn [negb] in H.
    apply andb_true_iff in E as [E1 E2]. apply Nat.eqb_eq in E1, E2. subst p q.
    exists a, b, m. repeat split; auto.
    + destruct ci as [x|]; [|now left]. right. destruct (x =? m) eqn:E; [apply Nat.eqb_eq in E; congruence|discriminate].
    + destruct (match ci with Some k0 => negb (k0 =? m) | None => false end); [discriminate|].
      destruct cs as [x|]; [|now left]. right. destruct (x =? n) eqn:E; [apply Nat.eqb_eq in E; congruence|discriminate].
  - intros (a & b & m & -> & -> & -> & Hi & Hs). unfold construct. rewrite !Nat.eqb_refl. cbn.
    destruct Hi as [-> | ->], Hs as [-> | ->]; rewrite ?Nat.eqb_refl; cbn; eauto.
Qed.
Print Assumptions C102_construct.

(** A search that keeps the bounds it is given yields a signal within the bounds of the user, for
    every input and time; rows of the bounds are (maximum, minimum). *)
Theorem C102_bounds :
  forall V (zero : V) (le : V -> V -> Prop) B_shape diff n steps bs ib ci cs k u U,
    construct V B_shape diff n steps bs ib ci cs = Ok k ->
    length ib = input_size V k ->
    length u = input_size V k * (steps + 1) -> Signal zero (input_size V k) steps u U ->
    (forall j lo hi, j < length u -> nth_error (bounds V k) j = Some (lo, hi) -> le lo (nth j u zero) /\ le (nth j u zero) hi) ->
    forall t i hi lo, t < steps -> nth_error ib i = Some (hi, lo) ->
      le lo (nth i (nth t U []) zero) /\ le (nth i (nth t U []) zero) hi.
Proof.
  intros V zero le B_shape diff n steps bs ib ci cs k u U Hc Hib Hu [HU1 HU2] Hb t i hi lo Ht Hi.
  assert (Hbounds : bounds V k = np_repeat (map (fun b => (snd b, fst b)) ib) (steps + 1)).
  { unfold construct in Hc. destruct B_shape as [|? [|? [|m [|]]]]; try discriminate.
    destruct (negb diff); [discriminate|]. destruct bs as [|p [|q [|]]]; try discriminate.
    repeat match type of Hc with (if ?x then _ else _) = _ => destruct x; [discriminate|] end.
    now injection Hc as <-. }
  assert (Hlt : i < length ib) by (apply nth_error_Some; congruence).
  destruct (HU2 t Ht) as [_ Hrow]. rewrite Hrow by lia.
  apply Hb.
  - rewrite Hu. pose proof (Nat.mul_le_mono_r (S i) (input_size V k) (steps + 1) ltac:(lia)). lia.
  - rewrite Hbounds. unfold np_repeat. rewrite flat_map_concat_map.
    set (ls := map (fun x : V * V => repeat x (steps + 1)) (map (fun b => (snd b, fst b)) ib)).
    assert (Hls : Forall (fun l => length l = steps + 1) ls).
    { apply Forall_forall. intros l Hl. apply in_map_iff in Hl as (y & <- & _). apply repeat_length. }
    assert (Hn : nth (i * (steps + 1) + t) (concat ls) (lo, hi) = (lo, hi)).
    { rewrite (nth_concat_block _ _ _ Hls) by lia.
      assert (E : nth_error ls i = Some (repeat (lo, hi) (steps + 1))).
      { unfold ls. rewrite !nth_error_map, Hi. reflexivity. }
      rewrite (nth_error_nth _ _ [] E). apply nth_repeat. }
    transitivity (Some (nth (i * (steps + 1) + t) (concat ls) (lo, hi))); [|now rewrite Hn].
    apply nth_error_nth'. rewrite (concat_block_length _ _ Hls).
    unfold ls. rewrite !map_length.
    pose proof (Nat.mul_le_mono_r (S i) (length ib) (steps + 1) ltac:(lia)). lia.
Qed.
Print Assumptions C102_bounds.

(** A reference given as a vector is rejected for every horizon, also for systems with one state. *)
Theorem C102_vector_reference_refuted :
  forall V T L A M (zero : V) eqb lift (objective : L -> list V -> list T -> list V -> result A)
         (default_method : M) minimize k h c ic ref t m n d o0,
    nth_error h ic = Some o0 -> nth_error h ref = Some (Ndarray V T (D1 n) d) -> 0 < horizon V k ->
    generate_control_signal V T L A M zero eqb lift objective default_method minimize k h c ic ref (Some t) m
    = (h, c, Err ValueError).
Proof.
  intros V T L A M zero eqb lift objective default_method minimize k h c ic ref t m n d o0 H0 H1 Hh.
  unfold generate_control_signal. rewrite H0, H1.
  destruct (negb (length t =? horizon V k + 1)); [reflexivity|]. cbn [as_matrix].
  destruct ((n =? state_size V k) && (1 =? horizon V k + 1)) eqn:E; [|reflexivity].
  apply andb_true_iff in E as [_ E]. apply Nat.eqb_eq in E. lia.
Qed.
Print Assumptions C102_vector_reference_refuted.

(** A small controller for the examples: one input, horizon 1; the "lifted state" is the state, the
    objective reports it and the search returns the report. *)
Definition demo_objective (z : list Z) (xr : list Z) (t : list Z) (u : list Z) : result (list Z) := Ok z.
Definition demo_minimize (_ : unit) (_ : list (Z * Z)) (u : list Z) : search Z (list Z) :=
  Ask Z (list Z) u (fun z => Done Z (list Z) z).
Definition demo : controller Z := Controller Z 2 1 1 [(-5, 5); (-5, 5)]%Z.
Definition demo_signal := generate_control_signal Z Z (list Z) (list Z) unit 0%Z Z.eqb (@Ok (list Z)) demo_objective tt demo_minimize demo.
Definition demo_history := history Z Z (list Z) (list Z) unit 0%Z Z.eqb (@Ok (list Z)) demo_objective tt demo_minimize demo.
Definition demo_first : list (action Z Z unit) :=
  [Create Z Z unit (Ndarray Z Z (D1 2) [1; 2]%Z);
   Create Z Z unit (Frame Z Z 2 2 (Some [0; 1]%Z) [3; 4; 5; 6]%Z);
   Control Z Z unit 0 1 None None].

(** If the initial condition is updated in place between two calls, as in a simulation loop, the
    second signal is the one of the old state: the cache refers to the array of the caller. *)
Theorem C102_in_place_refuted :
  let past := demo_first ++ [Overwrite Z Z unit 0 [7; 8]%Z] in
  let (h, c) := demo_history past in
  nth_error h 0 = Some (Ndarray Z Z (D1 2) [7; 8]%Z) /\
  snd (demo_signal h c 0 1 None None) = Ok [[1]]%Z /\
  snd (demo_signal h (None, None) 0 1 None None) = Ok [[7]]%Z.
Proof. vm_compute. repeat split. Qed.
Print Assumptions C102_in_place_refuted.

(** With a new array for each state the second signal is right (and the hypotheses of the first
    theorem are met). *)
Example C102_example :
  let past := demo_first ++ [Create Z Z unit (Ndarray Z Z (D1 2) [7; 8]%Z); Overwrite Z Z unit 1 [9; 9; 9; 9]%Z] in
  Kept [] past /\
  let (h, c) := demo_history past in
  snd c = Some [1; 2]%Z /\ snd (demo_signal h c 3 1 None None) = Ok [[7]]%Z /\
  nth_error (fst (fst (demo_signal h c 3 1 None None))) 4 = Some (Ndarray Z Z (D2 2 2) [7; 9; 8; 9]%Z).
Proof.
  split.
  - cbn. repeat split; intros [H|[]]; discriminate.
  - vm_compute. repeat split.
Qed.

Example C102_bounds_example :
  construct Z [4; 4; 2] true 2 1 [2; 2] [(5, -5); (6, 0)]%Z None (Some 2)
  = Ok (Controller Z 2 2 1 [(-5, 5); (-5, 5); (0, 6); (0, 6)]%Z) /\
  Signal 0%Z 2 1 [1; 2; 3; 4]%Z [[1; 3]]%Z.
Proof.
  split; [reflexivity|]. split; [reflexivity|]. intros [|k] Hk; [|lia].
  split; [reflexivity|]. intros [|[|i]] Hi; [reflexivity|reflexivity|lia].
Qed.
