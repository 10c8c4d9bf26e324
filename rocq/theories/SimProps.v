(** * C91: simulated systems. *)

From Coq Require Import List ZArith Bool Arith QArith Sorted Lia.
Import ListNotations.
From Verif Require Import Np NpFacts TscModel TscSpec TscProofs ChkModel PredModel PredSpec BldModel SimModel SimSpec SimProofs.
Close Scope Q_scope.
Open Scope Z_scope.

Section Claims.
Context {R : Type}.
Notation vec := (list R).
Notation frame := (list (row (list R))).
Notation law := (Q -> vec -> vec).
Variables zero nan : R.
Variables n_features_in n_control_in : nat.
Variable default_step : Z.
Variable solve : law -> vec -> list Z -> option (list vec).
Notation simulate := (simulate zero nan n_features_in n_control_in default_step solve).

(** A feedback law: each initial condition is solved with exactly this law; the returned
    control holds the law's value at every returned sample but the last of each series. *)
Theorem C91_callable X f tvo S G : simulate X (UC f) tvo = Ok (S, G) ->
  exists l tv, tvo = Some l /\ (tv = l \/ exists r, tv = r :: l /\ r < hd 0 l /\ exists F, X = XF F) /\ (2 <= length tv)%nat /\
    Simulated solve (x_values X) tv (fun _ g => g = f) S /\
    ValidRows G /\ (forall i, Occurs G i <-> Occurs S i) /\
    forall i, rows_of G i = map (fun r => mkRow i (rtime r) (f (inject_Z (rtime r)) (rval r))) (removelast (rows_of S i)).
Proof. apply callable_spec. Qed.

(** No control: each initial condition is solved with control zero; the returned control
    is zero. *)
Theorem C91_uncontrolled X tvo S G : simulate X UN tvo = Ok (S, G) ->
  exists l, tvo = Some l /\
    Simulated solve (x_values X) l (fun _ g => forall t x, (inject_Z (hd 0%Z l) <= t)%Q -> g t x = repeat zero n_control_in) S /\
    (forall i, Occurs G i -> Occurs S i) /\
    forall r, In r G -> rval r = repeat zero n_control_in /\ In (rtime r) (removelast l).
Proof. apply uncontrolled_spec. Qed.

(** One row of control per initial condition: a single step, with row k for initial
    condition k. *)
Theorem C91_one_step X (l : list vec) tvo S G : length l = length (x_values X) ->
  simulate X (UA l) tvo = Ok (S, G) ->
  exists t0 t1, tvo = Some [t0; t1] /\
    Simulated solve (x_values X) [t0; t1] (fun k g => exists u, nth_error l k = Some u /\ forall t x, g t x = u) S /\
    ValidRows G /\ G = map (fun p => mkRow (fst p) t0 (snd p)) (combine (np_arange (length l)) l).
Proof. apply one_step_spec. Qed.

(** Control samples, one control channel or a single step: initial condition k is solved
    with the zero-order hold of the series of the k-th smallest ID; the control is
    returned unchanged. *)
Theorem C91_hold X (F : frame) tvo S G : ValidRows F -> SmallSteps F -> 0 < default_step ->
  IdsSorted F -> (n_control_in <= 1)%nat \/ length (time_values F) = 1%nat ->
  simulate X (UF F) tvo = Ok (S, G) ->
  G = F /\ exists tv, GridOf F tv /\
    Simulated solve (x_values X) tv (fun k g => exists i, nth_error (ids F) k = Some i /\ HoldsFrom (hd 0 tv) F i g) S.
Proof. apply hold_spec. Qed.

(** A single step with one control sample per initial condition in a collection is
    rejected, although the same rows are accepted as an array (C91_one_step). *)
Theorem C91_one_step_frame_refuted X (F : frame) tvo : ValidRows F -> SmallSteps F ->
  (2 <= length F)%nat -> length (time_values F) = 1%nat ->
  Forall (fun r => length (rval r) = n_control_in) F -> Forall (fun x => length x = n_features_in) (x_values X) ->
  simulate X (UF F) tvo = Err TSCException.
Proof. apply one_step_frame. Qed.

(** Two or more samples and several control channels: every channel is driven by the last
    one.  The samples are held only if all channels of the held row agree. *)
Theorem C91_channels_refuted X (F : frame) tvo S G : ValidRows F -> SmallSteps F -> 0 < default_step ->
  (2 <= length (time_values F))%nat ->
  simulate X (UF F) tvo = Ok (S, G) ->
  G = F /\ exists tv, GridOf F tv /\
    Simulated solve (x_values X) tv (fun k g => exists i, nth_error (ids F) k = Some i /\
      forall t x r, (inject_Z (hd 0%Z tv) <= t)%Q -> HeldAt F i t r ->
        g t x = repeat (nth (n_control_in - 1) (rval r) zero) n_control_in) S.
Proof. apply channels_spec. Qed.

(** ** Systems without control *)

Variable solve0 : vec -> list Z -> option (list vec).
Variable finite : vec -> bool.
Variable cart : vec -> vec.
Notation ode_predict := (ode_predict n_features_in solve0 finite).
Notation hopf_predict := (hopf_predict n_features_in solve0 finite cart).

(** A single time value t means the times 0 and t. *)
Definition times_given (tv : tvin) : list Z :=
  match tv with TNone => [] | TNum t => [0; t] | TArr [t] => [0; t] | TArr l => l end.

Lemma prepare_given tv l : prepare tv = Ok l -> l = times_given tv.
Proof. destruct tv as [|t|[|a [|b m]]]; cbn; congruence. Qed.

(** Initial conditions in a collection: one sample per series is required; series k of
    the result starts from the series with the k-th smallest ID. *)
Theorem C91_ode_frame (F : frame) tv S : ValidRows F -> ode_predict (XF F) tv = Ok S ->
  exists ics, Forall2 (fun i x => exists t, rows_of F i = [mkRow i t x]) (ids F) ics /\
    Simulated (fun _ => solve0) ics (times_given tv) (fun _ _ => True) S.
Proof.
  intros HV E. destruct (ode_frame_spec _ _ _ F tv S HV E) as (l & ics & El & H1 & H2). apply prepare_given in El. subst l.
  exists ics. split; assumption.
Qed.

Theorem C91_ode_array (xs : list vec) tv S : ode_predict (XA xs) tv = Ok S ->
  Simulated (fun _ => solve0) xs (times_given tv) (fun _ _ => True) S.
Proof.
  intros E. destruct (ode_array_spec _ _ _ xs tv S E) as (l & El & H). apply prepare_given in El. subst l. exact H.
Qed.

(** The documented default for the time values does not work. *)
Theorem C91_ode_default_refuted X : ode_predict X TNone = Err NameError.
Proof. reflexivity. Qed.

(** Polar initial conditions given as an array are solved as if they were Cartesian. *)
Theorem C91_polar_refuted (xs : list vec) tv S : fst (hopf_predict true (XA xs) tv) = Ok S ->
  Simulated (fun _ => solve0) xs (times_given tv) (fun _ _ => True) S.
Proof.
  unfold SimModel.hopf_predict. destruct (prepare tv) as [l|] eqn:Ep; [|discriminate].
  destruct (ic_from_array finite n_features_in KInt xs (hd 0 l) None) as [F|] eqn:EF; [|discriminate]. cbn [fst]. intros E.
  assert (Hl : prepare (TArr l) = Ok l).
  { destruct tv as [|t|[|a [|b m]]]; cbn in Ep; try discriminate; injection Ep as <-; reflexivity. }
  assert (El := prepare_given tv l Ep). rewrite <- El.
  assert (E2 : ode_predict (XA xs) (TArr l) = Ok S).
  { unfold SimModel.ode_predict in E |- *. rewrite Hl in *. cbn [bind] in E |- *. rewrite EF. exact E. }
  destruct (ode_array_spec _ _ _ xs (TArr l) S E2) as (l' & El' & H). rewrite Hl in El'. injection El' as <-. exact H.
Qed.

(** Polar initial conditions given as a collection are solved after conversion, but the
    caller's collection then holds the converted states. *)
Theorem C91_polar_frame_refuted (F : frame) tv :
  let F' := map (fun r => mkRow (rid r) (rtime r) (cart (rval r))) F in
  fst (hopf_predict true (XF F) tv) = ode_predict (XF F') tv /\ snd (hopf_predict true (XF F) tv) = XF F'.
Proof. split; reflexivity. Qed.

End Claims.

Print Assumptions C91_callable.
Print Assumptions C91_uncontrolled.
Print Assumptions C91_one_step.
Print Assumptions C91_hold.
Print Assumptions C91_one_step_frame_refuted.
Print Assumptions C91_channels_refuted.
Print Assumptions C91_ode_frame.
Print Assumptions C91_ode_array.
Print Assumptions C91_ode_default_refuted.
Print Assumptions C91_polar_refuted.
Print Assumptions C91_polar_frame_refuted.

(** ** Examples: a solver that adds the control to the initial state *)

Definition ex_add (x u : list Z) : list Z := map (fun p => fst p + snd p) (combine x u).
Definition ex_solve (g : Q -> list Z -> list Z) (x : list Z) (tv : list Z) : option (list (list Z)) :=
  Some (map (fun t => ex_add x (g (inject_Z t) x)) tv).
Definition ex_sim (nc : nat) := simulate (R := Z) 0 (-1) nc nc 1 ex_solve.

Definition ex_U1 : list (row (list Z)) :=
  [mkRow 5 0 [10]; mkRow 5 2 [20]; mkRow 9 0 [30]; mkRow 9 2 [40]].

(** One channel: the control is held; the result is numbered 0, 1 while the control keeps
    the IDs 5, 9. *)
Example C91_hold_example :
  ex_sim 1 (XA [[1]; [2]]) (UF ex_U1) None =
  Ok ([mkRow 0 0 [11]; mkRow 0 2 [21]; mkRow 0 4 [21]; mkRow 1 0 [32]; mkRow 1 2 [42]; mkRow 1 4 [42]], ex_U1).
Proof. vm_compute. reflexivity. Qed.

Example C91_hold_hypotheses : ValidRows ex_U1 /\ SmallSteps ex_U1 /\ IdsSorted ex_U1.
Proof.
  split; [apply (tsc_ok ex_U1 ex_U1); vm_compute; reflexivity|]. split.
  - intros a b (l & r & E) _.
    assert (Hq : forall q, In q ex_U1 -> 0 <= rtime q <= 2) by (intros q Hq; cbn in Hq; intuition (subst q; cbn; lia)).
    assert (H1 := Hq a ltac:(rewrite E; apply in_or_app; right; left; reflexivity)).
    assert (H2 := Hq b ltac:(rewrite E; apply in_or_app; right; right; left; reflexivity)). lia.
  - intros a b (l & m & r & E). apply (f_equal (map rid)) in E. rewrite map_app in E. cbn [map] in E. rewrite map_app in E. cbn [map] in E.
    assert (HS : StronglySorted Z.le (map rid ex_U1)) by (repeat constructor; cbn; lia). rewrite E in HS. clear E.
    induction (map rid l) as [|x l' IH]; cbn in HS; apply StronglySorted_inv in HS; destruct HS as [HS Hf]; [|apply IH; exact HS].
    rewrite Forall_forall in Hf. apply Hf. apply in_or_app. right. left. reflexivity.
Qed.

(** Two channels: the first state is driven by the second channel. *)
Example C91_channels_example :
  ex_sim 2 (XA [[0; 0]]) (UF [mkRow 0 0 [1; 7]; mkRow 0 1 [2; 8]]) None =
  Ok ([mkRow 0 0 [7; 7]; mkRow 0 1 [8; 8]; mkRow 0 2 [8; 8]], [mkRow 0 0 [1; 7]; mkRow 0 1 [2; 8]]).
Proof. vm_compute. reflexivity. Qed.

(** The same control as one-step arrays is applied to the right channels. *)
Example C91_one_step_example :
  ex_sim 2 (XA [[0; 0]; [5; 5]]) (UA [[1; 7]; [2; 8]]) (Some [3; 4]) =
  Ok ([mkRow 0 3 [1; 7]; mkRow 0 4 [1; 7]; mkRow 1 3 [7; 13]; mkRow 1 4 [7; 13]], [mkRow 0 3 [1; 7]; mkRow 1 3 [2; 8]]).
Proof. vm_compute. reflexivity. Qed.

Example C91_one_step_frame_example :
  ex_sim 1 (XA [[0]; [0]]) (UF [mkRow 3 0 [1]; mkRow 7 0 [2]]) (Some [0; 1]) = Err TSCException /\
  ex_sim 1 (XA [[0]]) (UF [mkRow 3 0 [1]]) (Some [0; 1]) = Ok ([mkRow 0 0 [1]; mkRow 0 1 [1]], [mkRow 3 0 [1]]).
Proof. vm_compute. split; reflexivity. Qed.

Example C91_callable_example :
  ex_sim 1 (XA [[1]; [2]]) (UC (fun _ x => x)) (Some [0; 1; 2]) =
  Ok ([mkRow 0 0 [2]; mkRow 0 1 [2]; mkRow 0 2 [2]; mkRow 1 0 [4]; mkRow 1 1 [4]; mkRow 1 2 [4]],
      [mkRow 0 0 [2]; mkRow 0 1 [2]; mkRow 1 0 [4]; mkRow 1 1 [4]]).
Proof. vm_compute. reflexivity. Qed.

Example C91_uncontrolled_example :
  ex_sim 1 (XF [mkRow 4 1 [6]; mkRow 8 1 [9]]) UN (Some [1; 2; 3]) =
  Ok ([mkRow 0 1 [6]; mkRow 0 2 [6]; mkRow 0 3 [6]; mkRow 1 1 [9]; mkRow 1 2 [9]; mkRow 1 3 [9]],
      [mkRow 0 1 [0]; mkRow 0 2 [0]; mkRow 1 1 [0]; mkRow 1 2 [0]]).
Proof. vm_compute. reflexivity. Qed.

Definition ex_ode := ode_predict (R := Z) 1 (fun x tv => Some (map (fun t => map (Z.add t) x) tv)) (fun _ => true).

(** The IDs 9, 4 of the initial conditions are lost, their order is changed. *)
Example C91_ode_example :
  ex_ode (XF [mkRow 9 0 [1]; mkRow 4 0 [2]]) (TNum 3) =
  Ok [mkRow 0 0 [2]; mkRow 0 3 [5]; mkRow 1 0 [1]; mkRow 1 3 [4]].
Proof. vm_compute. reflexivity. Qed.

Example C91_polar_example :
  fst (hopf_predict (R := Z) 1 (fun x tv => Some (map (fun t => map (Z.add t) x) tv)) (fun _ => true) (map Z.opp) true (XA [[7]]) (TNum 3)) =
  Ok [mkRow 0 0 [7]; mkRow 0 3 [10]].
Proof. vm_compute. reflexivity. Qed.
