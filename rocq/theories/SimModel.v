(** * Model of the simulated systems (proof-free).

    Source: datafold/utils/_systems.py 31-286 ([ODE], [ControllableODE]) and 421-480
    ([Hopf.predict]) (cited as _systems.py).

    Simplifications
    - time values given by the caller are integers in one fixed unit, arithmetic is
      exact; the solver evaluates the control at rational times in between;
    - names of features and controls are left out; a state and a control is a list of
      numbers of an arbitrary type [R]. *)

From Coq Require Import List ZArith Bool Arith QArith.
Import ListNotations.
From Verif Require Import Np TscModel ChkModel PredModel BldModel.
Close Scope Q_scope.
Open Scope Z_scope.

Section Model.
Context {R : Type}.
Notation vec := (list R).
Notation frame := (list (row (list R))).
Variables zero nan : R.

(** A control law: time, state -> control. *)
Notation law := (Q -> vec -> vec).

(** Initial conditions and control input as given by the caller. *)
Inductive xin : Type := XA (l : list vec) | XF (F : frame).
Inductive uin : Type := UN | UA (l : list vec) | UF (U : frame) | UC (f : law).

Definition x_values (X : xin) : list vec := match X with XA l => l | XF F => map rval F end.

(** ** ControllableODE *)

(** Dimensions of the system; the default step size in time units (_systems.py 34). *)
Variables n_features_in n_control_in : nat.
Variable default_step : Z.

(** Oracle: [solve_ivp] with the right hand side of the system, for a control law, an
    initial state and the time values to evaluate ([None] if not successful). *)
Variable solve : law -> vec -> list Z -> option (list vec).

Definition width (n : nat) (l : list vec) : bool := forallb (fun v => (length v =? n)%nat) l.

(** [interp1d(ts, us, kind="previous", fill_value="extrapolate")(t)]: the value at the
    last grid point not after [t]. *)
Fixpoint previous (acc : R) (ts : list Z) (us : list R) (t : Q) : R :=
  match ts, us with
  | t0 :: ts', u :: us' => if Qle_bool (inject_Z t0) t then previous u ts' us' t else acc
  | _, _ => acc
  end.

(** _systems.py 217-237: the control law of initial condition [i].  The functions built
    in the loop over j (228-235) read [j] when they are called, after the loop: all of
    them use column n_control_in - 1. *)
Definition control_law (U : uin) (tv : list Z) (i : nat) : result law :=
  match U with
  | UC f => Ok f
  | UF G =>
      if (length tv =? 2)%nat then
        match nth_error G i with
        | None => Err IndexError
        | Some r => Ok (fun _ _ => rval r)
        end
      else
        match nth_error (ids G) i with
        | None => Err IndexError
        | Some id =>
            let column (j : nat) := map (fun r => nth j (rval r) zero) (group G id) in
            let j := (n_control_in - 1)%nat in
            Ok (fun t _ => map (fun _ => previous nan (removelast tv) (column j) t) (seq 0 n_control_in))
        end
  | _ => Err TypeError
  end.

(** _systems.py 239-263. *)
Definition solve_one (U : uin) (tv : list Z) (i : nat) (ic : vec) : result frame :=
  bind (control_law U tv i) (fun g =>
  match solve g ic tv with
  | None => Err RuntimeError
  | Some ys => from_array ys (Some tv) None
  end).

(** _systems.py 153-165: the sampling interval. *)
Definition step_size (U : uin) (tv : option (list Z)) : result Z :=
  let from_times := match tv with
                    | Some (t0 :: t1 :: _) => Ok (t1 - t0)
                    | Some _ => Err ValueError
                    | None => Ok default_step
                    end in
  match U with
  | UF G => if (1 <? length G)%nat then check_const_time_delta KInt G else from_times
  | _ => from_times
  end.

(** _systems.py 167-196. *)
Definition complete_control (n : nat) (U : uin) (tv : option (list Z)) : result uin :=
  match U with
  | UN =>
      match tv with
      | None => Err ValueError
      | Some tv =>
          bind (from_tensor (repeat (repeat (repeat zero n_control_in) (length tv - 1)) n)
                            (length tv - 1) None (Some (removelast tv))) (fun G => Ok (UF G))
      end
  | UA l =>
      if (length l =? n)%nat then
        match tv with
        | None => Err ValueError
        | Some tv => bind (tsc (map (fun p => mkRow (fst p) (hd 0 tv) (snd p))
                                    (combine (np_arange (length l)) l))) (fun G => Ok (UF G))
        end
      else if (1 <? n)%nat then Err ValueError
      else Ok U
  | _ => Ok U
  end.

(** _systems.py 203-209. *)
Definition control_frame (U : uin) (tv : list Z) : result uin :=
  match U with
  | UF G =>
      if negb (is_same_time_values G) then Err TSCException
      else bind (check_required_n_timesteps G (length tv - 1)) (fun _ => Ok U)
  | UA l => bind (from_array l (Some (removelast tv)) None) (fun G => Ok (UF G))
  | _ => Ok U
  end.

Definition xarg_of (X : xin) : xarg vec := match X with XA _ => XArray | XF F => XFrame F end.
Definition uarg_of (U : uin) : uarg vec :=
  match U with UN => UNone | UA l => UArray (length l) | UF G => UFrame G | UC _ => UCallable end.

(** _systems.py 124-286 [ControllableODE.predict]; the control law given by the caller is
    applied to each sample for the returned collection. *)
Definition simulate (X : xin) (U : uin) (tvo : option (list Z)) : result (frame * frame) :=
  if negb (match U with UA l => width n_control_in l | UF G => width n_control_in (map rval G) | _ => true end)
  then Err ValueError
  else if negb (width n_features_in (x_values X)) then Err ValueError
  else
  let n := length (x_values X) in
  bind (step_size U tvo) (fun dt =>
  bind (complete_control n U tvo) (fun U =>
  bind (predict_time_values KInt 0 0 dt false (xarg_of X) (uarg_of U) tvo) (fun tv =>
  bind (control_frame U tv) (fun U =>
  bind (map_result (fun p => solve_one U tv (fst p) (snd p)) (combine (seq 0 n) (x_values X))) (fun sols =>
  bind (from_items (map Collection sols) None) (fun S =>
  match U with
  | UC f =>
      bind (drop_last_n_samples S 1) (fun B =>
      bind (tsc (map (fun r => mkRow (rid r) (rtime r) (f (inject_Z (rtime r)) (rval r))) B)) (fun G =>
      Ok (S, G)))
  | UF G => Ok (S, G)
  | _ => Err TypeError
  end)))))).

(** ** ODE *)

Inductive tvin : Type := TNone | TNum (t : Z) | TArr (l : list Z).

(** _systems.py 40-61: without time values the variable [dt] of the return statement is
    not bound (UnboundLocalError). *)
Definition prepare (tv : tvin) : result (list Z) :=
  match tv with
  | TNone => Err NameError
  | TNum t => Ok [0; t]
  | TArr [] => Err IndexError
  | TArr [t] => Ok [0; t]
  | TArr l => Ok l
  end.

(** Oracle: [solve_ivp] for an initial state and the time values. *)
Variable solve0 : vec -> list Z -> option (list vec).
Variable finite : vec -> bool.

(** _systems.py 63-98 [ODE.predict]. *)
Definition ode_predict (X : xin) (tv : tvin) : result frame :=
  bind (prepare tv) (fun tv =>
  bind (match X with
        | XA l => ic_from_array finite n_features_in KInt l (hd 0 tv) None
        | XF F => Ok F
        end) (fun F =>
  bind (validate_time_values_format KInt tv) (fun tv =>
  bind (check_tsc finite n_features_in KInt
          {| ensure_all_finite := true; ensure_min_samples := 1; ensure_min_features := 1;
             ensure_same_length := false; ensure_const_delta_time := false;
             ensure_delta_time := None; ensure_same_time_values := false; ensure_normalized_time := false;
             ensure_n_timeseries := None; ensure_min_timesteps := None; ensure_n_timesteps := Some 1%nat;
             ensure_no_degenerate_ts := false; ensure_dtype_time := None |} F) (fun F =>
  bind (map_result (fun i =>
          match group F i with
          | [] => Err ValueError
          | r :: _ => match solve0 (rval r) tv with
                      | None => Err ValueError
                      | Some ys => from_array ys (Some tv) (Some i)
                      end
          end) (ids F)) (fun l =>
  from_items (map Collection l) None))))).

(** _systems.py 430-480 [Hopf.predict] with return_polar=False: the result and the
    initial conditions of the caller afterwards.  [cart] is the conversion of one polar
    to a Cartesian state; for arrays its result (454-456) is not used. *)
Variable cart : vec -> vec.

Definition hopf_predict (polar : bool) (X : xin) (tv : tvin) : result frame * xin :=
  if polar then
    match X with
    | XF F =>
        let F' := map (fun r => mkRow (rid r) (rtime r) (cart (rval r))) F in
        (ode_predict (XF F') tv, XF F')
    | XA l =>
        match prepare tv with
        | Err e => (Err e, X)
        | Ok tv' =>
            match ic_from_array finite n_features_in KInt l (hd 0 tv') None with
            | Err e => (Err e, X)
            | Ok F => (ode_predict (XF F) (TArr tv'), X)
            end
        end
    end
  else (ode_predict X tv, X).

End Model.
Arguments xin R : clear implicits.
Arguments uin R : clear implicits.
