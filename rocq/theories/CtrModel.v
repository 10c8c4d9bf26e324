(** * Model of the reconstruction with control input (proof-free).

    Source: datafold/appfold/edmd.py 712-834, 1538-1551 and 2118-2285 (cited as
    edmd.py), datafold/dynfold/dmd.py 350-411 (dmd.py, through PredModel),
    datafold/pcfold/timeseries/collection.py 1961-1973 (through PredModel).

    Simplifications
    - integer time values;
    - the dictionary maps the samples of an initial condition to one dictionary
      state ([enc]); the fitted flow map is one [step] per control sample
      (dynsystem.py 238-295, in PredModel); [out] is the map back to the full state
      (edmd.py 824, 829-833).  The branch with [_inverse_map_control] (edmd.py
      818-822) is not modelled;
    - no quantities of interest; [stepwise_transform=False]. *)

From Coq Require Import List ZArith Bool Arith.
Import ListNotations.
From Verif Require Import Np TscModel PredModel ReconModel BldModel WinModel.
Open Scope Z_scope.

Section Model.
Context {V W S : Type}.
Variable enc : list V -> S.
Variable step : S -> W -> S.
Variable out : S -> V.
Notation frame := (list (row V)).

(** edmd.py 740 [self.transform(X_ic)]: one dictionary state per series, at the time
    of its last sample. *)
Definition dict_ic (gids : list Z) (ic : frame) : list (row S) :=
  map (fun i => mkRow i (last (time_index (group ic i)) 0) (enc (to_numpy (group ic i)))) gids.

(** edmd.py 724-745 for one group of initial conditions: 727-728 select and validate
    the control input (the whole [U] is validated; if the selection of 727 misses an
    ID, pandas may raise KeyError instead), 740-743 predict; the time values are
    given. *)
Definition predict_group_controlled (dt : Z) (U : list (row W)) (g : list Z * frame * list Z)
  : result frame :=
  let '(gids, ic, tv) := g in
  bind (validate_control ic U) (fun _ =>
  let Us := filter (fun r => existsb (Z.eqb (rid r)) gids) U in
  bind (predict_controlled KInt 0 0 dt false (dict_ic gids ic) Us (Some tv)) (fun p =>
  Ok (flat_map (fun xu : row S * list W =>
        map (fun q : Z * S => mkRow (rid (fst xu)) (fst q) (out (snd q)))
            (flowmap_controlled S step (rval (fst xu)) (snd xu) (snd p))) (fst p)))).

(** edmd.py 712-772 [_reconstruct] with control: X is shifted to start at time 0
    (715-719), U is not. *)
Definition reconstruct_controlled_core (dt : Z) (F : frame) (U : list (row W)) (n : nat) : result frame :=
  bind (shift_time_per_time_series KInt F) (fun Fs =>
  bind (iter_reconstruct_ic KInt Fs n) (fun gs =>
  bind (map_result (predict_group_controlled dt U) gs) (fun Rs =>
  bind (tsc (concat Rs)) (fun R =>
  let recovered := if (1 <? n)%nat
                   then flat_map (fun i => skipn (n - 1) (index (group F i))) (ids F)
                   else index F in
  set_index R recovered)))).

(** edmd.py 1540-1551 [reconstruct]. *)
Definition edmd_reconstruct_controlled (dt : Z) (F : frame) (U : list (row W)) (n : nat) : result frame :=
  bind (check_required_min_timesteps F (n + 1)) (fun _ => reconstruct_controlled_core dt F U n).

(** edmd.py 2251-2272: the first [n - 1] rows and the last row of every window of U
    are removed. *)
Definition cut_control (U : list (row W)) (window offset : Z) (n : nat) : result (list (row W)) :=
  bind (cut_windows KInt U window offset) (fun Y =>
  bind (tsc (groupby_head (Z.to_nat window - 1) Y)) (fun Y =>
  match n_timesteps Y with
  | NSeries _ => Err AssertionError
  | NInt m =>
      if negb (m =? Z.to_nat window - 1)%nat then Err AssertionError
      else
        let drop := index (groupby_head (n - 1) Y) in
        tsc (filter (fun r => negb (existsb (pair_eqb (rid r, rtime r)) drop)) Y)
  end)).

(** edmd.py 2118-2285 [_window_reconstruct(return_windows=True)] of a controlled
    model: the reconstruction, the windows of X and those of U. *)
Definition window_reconstruct_controlled (dt : Z) (F : frame) (U : list (row W)) (n : nat) (window offset : Z)
  : result (frame * frame * list (row W)) :=
  if window <=? Z.of_nat n then Err ValueError
  else
    let w := Z.to_nat window in
    bind (check_const_time_delta KInt F) (fun _ =>
    bind (check_required_min_timesteps F w) (fun _ =>
    bind (check_const_time_delta KInt U) (fun du =>
    if negb (du =? dt) then Err TSCException
    else
    bind (cut_windows KInt F window offset) (fun X =>
    match n_timesteps X with
    | NSeries _ => Err AssertionError
    | NInt m =>
        if negb (m =? w)%nat then Err AssertionError
        else
          let final := index (groupby_tail (w - n + 1) X) in
          bind (equalize_times X) (fun X' =>
          bind (cut_control U window offset n) (fun Y =>
          bind (equalize_times Y) (fun Y' =>
          bind (reconstruct_controlled_core dt X' Y' n) (fun R =>
          bind (set_index R final) (fun R => Ok (R, X, Y))))))
    end)))).

End Model.
