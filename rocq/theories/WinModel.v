(** * Model of the windowed reconstruction (proof-free).

    Source: datafold/appfold/edmd.py 2084-2368 (cited as edmd.py).

    Simplifications
    - time values are integers (for the other kinds the functions take [tkind]);
    - as in ReconModel the fitted model is an arbitrary function [pred] from the
      samples of an initial condition and the elapsed time to the predicted state;
    - the checks for finite values and of the feature names are not modelled; no
      quantities of interest ([qois] is None). *)

From Coq Require Import List ZArith Bool Arith.
Import ListNotations.
From Verif Require Import Np TscModel ReconModel BldModel.
Open Scope Z_scope.

Section Model.
Context {V : Type}.
Notation frame := (list (row V)).

(** edmd.py 2204-2212 (and 2240-2248): the windows of all series as one collection,
    labelled 0, 1, 2, ... *)
Definition cut_windows (k : tkind) (F : frame) (window offset : Z) : result frame :=
  bind (iter_timevalue_window k F window offset true) (fun ws =>
  from_items (map Collection ws) None).

(** edmd.py 2233-2237 (and 2268-2272): all series get the times of the first one.
    [X.loc[i]] lists the rows of series i; the assignment of the index validates it
    (collection.py 358-360); pandas raises ValueError for a wrong length. *)
Definition equalize_times (X : frame) : result frame :=
  let t := time_index (group X (hd 0 (ids X))) in
  set_index X (flat_map (fun i => map (pair i) t) (ids X)).

Variable pred : list V -> Z -> V.

(** edmd.py 2118-2285 [_window_reconstruct(return_windows=True)] of a model that is
    not controlled: the reconstruction and the windows.  2194-2200: window size and
    data; 2214-2215 the assertion; 2219-2223 the final index; 2278 calls
    [edmd._reconstruct], [edmd_reconstruct] without its first test, which always
    passes here because the window size exceeds [n]; 2281 the index. *)
Definition window_reconstruct (k : tkind) (F : frame) (n : nat) (window offset : Z)
  : result (frame * frame) :=
  if window <=? Z.of_nat n then Err ValueError
  else
    let w := Z.to_nat window in
    bind (check_const_time_delta k F) (fun _ =>
    bind (check_required_min_timesteps F w) (fun _ =>
    bind (cut_windows k F window offset) (fun X =>
    match n_timesteps X with
    | NSeries _ => Err AssertionError
    | NInt m =>
        if negb (m =? w)%nat then Err AssertionError
        else
          let final := index (groupby_tail (w - n + 1) X) in
          bind (equalize_times X) (fun X' =>
          bind (edmd_reconstruct pred k X' n) (fun R =>
          bind (set_index R final) (fun R => Ok (R, X))))
    end))).

(** [X.loc[index, :]] for a list of labels: the rows with these labels, in the order
    of the list. *)
Definition loc_index (X : frame) (idx : list (Z * Z)) : result frame :=
  map_result (fun p => match find (fun r => pair_eqb (rid r, rtime r) p) X with
                       | Some r => Ok r
                       | None => Err KeyError
                       end) idx.

(** edmd.py 2287-2330 [_window_score] up to the evaluation of the metric: the true
    rows and the predicted rows.  No control input is handed on, so that 2184-2188
    raises for a controlled model (after the window size was tested at 2176). *)
Definition window_score_data (k : tkind) (F : frame) (n : nat) (window offset : Z)
    (is_controlled : bool) : result (frame * frame) :=
  if window <=? Z.of_nat n then Err ValueError
  else if is_controlled then Err ValueError
  else bind (window_reconstruct k F n window offset) (fun RX =>
       bind (loc_index (snd RX) (index (fst RX))) (fun Y => Ok (Y, fst RX))).

End Model.
