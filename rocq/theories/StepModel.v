(** * Model of the stepwise prediction (proof-free).

    Source: datafold/appfold/edmd.py 868-919 [_predict_stepwise_transform] (cited as
    edmd.py).

    Simplifications
    - integer time values; no control input (U is None), no quantities of interest,
      no state transition map (869-880);
    - [pred] is the fitted model for one step: it maps the samples of an initial
      condition and the elapsed time to the next state (edmd.py 897-903 [transform]
      and [_predict_dict_ic], [final_states] of two time steps). *)

From Coq Require Import List ZArith Bool Arith.
Import ListNotations.
From Verif Require Import Np TscModel BldModel.
Open Scope Z_scope.

Section Model.
Context {V : Type}.
Notation frame := (list (row V)).
Variable pred : list V -> Z -> V.

(** edmd.py 909 [X.loc[_X_predict.index] = _X_predict]: new values for the rows with
    the given labels (all of them are labels of X). *)
Definition assign_rows (X : frame) (new : list ((Z * Z) * V)) : frame :=
  map (fun r => match find (fun p => pair_eqb (fst p) (rid r, rtime r)) new with
                | Some p => mkRow (rid r) (rtime r) (snd p)
                | None => r
                end) X.

(** edmd.py 885-909: [k] iterations of the loop starting with index [i]. *)
Fixpoint step_loop (n : nat) (tv all : list Z) (k i : nat) (X : frame) : result frame :=
  match k with
  | O => Ok X
  | S k' =>
      let cur := firstn n (skipn (i - n) all) in
      if negb (last cur 0 =? nth (i - n) tv 0) then Err AssertionError
      else
        let Xc := filter (fun r => existsb (Z.eqb (rtime r)) cur) X in
        let t := nth i all 0 in
        let new := map (fun j => ((j, t), pred (to_numpy (group Xc j)) (t - nth (i - 1) all 0))) (ids Xc) in
        step_loop n tv all k' (S i) (assign_rows X new)
  end.

(** edmd.py 882-919 for an initial condition [F] with [n] samples per series. *)
Definition predict_stepwise (F : frame) (tv : list Z) (n : nat) (fill : V) : result frame :=
  bind (expand_time_values F (tl tv) fill) (fun X =>
  bind (step_loop n tv (time_values X) (length tv - 1) n X) (fun X =>
  Ok (if (1 <? n)%nat then filter (fun r => existsb (Z.eqb (rtime r)) tv) X else X))).

End Model.
