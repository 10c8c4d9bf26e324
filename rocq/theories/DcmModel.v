(** * Model of the vectorised simulation of the DC motor (proof-free).

    Source: datafold/utils/_systems.py 1118-1194 ([DCMotor._runge_kutta],
    [DCMotor.predict_vectorize], cited as _systems.py); datafold/pcfold/timeseries/accessor.py
    182-190 (accessor.py).

    Simplifications
    - integer time values; names of features are left out;
    - one step of the integrator is [rk dt x u] (its arithmetic is modelled in RkModel.v). *)

From Coq Require Import List ZArith Bool Arith.
Import ListNotations.
From Verif Require Import Np TscModel.
Open Scope Z_scope.

Section Model.
Context {V W : Type}.
Variable rk : Z -> V -> W -> V.

(** accessor.py 182-190 [check_const_timesteps]. *)
Definition check_const_timesteps (G : list (row W)) : result nat :=
  match n_timesteps G with NInt n => Ok n | _ => Err TSCException end.

(** [l[i::n]]: the entries at positions i, i + n, i + 2n, ... *)
Fixpoint strided {A : Type} (n i : nat) (l : list A) : list A :=
  match l with
  | [] => []
  | x :: l' => match i with O => x :: strided n (n - 1) l' | S i' => strided n i' l' end
  end.

(** One initial condition: the states so far and the current one. *)
Definition advance (d : Z) (p : list V * V) (u : W) : list V * V := (fst p ++ [snd p], rk d (snd p) u).

(** _systems.py 1118-1126 for all initial conditions: the states and controls are arrays that must
    have the same length, or a single control is broadcast. *)
Definition rk_all (d : Z) (Xs : list (list V * V)) (us : list W) : result (list (list V * V)) :=
  if (length us =? length Xs)%nat then Ok (map (fun q => advance d (fst q) (snd q)) (combine Xs us))
  else match us with [u] => Ok (map (fun p => advance d p u) Xs) | _ => Err ValueError end.

(** _systems.py 1175-1182: the loop over the controls. *)
Fixpoint rk_loop (d : Z) (n : nat) (us : list W) (Xs : list (list V * V)) (is : list nat) : result (list (list V * V)) :=
  match is with
  | [] => Ok Xs
  | i :: is' => bind (rk_all d Xs (strided n i us)) (fun Ys => rk_loop d n us Ys is')
  end.

(** _systems.py 1128-1194 [predict_vectorize]; the control is returned unchanged. *)
Definition predict_vectorize (X : list (row V)) (U : list (row W)) (tv : option (list Z)) : result (list (row V)) :=
  if negb (n_timeseries X =? n_timeseries U)%nat then Err ValueError
  else bind (check_const_timesteps U) (fun n =>
  bind (if (1 <? n)%nat then check_const_time_delta KInt U
        else match tv with Some [a; b] => Ok (b - a) | _ => Err ValueError end) (fun d =>
  bind (rk_loop d n (to_numpy U) (map (fun r => ([], rval r)) X) (seq 0 n)) (fun Xs =>
  from_tensor (map (fun p => fst p ++ [snd p]) Xs) (n + 1) None
    (if (1 <? n)%nat then Some (time_values U ++ [last (time_values U) 0 + d]) else tv)))).

End Model.
