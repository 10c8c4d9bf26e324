(** * Model of the post observables of EDMD models (proof-free).

    Source: datafold/appfold/edmd.py 2424-2614 [EDMDPostObservable] (cited as edmd.py).
    The splits are processed one after the other; messages are left out. *)

From Coq Require Import List ZArith Bool Arith QArith.
Import ListNotations.
From Verif Require Import Np TscModel BldModel WinModel SearchModel.
Open Scope nat_scope.

Section Model.
Context {V M D : Type}.
Notation frame := (list (row V)).

(** Oracles: [fit], [score] and [reconstruct] of an EDMD model; the latter returns the
    reconstructed time series and the samples they are compared with (2463-2466: the
    windows of a windowed model, otherwise the argument itself); [transform] to the
    dictionary; [absdiff x y] is |x - y| per feature. *)
Variable fit : frame -> result M.
Variable score : M -> frame -> result Q.
Variable reconstruct : M -> frame -> result (frame * frame).
Variable transform : M -> frame -> result D.
Variable absdiff : V -> V -> V.

(** edmd.py 2469: [X.drop(labels=X.head(1).index)]; [head(1)] of pandas is the first row
    of the whole frame. *)
Definition drop_head (X : frame) : result frame :=
  match X with
  | [] => tsc []
  | r0 :: _ => tsc (filter (fun r => negb (pair_eqb (rid r, rtime r) (rid r0, rtime r0))) X)
  end.

(** edmd.py 2455-2473 [_compute_err_timeseries]. *)
Definition compute_err (m : M) (X_test : frame) : result (frame * frame) :=
  bind (reconstruct m X_test) (fun RX =>
  let X_test := snd RX in
  bind (drop_head (fst RX)) (fun R =>
  bind (loc_index X_test (index R)) (fun Y =>
  bind (tsc (map (fun p => mkRow (rid (fst p)) (rtime (fst p)) (absdiff (rval (snd p)) (rval (fst p))))
                 (combine R Y))) (fun E =>
  Ok (X_test, E))))).

Record part := mkPart { p_score : Q; p_model : M; p_test : frame; p_err : frame }.

(** edmd.py 2475-2498 [_fit_and_create_error_timeseries]. *)
Definition fit_split (F : frame) (split : list nat * list nat) : result part :=
  bind (split_X F (fst split) (snd split)) (fun p =>
  bind (fit (fst p)) (fun m =>
  bind (score m (snd p)) (fun s =>
  bind (compute_err m (snd p)) (fun q => Ok (mkPart s m (fst q) (snd q)))))).

(** [np.argmax]: position of the first maximum (no nan). *)
Fixpoint argmax_from (best : nat) (value : Q) (k : nat) (l : list Q) : nat :=
  match l with
  | [] => best
  | x :: r => if Qle_bool x value then argmax_from best value (S k) r else argmax_from k x (S k) r
  end.

Definition argmax (l : list Q) : nat :=
  match l with [] => 0 | x :: r => argmax_from 0 x 1 r end.

(** edmd.py 2517-2572 [_run_cv]. *)
Definition run_cv (F : frame) (splits : result (list (list nat * list nat)))
  : result (frame * frame * M) :=
  bind splits (fun sp =>
  bind (map_result (fit_split F) sp) (fun ret =>
  match nth_error ret (argmax (map p_score ret)) with
  | None => Err ValueError
  | Some best =>
      bind (from_items (map (fun r => Collection (p_test r)) ret) None) (fun X_validate =>
      bind (from_items (map (fun r => Collection (p_err r)) ret) None) (fun err =>
      Ok (X_validate, err, p_model best)))
  end)).

(** edmd.py 2424-2453 [_adapt_edmd_model].  [edmd._least_squares_inverse_map] (487) has
    three parameters without default besides self; the call at 2435-2437 passes only X
    and X_dict, which raises TypeError. *)
Definition adapt (m : M) (X_validate err : frame) : result M :=
  bind (transform m X_validate) (fun _ => Err TypeError).

(** edmd.py 2500-2515 and 2574-2614 [fit_transform]: the result of the call and the
    attribute [final_estimator_] afterwards.  [cv] is None or the result of the split. *)
Definition fit_transform (is_edmd is_fitted valid_observable : bool) (F : frame)
  (cv : option (result (list (list nat * list nat)))) : result M * option M :=
  if negb is_edmd then (Err TypeError, None)
  else if is_fitted then (Err ValueError, None)
  else if negb valid_observable then (Err ValueError, None)
  else match cv with
  | None =>
      match fit F with
      | Err e => (Err e, None)   (* the unfitted copy is left out *)
      | Ok m =>
          match compute_err m F with
          | Err e => (Err e, Some m)
          | Ok (X, E) => (adapt m X E, Some m)
          end
      end
  | Some splits =>
      match run_cv F splits with
      | Err e => (Err e, None)
      | Ok (X, E, m) => (adapt m X E, Some m)
      end
  end.

End Model.
