(** * Model of the grid search over EDMD models (proof-free).

    Source: datafold/appfold/edmd.py 1636-1778 and 1938-2081 (cited as edmd.py).
    The search runs the tasks one after the other (n_jobs=None); messages, warnings and
    run times are left out.

    Library code, by its documentation:
    - [clone]/[deepcopy] give every task its own estimator, so that a task sees the
      parameters of the estimator passed to EDMDCV;
    - [itertools.product] lists, for every candidate, all splits;
    - scikit-learn's [_format_results] arranges the scores in the order of the tasks as
      a matrix (candidates x splits), takes the mean of each row and ranks the means:
      one plus the number of larger means; nan counts as less than every number, and
      all ranks are 1 if all means are nan. *)

From Coq Require Import List ZArith Bool Arith QArith.
Import ListNotations.
From Verif Require Import Np TscModel.
Open Scope nat_scope.

(** A score; None is nan. *)
Definition num := option Q.

(** edmd.py 1669: [error_score]. *)
Inductive error_score := Raise | Number (q : num).

Section Model.
Context {V P M FP : Type}.
Notation frame := (list (row V)).

(** Parameters of an estimator by name (scikit-learn's [get_params]). *)
Definition dict := list (nat * P).

(** Oracles: [fit] of an estimator with given parameters; [score] of a fitted model;
    the parameters passed to [fit] restricted to samples
    ([sklearn.utils.validation._check_fit_params]). *)
Variable fit : dict -> frame -> FP -> result M.
Variable score : M -> frame -> result num.
Variable restrict : FP -> list nat -> FP.

(** scikit-learn [set_params]: unknown names raise ValueError.  Simplification: the
    names are independent (no [step__parameter] of a step that is replaced in the same
    call). *)
Fixpoint set_param (d : dict) (k : nat) (v : P) : result dict :=
  match d with
  | [] => Err ValueError
  | (k', v') :: r =>
      if k =? k' then Ok ((k', v) :: r)
      else bind (set_param r k v) (fun r' => Ok ((k', v') :: r'))
  end.

Fixpoint set_params (d : dict) (c : dict) : result dict :=
  match c with
  | [] => Ok d
  | (k, v) :: c' => bind (set_param d k v) (fun d' => set_params d' c')
  end.

(** accessor.py 951-961: an AttributeError of the constructor leaves a plain DataFrame
    (false), other exceptions are raised. *)
Definition is_collection (X : frame) : result bool :=
  match tsc X with
  | Ok _ => Ok true
  | Err AttributeError => Ok false
  | Err e => Err e
  end.

(** edmd.py 1636-1647 [_split_X_edmd]. *)
Definition split_X (F : frame) (train test : list nat) : result (frame * frame) :=
  bind (assign_ids_train_test F train test) (fun p =>
  bind (is_collection (fst p)) (fun a =>
  bind (is_collection (snd p)) (fun b =>
  if a && b then Ok p else Err RuntimeError))).

Record outcome := mkOutcome {
  test_score : num;
  train_score : option num;
  n_test_samples : nat;
  fit_failed : bool
}.

(** scikit-learn [_score] with a callable scorer. *)
Definition score_with (es : error_score) (m : M) (X : frame) : result num :=
  match score m X with
  | Ok s => Ok s
  | Err e => match es with Raise => Err e | Number q => Ok q end
  end.

(** edmd.py 1650-1778 [_fit_and_score_edmd]. *)
Definition fit_and_score (est : dict) (F : frame) (fp : FP) (es : error_score) (rts : bool)
  (cand : dict) (split : list nat * list nat) : result outcome :=
  let (train, test) := split in
  let fp' := restrict fp train in
  bind (set_params est cand) (fun est' =>
  bind (split_X F train test) (fun p =>
  let (X_train, X_test) := p in
  match fit est' X_train fp' with
  | Err e =>
      match es with
      | Raise => Err e
      | Number q => Ok (mkOutcome q (if rts then Some q else None) (length X_test) true)
      end
  | Ok m =>
      bind (score_with es m X_test) (fun ts =>
      if rts then
        bind (score_with es m X_train) (fun s => Ok (mkOutcome ts (Some s) (length X_test) false))
      else Ok (mkOutcome ts None (length X_test) false))
  end)).

(** ** scikit-learn [_format_results] *)

Fixpoint sum (l : list num) : num :=
  match l with
  | [] => Some 0%Q
  | x :: r => match x, sum r with
              | Some a, Some b => Some (a + b)%Q
              | _, _ => None
              end
  end.

Definition mean (l : list num) : num :=
  match sum l with
  | Some s => Some (s / inject_Z (Z.of_nat (length l)))%Q
  | None => None
  end.

(** [a < b] after nan has been replaced by a number below all others. *)
Definition num_ltb (a b : num) : bool :=
  match a, b with
  | Some x, Some y => negb (Qle_bool y x)
  | None, Some _ => true
  | _, None => false
  end.

Definition rank (l : list num) (x : num) : nat := S (length (filter (num_ltb x) l)).

Definition ranks (l : list num) : list nat := map (rank l) l.

(** [np.argmin]: position of the first minimum. *)
Fixpoint argmin_from (best : nat) (value : nat) (k : nat) (l : list nat) : nat :=
  match l with
  | [] => best
  | x :: r => if x <? value then argmin_from k x (S k) r else argmin_from best value (S k) r
  end.

Definition argmin (l : list nat) : nat :=
  match l with
  | [] => 0
  | x :: r => argmin_from 0 x 1 r
  end.

(** ** edmd.py 1945-2081 [EDMDCV.fit] *)

Record search := mkSearch {
  split_scores : list (list num);
  mean_scores : list num;
  rank_scores : list nat;
  best_index : nat;
  best_score : num;
  best_params : dict;
  best_estimator : option M
}.

Definition product {A B : Type} (l : list A) (l' : list B) : list (A * B) :=
  flat_map (fun a => map (fun b => (a, b)) l') l.

(** [splits] is the result of [cv.split], [n_splits] of [cv.get_n_splits]. *)
Definition search_fit (base : dict) (cands : list dict) (splits : result (list (list nat * list nat)))
  (n_splits : nat) (es : error_score) (rts refit : bool) (F : frame) (fp : FP) : result search :=
  bind splits (fun sp =>
  bind (map_result (fun t => fit_and_score base F fp es rts (fst t) (snd t)) (product cands sp)) (fun out =>
  let n_candidates := length cands in
  if length out <? 1 then Err ValueError
  else if negb (length out =? n_candidates * n_splits) then Err ValueError
  else
    let table := reshape n_candidates n_splits (map test_score out) in
    let means := map mean table in
    let rk := ranks means in
    let best := argmin rk in
    let params := nth best cands [] in
    let res := mkSearch table means rk best (nth best means None) params in
    if refit then
      bind (set_params base params) (fun est =>
      bind (fit est F fp) (fun m => Ok (res (Some m))))
    else Ok (res None))).

End Model.

(** metric.py 692-711, 769-788 (the number given to the splitter), 947-969
    [get_n_splits] of TSCWindowFoldTime: the splits are counted. *)
Definition count_splits (splits : list (list nat * list nat)) : nat := length splits.
