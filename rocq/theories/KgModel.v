(** * Model predictive control with a Koopman generator: appfold/mpc.py, class AffineKgMPC
      (cited as mpc.py), constructor and [generate_control_signal].

    Arrays live in a heap, because the controller keeps a reference to the array of the caller.
    Simplifications:
    - the integration of the system and the adjoint equation, and with them cost and Jacobian
      (mpc.py 849-977, see AffMpcModel), are one argument [objective]: a function of the lifted
      state, the reference, the time values and the input, which may raise;
    - [EDMD.transform] is the argument [lift];
    - [scipy.optimize.minimize] is an argument that yields a strategy: it asks for the value of the
      objective at inputs of its choice and finally returns an input; a failure of the search is a
      warning only (mpc.py 1093-1098), so the flag is left out;
    - [DataFrame.to_numpy] gives a view of the data (frames of one type). *)

From Coq Require Import List ZArith Bool Arith.
From Verif Require Import Np.
Import ListNotations.
Open Scope nat_scope.

Section Model.
(** Numbers, time values, lifted states, answers of the objective and names of search methods. *)
Variables V T L A M : Type.
Variable zero : V.
(** [==] of numbers; NaN is not equal to itself. *)
Variable eqb : V -> V -> bool.

Inductive shape := D1 (n : nat) | D2 (r c : nat).

(** A NumPy array in C order or a data frame; a TSCDataFrame (one series) has time values. *)
Inductive object :=
| Ndarray (sh : shape) (d : list V)
| Frame (r c : nat) (times : option (list T)) (d : list V).

Definition heap := list object.

Definition transposed (r c : nat) (d : list V) : list V :=
  flat_map (fun j => map (fun i => nth (i * c + j) d zero) (seq 0 r)) (seq 0 c).

(** mpc.py 1044-1047 and 1054-1059: [obj] or [obj.to_numpy().T], then general.py 201-205
    [if1dim_colvec]: shape and entries in C order.  The result is a view. *)
Definition as_matrix (o : object) : nat * nat * list V :=
  match o with
  | Ndarray (D1 n) d => (n, 1, d)
  | Ndarray (D2 r c) d => (r, c, d)
  | Frame r c _ d => (c, r, transposed r c d)
  end.

Definition entries (h : heap) (l : nat) : list V :=
  match nth_error h l with Some o => snd (as_matrix o) | None => [] end.

(** Fields of the controller that matter here. *)
Record controller := Controller {
  state_size : nat;
  input_size : nat;
  horizon : nat;
  bounds : list (V * V)        (* self.input_bounds: one row per entry of the input vector *)
}.

(** mpc.py 726-781: constructor.  [B_shape]: shape of the control matrix of the model;
    [input_bounds]: an array, by its shape and its rows (upper bound, lower bound);
    [cost_input], [cost_state]: the size if it is an array. *)
Definition construct (B_shape : list nat) (is_differential : bool) (n_state steps : nat)
    (bounds_shape : list nat) (input_bounds : list (V * V)) (cost_input cost_state : option nat)
  : result controller :=
  match B_shape with
  | [_; _; m] =>
    if negb is_differential then Err TypeError
    else match bounds_shape with
         | [a; b] =>
           if negb ((a =? m) && (b =? 2)) then Err ValueError
           else if match cost_input with Some k => negb (k =? m) | None => false end then Err ValueError
           else if match cost_state with Some k => negb (k =? n_state) | None => false end then Err ValueError
           else Ok (Controller n_state m steps (np_repeat (map (fun b => (snd b, fst b)) input_bounds) (steps + 1)))
         | _ => Err ValueError
         end
  | _ => Err TypeError
  end.

(** [_cached_init_state] (a view of an array of the caller) and [_cached_lifted_state]. *)
Definition cache := (option nat * option L)%type.

(** [(self._cached_init_state != x0).any()], mpc.py 786: elementwise; None is different from
    every number. *)
Definition differs (h : heap) (cached : option nat) (x0 : list V) : bool :=
  match cached with
  | None => existsb (fun _ => true) x0
  | Some l => existsb (fun p => negb (eqb (fst p) (snd p))) (combine (entries h l) x0)
  end.

Variable lift : list V -> result L.
Variable objective : L -> list V -> list T -> list V -> result A.

(** mpc.py 783-794: lifted initial state and new cache; [l] is the object x0 is a view of. *)
Definition lifted_state (h : heap) (c : cache) (l : nat) : cache * result L :=
  if differs h (fst c) (entries h l)
  then match lift (entries h l) with
       | Ok z => ((Some l, Some z), Ok z)
       | Err e => (c, Err e)
       end
  else (c, match snd c with Some z => Ok z | None => Err AttributeError end).

(** A search of [scipy.optimize.minimize]. *)
Inductive search :=
| Done (u : list V)
| Ask (u : list V) (continue : A -> search).

(** The search with [fun=self.cost_and_jacobian], mpc.py 819-853 and 1082-1091. *)
Fixpoint run (h : heap) (l x : nat) (ts : list T) (c : cache) (s : search) : cache * result (list V) :=
  match s with
  | Done u => (c, Ok u)
  | Ask u continue =>
    let (c', z) := lifted_state h c l in
    match bind z (fun z => objective z (entries h x) ts u) with
    | Ok a => run h l x ts c' (continue a)
    | Err e => (c', Err e)
    end
  end.

Variable default_method : M.
Variable minimize : M -> list (V * V) -> list V -> search.

(** mpc.py 1077-1081: [xref[:, 0] = x0.ravel()]. *)
Definition set_first (steps : nat) (xref x0 : list V) : list V :=
  concat (map (fun p => fst p :: tl (snd p)) (combine x0 (reshape (length x0) (steps + 1) xref))).

(** mpc.py 1100: [res.x.reshape(m, horizon + 1).T[:-1, :]]. *)
Definition as_signal (m steps : nat) (u : list V) : result (list (list V)) :=
  if length u =? m * (steps + 1)
  then Ok (map (fun k => map (fun row => nth k row zero) (reshape m (steps + 1) u)) (seq 0 steps))
  else Err ValueError.

(** mpc.py 979-1100 [generate_control_signal]: heap, cache and result.  [ic] and [ref] are objects
    of the caller. *)
Definition generate_control_signal (k : controller) (h : heap) (c : cache) (ic ref : nat)
    (time_values : option (list T)) (method : option M) : heap * cache * result (list (list V)) :=
  match nth_error h ic, nth_error h ref with
  | Some x0, Some reference =>
    match match time_values with
          | Some ts => Some ts
          | None => match reference with Frame _ _ times _ => times | Ndarray _ _ => None end
          end with
    | None => (h, c, Err TypeError)
    | Some ts =>
      if negb (length ts =? horizon k + 1) then (h, c, Err ValueError)
      else let '(r, s, xref) := as_matrix reference in
      if negb ((r =? state_size k) && (s =? horizon k + 1)) then (h, c, Err ValueError)
      else let '(r0, s0, x) := as_matrix x0 in
      if negb ((r0 =? state_size k) && (s0 =? 1)) then (h, c, Err ValueError)
      else
        let u_init := repeat zero (input_size k * (horizon k + 1)) in
        (* np.copy *)
        let copy := length h in
        let h' := h ++ [Ndarray (D2 r s) (set_first (horizon k) xref x)] in
        let m := match method with Some m => m | None => default_method end in
        let (c', u) := run h' ic copy ts c (minimize m (bounds k) u_init) in
        (h', c', bind u (as_signal (input_size k) (horizon k)))
    end
  | _, _ => (h, c, Err NameError)
  end.

(** What a program does with one controller: create objects, overwrite the data of an object in
    place, and ask for control signals. *)
Inductive action :=
| Create (o : object)
| Overwrite (l : nat) (d : list V)
| Control (ic ref : nat) (time_values : option (list T)) (method : option M).

Definition overwritten (o : object) (d : list V) : object :=
  match o with
  | Ndarray sh d0 => if length d =? length d0 then Ndarray sh d else o
  | Frame r c ts d0 => if length d =? length d0 then Frame r c ts d else o
  end.

Definition act (k : controller) (w : heap * cache) (a : action) : heap * cache :=
  match a with
  | Create o => (fst w ++ [o], snd w)
  | Overwrite l d => (map (fun p => if fst p =? l then overwritten (snd p) d else snd p) (enumerate (fst w)), snd w)
  | Control ic ref ts m => fst (generate_control_signal k (fst w) (snd w) ic ref ts m)
  end.

(** mpc.py 774-775: the caches are None at first. *)
Definition history (k : controller) (l : list action) : heap * cache :=
  fold_left (act k) l ([], (None, None)).

End Model.
