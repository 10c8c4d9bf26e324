(** * Choice and set-up of distance algorithms (proof-free).

    Source: datafold/pcfold/distance.py (cited as distance.py).  Points and distances as in
    DistModel; [eu] is the Euclidean distance, [other] the value of another metric of scipy.
    Simplifications: the package rdist is not installed (576-581, its name is None); options of the
    backends are names only (their values do not change distances in exact arithmetic, and an option
    that the library behind a backend does not know, which raises there, is not modelled). *)

From Coq Require Import String List ZArith Bool Arith.
From Verif Require Import Np DistModel.
Import ListNotations.
Open Scope Z_scope.

Inductive backend := Brute | KdTree | BallTree | Knn | Guess.

Definition backend_eqb (a b : backend) : bool :=
  match a, b with
  | Brute, Brute | KdTree, KdTree | BallTree, BallTree | Knn, Knn | Guess, Guess => true
  | _, _ => false
  end.

(** distance.py 476, 671, 774, 848 and 907: attribute [name]. *)
Definition backend_name (b : backend) : string :=
  match b with
  | Brute => "brute"
  | KdTree => "scipy.kdtree"
  | BallTree => "sklearn.balltree"
  | Knn => "sklearn.knn"
  | Guess => "guess_optimal"
  end.

(** [DistanceAlgorithm.__subclasses__()] in the order of definition. *)
Definition all_backends : list backend := [Brute; KdTree; BallTree; Knn; Guess].

(** The class attribute [GuessOptimalDist.is_symmetric]: None if it was never set. *)
Definition guess_symmetric := option bool.

(** distance.py 930-967 [_all_available_distance_algorithm]: the classmethods [is_symmetric]; a
    missing attribute is turned into NotImplementedError. *)
Definition all_available (g : guess_symmetric) (require_symmetric : bool) : result (list backend) :=
  if negb require_symmetric then Ok all_backends
  else match g with
       | None => Err NotImplementedError
       | Some s => Ok (filter (fun b => match b with Knn => false | Guess => s | _ => true end) all_backends)
       end.

(** Argument [backend]: None, a class, or a string. *)
Inductive backend_arg := NoBackend | Class (b : backend) | Name (s : string).

(** distance.py 970-1008 [get_backend_distance_algorithm]. *)
Definition get_backend (g : guess_symmetric) (a : backend_arg) (require_symmetric : bool) : result backend :=
  match a with
  | NoBackend => Err ValueError
  | _ =>
    bind (all_available g require_symmetric) (fun l =>
    match find (fun b => match a with
                         | Class c => backend_eqb b c
                         | Name s => String.eqb (backend_name b) s
                         | NoBackend => false
                         end) l with
    | Some b => Ok b
    | None => Err ValueError
    end)
  end.

Inductive metric := Eu (m : dmetric) | Other.

(** The attributes of a constructed object. *)
Inductive algorithm :=
| ABrute (m : metric) (cut_off : option Z) (options : list string)
| ATree (kd : bool) (m : dmetric) (cut_off : option Z) (kmin : option Z) (options : list string)
| AKnn (m : metric) (k : Z) (options : list string).

(** distance.py 61-106 and 115-118: [check_scalar] (0 was replaced with infinity by the
    constructors), then [_set_attrs_knn]. *)
Definition check_range (cut_off kmin : option Z) : result unit :=
  match cut_off with
  | Some c => if c <? 0 then Err ValueError else Ok tt
  | None => Ok tt
  end.
Definition check_k (k : option Z) : result unit :=
  match k with
  | Some k => if k <=? 0 then Err ValueError else Ok tt
  | None => Ok tt
  end.

(** distance.py 478-487 [BruteForceDist.__init__]; [exact_numeric] is a parameter, not an option. *)
Definition init_brute (m : metric) (cut_off : option Z) (options : list string) : result algorithm :=
  bind (check_range cut_off None) (fun _ =>
  Ok (ABrute m cut_off (filter (fun s => negb (String.eqb s "exact_numeric")) options))).

(** distance.py 673-678 and 776-784. *)
Definition init_tree (kd : bool) (m : metric) (cut_off kmin : option Z) (options : list string) : result algorithm :=
  match m with
  | Other => Err ValueError
  | Eu m => bind (check_range cut_off kmin) (fun _ => bind (check_k kmin) (fun _ => Ok (ATree kd m cut_off kmin options)))
  end.

(** distance.py 850-853 [SklearnKNN.__init__]. *)
Definition init_knn (m : metric) (k : Z) (options : list string) : result algorithm :=
  bind (check_k (Some k)) (fun _ => Ok (AKnn m k options)).

(** distance.py 909-927 [GuessOptimalDist.__new__]; 0 and None are infinity. *)
Definition init_guess (m : metric) (cut_off kmin : option Z) : result algorithm :=
  match match cut_off with Some c => if c =? 0 then None else Some c | None => None end with
  | None => init_brute m None []
  | Some c => match m with
              | Eu _ => init_tree true m (Some c) kmin []
              | Other => init_brute m (Some c) []
              end
  end.

(** [inspect.signature(backend_class).parameters.keys()]. *)
Definition signature (b : backend) : list string :=
  match b with
  | Brute => ["metric"; "exact_numeric"; "cut_off"; "backend_options"]
  | KdTree => ["cut_off"; "metric"; "kmin"; "backend_options"]
  | BallTree => ["cut_off"; "metric"; "kmin"; "backend_options"]
  | Knn => ["metric"; "k"; "backend_options"]
  | Guess => ["metric"; "is_symmetric"; "cut_off"; "kmin"]
  end%string.

Definition member (s : string) (l : list string) : bool := existsb (String.eqb s) l.

(** distance.py 1011-1066 [init_distance_algorithm]; keyword arguments that are not parameters of
    the backend are removed (1058-1060).  A call with a missing or doubled argument is a TypeError. *)
Definition init_distance_algorithm (g : guess_symmetric) (a : backend_arg) (m : metric) (cut_off k : option Z)
    (options : list string) : result algorithm :=
  bind (get_backend g a false) (fun b =>
  let keys := filter (fun s => member s (signature b)) ["metric"; "cut_off"; "kmin"; "backend_options"]%string in
  let cut := if member "cut_off" keys then cut_off else None in
  let kmin := if member "kmin" keys then k else None in
  let opts := if member "backend_options" keys then options else [] in
  if existsb (fun s => member s keys) opts then Err TypeError
  else
  match b with
  | Brute => init_brute m cut opts
  | KdTree => init_tree true m cut kmin opts
  | BallTree => init_tree false m cut kmin opts
  | Knn => Err TypeError            (* parameter k is missing *)
  | Guess => init_guess m cut kmin
  end).

(** The class attribute after a call, 911. *)
Definition after_init (g : guess_symmetric) (a : backend_arg) : guess_symmetric :=
  match get_backend g a false with
  | Ok Guess => Some true           (* the parameter is_symmetric is not handed on *)
  | _ => g
  end.

Section Calls.
Context {P : Type}.
Variables eu other : P -> P -> Z.
Variable inv : Z.
Variable knn : list P -> P -> nat -> list nat.
(** [kneighbors_graph(n_neighbors=k)] without query points: [k] nearest other points of point [i]. *)
Variable knn_others : list P -> nat -> nat -> list nat.

Definition value (m : metric) (x y : P) : Z :=
  match m with Eu m => mdist eu m x y | Other => other x y end.

(** distance.py 859-882 [SklearnKNN.__call__] of a new object, 204-236: the diagonal. *)
Definition knn_call (m : metric) (k : nat) (X : list P) (Y : option (list P)) : result dmat :=
  if (List.length X <=? 1)%nat then Err ValueError
  else match Y with
  | None =>
    if ((k - 1 =? 0) || (List.length X - 1 <? k - 1))%nat then Err ValueError
    else Ok (Sparse (List.length X)
           (map (fun p => set_entry (fst p) 0
                   (set_entries (flat_map (fun j => map (fun x => (j, value m x (snd p))) (point_at X j))
                                   (knn_others X (fst p) (k - 1)%nat)) []))
                (enumerate X)))
  | Some Y =>
    if (List.length X <? k)%nat then Err ValueError
    else Ok (Sparse (List.length X)
           (map (fun y => set_entries (flat_map (fun j => map (fun x => (j, value m x y)) (point_at X j))
                                         (knn X y k)) []) Y))
  end.

(** A call of a new object. *)
Definition call (al : algorithm) (X : list P) (Y : option (list P)) : result dmat :=
  match al with
  | ABrute (Eu m) cut _ => brute_call eu inv m cut X Y
  | ABrute Other cut _ => brute_call other inv Euclidean cut X Y
  | ATree _ m cut kmin _ => snd (tree_call eu knn m cut (option_map Z.to_nat kmin) None X Y)
  | AKnn m k _ => knn_call m (Z.to_nat k) X Y
  end.

(** distance.py 1069-1119 [compute_distance_matrix]. *)
Definition compute_distance_matrix (g : guess_symmetric) (X : list P) (Y : option (list P)) (m : metric)
    (cut_off k : option Z) (a : backend_arg) (options : list string) : result dmat :=
  bind (init_distance_algorithm g a m cut_off k options) (fun al => call al X Y).

End Calls.
