(** * Distance matrices (proof-free).

    Source: datafold/pcfold/distance.py (cited as distance.py).

    Points are of any type; [eu x y] is the Euclidean distance as an integer in some unit
    (exact arithmetic, the pairwise routines of scipy and sklearn are this function).  A
    sparse matrix is the list of its rows, a row the list of its stored entries (column,
    value).  Radius and nearest neighbour queries of the tree libraries are given by their
    documented result (see [radius_query] and the oracle [knn]). *)

From Coq Require Import List ZArith Bool Arith.
From Verif Require Import Np.
Import ListNotations.
Open Scope Z_scope.

Inductive dmetric := Euclidean | SqEuclidean.

Inductive dmat := Dense (rows : list (list Z)) | Sparse (ncols : nat) (rows : list (list (nat * Z))).

Section Model.
Context {P : Type}.
Variable eu : P -> P -> Z.

Definition mvalue (m : dmetric) (d : Z) : Z := match m with Euclidean => d | SqEuclidean => d * d end.

(** The value of the metric. *)
Definition mdist (m : dmetric) (x y : P) : Z := mvalue m (eu x y).

(** distance.py 82-106 [_set_attrs_range] with [cut_off or np.inf] of the constructors
    (487, 677, 783): None is infinity (0 is replaced by it); negative values are rejected
    by check_scalar.  For sqeuclidean the cut-off is squared. *)
Definition set_cut_off (m : dmetric) (c : option Z) : result (option Z) :=
  match c with
  | None => Ok None
  | Some c => if c =? 0 then Ok None
              else if c <? 0 then Err ValueError
              else Ok (Some (mvalue m c))
  end.

(** distance.py 59: the marker -999 for true zeros, here any number [inv]; 238-248
    [_dense2csr_matrix]. *)
Variable inv : Z.

Definition mark_zero (d : Z) : Z := if d =? 0 then inv else d.
Definition drop_large (cut d : Z) : Z := if cut <=? d then 0 else d.
Definition unmark (d : Z) : Z := if d =? inv then 0 else d.

(** [scipy.sparse.csr_matrix(dense)]: stores the non-zero entries. *)
Definition csr_row (row : list Z) : list (nat * Z) :=
  filter (fun p => negb (snd p =? 0)) (enumerate row).

Definition dense2csr (cut : Z) (D : list (list Z)) : list (list (nat * Z)) :=
  map (fun row => map (fun p => (fst p, unmark (snd p)))
                      (csr_row (map (drop_large cut) (map mark_zero row)))) D.

(** [cdist(Y, X)]; for pdist the square form, [Y = X]. *)
Definition full_matrix (m : dmetric) (X Y : list P) : list (list Z) :=
  map (fun y => map (fun x => mdist m x y) X) Y.

Definition query_points (X : list P) (Y : option (list P)) : list P :=
  match Y with Some Y => Y | None => X end.

(** distance.py 440-543 [BruteForceDist]; 165-182 [_validate_X_Y]. *)
Definition brute_call (m : dmetric) (cut_off : option Z) (X : list P) (Y : option (list P)) : result dmat :=
  bind (set_cut_off m cut_off) (fun cut =>
  if (length X <=? 1)%nat then Err ValueError
  else
    let D := full_matrix m X (query_points X Y) in
    match cut with
    | None => Ok (Dense D)
    | Some c => Ok (Sparse (length X) (dense2csr c D))
    end).

(** The documented result of a radius search in a tree of the points [ref]
    (scipy.spatial.cKDTree.sparse_distance_matrix, sklearn's radius_neighbors_graph with
    the diagonal inserted by distance.py 202-236): all points with distance at most the
    radius. *)
Definition radius_query (ref : list P) (radius : Z) (y : P) : list (nat * Z) :=
  map (fun p => (fst p, eu (snd p) y))
      (filter (fun p => eu (snd p) y <=? radius) (enumerate ref)).

(** [BallTree(X).query(y, k)]: the positions of k nearest points (oracle). *)
Variable knn : list P -> P -> nat -> list nat.

(** Assignment of one entry of a sparse row: replaces or inserts (columns ordered). *)
Fixpoint set_entry (c : nat) (v : Z) (row : list (nat * Z)) : list (nat * Z) :=
  match row with
  | [] => [(c, v)]
  | (c', v') :: r => if (c <? c')%nat then (c, v) :: row
                     else if (c =? c')%nat then (c, v) :: r
                     else (c', v') :: set_entry c v r
  end.

Definition set_entries (es : list (nat * Z)) (row : list (nat * Z)) : list (nat * Z) :=
  fold_left (fun row e => set_entry (fst e) (snd e) row) es row.

(** distance.py 284-345: the triples (row, column, distance) of the nearest neighbours of
    all rows with fewer than [kmin] entries; zero distances are left out (310); for pdist
    also the transposed triples (320-333). *)
Definition point_at (l : list P) (i : nat) : list P :=
  match nth_error l i with Some x => [x] | None => [] end.

Definition kmin_triples (X Y : list P) (kmin : nat) (rows : list (list (nat * Z)))
  : list (nat * nat * Z) :=
  flat_map (fun p => if (length (snd p) <? kmin)%nat then
              flat_map (fun y => flat_map (fun c => flat_map (fun x =>
                  if eu x y =? 0 then [] else [((fst p, c), eu x y)]) (point_at X c))
                (knn X y kmin)) (point_at Y (fst p))
            else []) (enumerate rows).

Definition swap_triples (l : list (nat * nat * Z)) : list (nat * nat * Z) :=
  map (fun t => ((snd (fst t), fst (fst t)), snd t)) l.

(** distance.py 250-362 [_ensure_kmin_nearest_neighbor]; the values written are those of
    the Euclidean tree for every metric (300-308).  The query raises if there are fewer
    than [kmin] points. *)
Definition ensure_kmin (X : list P) (Y : option (list P)) (kmin : nat) (ncols : nat)
    (rows : list (list (nat * Z))) : result (list (list (nat * Z))) :=
  if existsb (fun row => (length row <? kmin)%nat) rows then
    let Yq := query_points X Y in
    if match Y with
       | None => false
       | Some Y => negb (length Y =? length rows)%nat || negb (length X =? ncols)%nat
       end then Err ValueError                                       (* 290-294 *)
    else if (length X <? kmin)%nat then Err ValueError
    else
      let T := kmin_triples X Yq kmin rows in
      let T := match Y with None => T ++ swap_triples T | Some _ => T end in
      Ok (map (fun p => set_entries (map (fun t => (snd (fst t), snd t))
                                         (filter (fun t => (fst (fst t) =? fst p)%nat) T)) (snd p))
              (enumerate rows))
  else Ok rows.

(** distance.py 647-745 [ScipyKdTreeDist], 748-845 [SklearnBalltreeDist]: the tree of an
    earlier call is reused unless the call is pair-wise; 364-387 [_handle_kmin].  State:
    the points of the tree.  117-120: kmin must be positive.  For an infinite radius the matrix is dense, and the kmin
    procedure fails on it (getnnz is a method of sparse matrices). *)
Definition tree_call (m : dmetric) (cut_off : option Z) (kmin : option nat)
    (st : option (list P)) (X : list P) (Y : option (list P)) : option (list P) * result dmat :=
  match set_cut_off m cut_off with
  | Err e => (st, Err e)
  | Ok cut =>
      if match kmin with Some k => (k =? 0)%nat | None => false end then (st, Err ValueError)
      else if (length X <=? 1)%nat then (st, Err ValueError)
      else
        let ref := match Y, st with Some _, Some r => r | _, _ => X end in
        let st := Some ref in
        let q := query_points X Y in
        let apply_kmin := match kmin with
                          | None => false
                          | Some k => match Y with Some _ => (0 <? k)%nat | None => (1 <? k)%nat end
                          end in
        match cut, cut_off with
        | Some _, Some radius =>
            let rows := map (fun y => map (fun p => (fst p, mvalue m (snd p)))
                                          (radius_query ref radius y)) q in
            if apply_kmin then
              match kmin with
              | Some k => match ensure_kmin X Y k (length ref) rows with
                          | Ok rows => (st, Ok (Sparse (length ref) rows))
                          | Err e => (st, Err e)
                          end
              | None => (st, Ok (Sparse (length ref) rows))
              end
            else (st, Ok (Sparse (length ref) rows))
        | _, _ => if apply_kmin then (st, Err AttributeError)
                  else (st, Ok (Dense (full_matrix m ref q)))
        end
  end.

(** A history of calls of one object. *)
Fixpoint tree_calls (m : dmetric) (cut_off : option Z) (kmin : option nat) (st : option (list P))
    (calls : list (list P * option (list P))) : list (result dmat) :=
  match calls with
  | [] => []
  | (X, Y) :: r => let (st', res) := tree_call m cut_off kmin st X Y in
                   res :: tree_calls m cut_off kmin st' r
  end.

End Model.
