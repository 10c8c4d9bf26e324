(** * k-th nearest neighbours, cut-off estimate and the continuous nearest neighbour kernel
    (proof-free).

    Source: datafold/pcfold/kernels.py (kernels.py), datafold/pcfold/estimators.py
    (estimators.py).  Dense distance matrices only. *)

From mathcomp Require Import all_ssreflect all_algebra.
From Verif Require Import KernModel.
Import GRing.Theory Num.Theory.
Set Implicit Arguments.
Unset Strict Implicit.
Unset Printing Implicit Defensive.
Local Open Scope ring_scope.

Section Model.
Variable R : rcfType.

Definition row_list m n (D : 'M[R]_(m, n)) (i : 'I_m) : seq R := [seq D i j | j <- enum 'I_n].

(** kernels.py 319-389 [_kth_nearest_neighbor_dist], dense: [np.partition(row, k - 1)[k - 1]]
    is the entry at position k - 1 of the sorted row.  [None]: ValueError. *)
Definition kth_nearest_neighbor_dist m n (D : 'M[R]_(m, n)) (k : nat) : option 'rV[R]_m :=
  if (0 < k)%N && (k <= n)%N
  then Some (\row_i nth 0 (sort <=%R (row_list D i)) k.-1)
  else None.

(** estimators.py 59-92 [estimate_cutoff] for a given distance matrix between the (sub-)sample
    (rows) and all points (columns): [np.max] of the k-th distances.  [None]: ValueError (also
    of np.max of nothing).  For fewer than 10 points the code returns the largest distance. *)
Definition estimate_cutoff m n (D : 'M[R]_(m, n)) (k : nat) : option R :=
  match kth_nearest_neighbor_dist D k with
  | None => None
  | Some v =>
      match [seq v 0 i | i <- enum 'I_m] with
      | [::] => None
      | a :: l => Some (foldl Num.max a l)
      end
  end.

(** A kernel object: kernels.py 1082-1120 and the attribute reference_dist_knn_. *)
Record cknn n := Cknn { k_neighbor : nat; delta : R; reference_dist_knn : option 'rV[R]_n }.

(** kernels.py 1082-1098: [k_neighbor < 1] and [delta <= 0] are rejected. *)
Definition new_cknn n (k : nat) (d : R) : option (cknn n) :=
  if (k < 1)%N || (d <= 0) then None else Some (Cknn k d None).

Definition sqrt_vec n (v : 'rV[R]_n) : 'rV[R]_n := map_mx Num.sqrt v.

(** kernels.py 1208-1250 [evaluate] with is_pdist=True: the adjacency matrix and the kernel
    with its attribute.  [sym] is the attribute is_symmetric of the distance. *)
Definition evaluate_pdist n (c : cknn n) (sym : bool) (D : 'M[R]_n) : option ('M[bool]_n * cknn n) :=
  if [forall i, D i i != 0] && (0 < n)%N then None            (* (diagonal != 0).all() *)
  else if reference_dist_knn c is Some _ then None            (* _required_attrs *)
  else
    match kth_nearest_neighbor_dist D (k_neighbor c) with
    | None => None
    | Some dk =>
        match sym_division D (sqrt_vec dk) sym with
        | None => None
        | Some F => Some (\matrix_(i, j) (F i j < delta c), Cknn (k_neighbor c) (delta c) (Some dk))
        end
    end.

(** The same with is_pdist=False. *)
Definition evaluate_cdist m n (c : cknn n) (D : 'M[R]_(m, n)) : option 'M[bool]_(m, n) :=
  if (k_neighbor c < 1)%N || (n - 1 < k_neighbor c)%N then None
  else
    match reference_dist_knn c with
    | None => None
    | Some ref =>
        match kth_nearest_neighbor_dist D (k_neighbor c) with
        | None => None
        | Some dk =>
            match sym_division2 D (sqrt_vec dk) (sqrt_vec ref) with
            | None => None
            | Some F => Some (\matrix_(i, j) (F i j < delta c))
            end
        end
    end.

End Model.
