(** * Subsampling of point clouds and removal of outliers (proof-free).

    Source: datafold/pcfold/pointcloud.py 299-421 [pcm_subsample], [pcm_remove_outlier] (pointcloud.py),
    datafold/utils/general.py 581-621 [random_subsample] (general.py),
    datafold/pcfold/distance.py 909-927 [GuessOptimalDist] (distance.py).

    Points, distances and sparse matrices as in DistModel.v (integer distances, exact arithmetic: the
    inexact routine selected by [exact_numeric=False] is not distinguished).  The random permutation is
    the argument [perm]. *)

From Coq Require Import List ZArith Bool Arith.
From Verif Require Import Np DistModel.
Import ListNotations.
Open Scope Z_scope.

Section Model.
Context {P : Type}.
Variable eu : P -> P -> Z.
Variable inv : Z.
Variable knn : list P -> P -> nat -> list nat.

(** [np.array_split(l, k)]: the first [len l mod k] parts have one element more. *)
Fixpoint chunks {A : Type} (sizes : list nat) (l : list A) : list (list A) :=
  match sizes with [] => [] | s :: r => firstn s l :: chunks r (skipn s l) end.

Definition array_split {A : Type} (k : nat) (l : list A) : list (list A) :=
  let q := (length l / k)%nat in let r := (length l mod k)%nat in
  chunks (repeat (S q) r ++ repeat q (k - r)) l.

(** [pcm[indices, :]]. *)
Definition points_at (X : list P) (idx : list nat) : list P := flat_map (point_at X) idx.

(** [matrix.min(axis=1)] of a sparse matrix with [n] columns: entries that are not stored count as zero. *)
Definition sparse_min (n : nat) (row : list (nat * Z)) : Z :=
  let vals := map snd row ++ (if (length row <? n)%nat then [0] else []) in
  match vals with [] => 0 | v :: r => fold_left Z.min r v end.

(** pointcloud.py 353-381: the loop over the remaining blocks; infinite distances are [None]. *)
Fixpoint scan (X : list P) (md : option Z) (min_added : Z) (sub : list nat) (blocks : list (list nat)) : result (list nat) :=
  match blocks with
  | [] => Ok sub
  | b :: rest =>
      bind (brute_call eu inv Euclidean md (points_at X sub) (Some (points_at X b))) (fun D =>
      match D with
      | Dense _ => Err AttributeError
      | Sparse n rows =>
          let ge v := match md with Some c => c <=? v | None => false end in
          let mask := map (fun row => (length row =? 0)%nat || ge (sparse_min n row)) rows in
          let sub' := sub ++ mask_select mask b in
          if Z.of_nat (length (mask_select mask b)) <=? min_added then Ok sub' else scan X md min_added sub' rest
      end)
  end.

(** pointcloud.py 299-387 [pcm_subsample]; [md]: the argument min_distance, [cut]: the cut-off of the
    point cloud (infinite: [None]); result: the points and their indices. *)
Definition pcm_subsample (perm : nat -> list nat) (X : list P) (cut : option Z) (n_samples : Z)
    (md : option (option Z)) (min_added : Z) : result (list P * list nat) :=
  let md := match md with Some m => m | None => option_map (fun c => c * 2) cut end in
  let N := length X in
  if n_samples =? 0 then Err ZeroDivisionError
  else if Z.of_nat N / n_samples + 1 <=? 0 then Err ValueError
  else match array_split (Z.to_nat (Z.of_nat N / n_samples + 1)) (perm N) with
       | [] => Err IndexError
       | first :: rest => bind (scan X md min_added first rest) (fun S => Ok (points_at X S, S))
       end.

(** pointcloud.py 390-421 [pcm_remove_outlier] for an integer [kmin], with distance.py 909-927 (rdist is
    not installed): a finite cut-off selects the kd-tree.  Result: the points kept and the indices of the
    points removed. *)
Definition pcm_remove_outlier (X : list P) (kmin : Z) (cut_off : option Z) : result (list P * list nat) :=
  if kmin <=? 0 then Err ValueError
  else bind (match cut_off with
             | None => brute_call eu inv SqEuclidean None X None
             | Some c => if c =? 0 then brute_call eu inv SqEuclidean None X None
                         else snd (tree_call eu knn SqEuclidean (Some c) None None X None)
             end) (fun D =>
  let mask := match D with
              | Sparse _ rows => map (fun row => kmin <=? Z.of_nat (length row)) rows
              | Dense rows => map (fun row => kmin <=? Z.of_nat (length (filter (fun d => 0 <? d) row))) rows
              end in
  Ok (mask_select mask X, mask_select (map negb mask) (seq 0 (length X)))).

(** general.py 581-621 [random_subsample] for an integer [n_samples]. *)
Definition random_subsample (perm : nat -> list nat) (X : list P) (n_samples : Z) : result (list P * list nat) :=
  if (n_samples <? 1) || (Z.of_nat (length X) - 1 <? n_samples) then Err ValueError
  else let idx := firstn (Z.to_nat n_samples) (perm (length X)) in Ok (points_at X idx, idx).

End Model.
