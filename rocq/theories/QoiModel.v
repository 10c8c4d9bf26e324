(** * Selection of features by name in predictions of EDMD, and sorting of eigenpairs
      (proof-free).

    Source: datafold/utils/general.py 215-334 (general.py), datafold/appfold/edmd.py
    774-866 (edmd.py), datafold/dynfold/base.py 738-760 (base.py).

    Feature names are integers.  The data of a feature (a row of the Koopman modes, a
    column of the time series) is of any type: the code moves it as a whole. *)

From Coq Require Import List ZArith Bool Arith.
From Verif Require Import Np.
Import ListNotations.
Open Scope Z_scope.

Section Qoi.
Context {D : Type}.

Definition zmem (x : Z) (l : list Z) : bool := existsb (Z.eqb x) l.

(** general.py 239: [np.where(np.isin(features_all, features_select))[0]]. *)
Definition project_indices (all select : list Z) : list nat :=
  map fst (filter (fun p => zmem (snd p) select) (enumerate all)).

Definition take_idx {A : Type} (idx : list nat) (l : list A) : list A :=
  flat_map (fun i => match nth_error l i with Some x => [x] | None => [] end) idx.

(** general.py 215-249 and edmd.py 815-819: [project_matrix.T @ koopman_modes]; row [j]
    of the product with the 0/1 matrix is the row [project_indices[j]] of the modes. *)
Definition project_rows (all select : list Z) (rows : list D) : result (list D) :=
  let idx := project_indices all select in
  if negb (length idx =? length select)%nat then Err ValueError
  else Ok (take_idx idx rows).

(** base.py 738-760 [_validate_qois]. *)
Definition validate_qois (qois all : list Z) : result (list Z) :=
  if forallb (fun x => zmem x all) qois then Ok qois else Err ValueError.

(** edmd.py 796-832: prediction with modes; the rows of the projected modes become the
    columns named [feature_columns] (= qois). *)
Definition predict_modes (all : list Z) (qois : option (list Z)) (rows : list D)
  : result (list (Z * D)) :=
  match qois with
  | None => Ok (combine all rows)
  | Some q => bind (validate_qois q all) (fun q =>
              bind (project_rows all q rows) (fun r => Ok (combine q r)))
  end.

(** [DataFrame.loc[:, names]] of a frame with unique columns. *)
Fixpoint loc_columns (frame : list (Z * D)) (names : list Z) : result (list (Z * D)) :=
  match names with
  | [] => Ok []
  | x :: r => match find (fun p => fst p =? x) frame with
              | Some p => bind (loc_columns frame r) (fun l => Ok (p :: l))
              | None => Err KeyError
              end
  end.

(** edmd.py 833-866: the other two cases, [loc[:, feature_columns]]. *)
Definition predict_loc (all : list Z) (qois : option (list Z)) (cols : list D)
  : result (list (Z * D)) :=
  match qois with
  | None => loc_columns (combine all cols) all
  | Some q => bind (validate_qois q all) (fun q => loc_columns (combine all cols) q)
  end.

End Qoi.

(** ** general.py 252-334 [sort_eigenpairs] *)

Section Sort.
Context {K D E : Type}.
(** [np.argsort]: an oracle, see QoiSpec.v. *)
Variable argsort : list K -> list nat.

Definition sort_eigenpairs (values : list K) (right : list D) (left : option (list E)) (ascending : bool)
  : result (list K * list D * option (list E)) :=
  if negb (length values =? length right)%nat then Err ValueError
  else if match left with
          | Some l => negb (length values =? length l)%nat
          | None => false
          end then Err ValueError
  else
    let idx := argsort values in
    let idx := if ascending then idx else rev idx in
    Ok (take_idx idx values, take_idx idx right,
        match left with Some l => Some (take_idx idx l) | None => None end).

End Sort.
