(** * Model of TSCRadialBasis (proof-free).

    Source: datafold/dynfold/transform.py (transform.py), datafold/pcfold/kernels.py (kernels.py),
    datafold/pcfold/distance.py (distance.py).

    Numbers are elements of a real field [R] (exact arithmetic); points have [d] features; a point
    cloud is a matrix with one point per row.  [None] is a raised exception.  Simplified: names and
    types of the frames (see TrModel.v) are left out; the kernel is dense (no cut-off) and uses the
    brute force distance. *)

From mathcomp Require Import all_ssreflect all_algebra.
From Verif Require Import LinModel.
Import GRing.Theory.
Set Implicit Arguments.
Unset Strict Implicit.
Unset Printing Implicit Defensive.
Local Open Scope ring_scope.

Section Model.
Variable R : realFieldType.
Variable d : nat.
(** the metric of the kernel and the function of the distance (kernels.py [evaluate]) *)
Variable dist : 'rV[R]_d -> 'rV[R]_d -> R.
Variable phi : R -> R.
(** [np.linalg.lstsq] *)
Variable lstsq : lstsq_t R.
(** [np.random.default_rng(1).choice(range(n), size=k, replace=False)] *)
Variable choice : forall n k : nat, (k <= n)%N -> 'I_k -> 'I_n.

Definition cloud := {n : nat & 'M[R]_(n, d)}.

(** kernels.py 721-760 [__call__] with two clouds; distance.py 530-539: one row per query point. *)
Definition kernel_xy n m (X : 'M[R]_(n, d)) (Y : 'M[R]_(m, d)) : 'M[R]_(m, n) :=
  \matrix_(i, j) phi (dist (row i Y) (row j X)).

(** kernels.py 721-760 [__call__] with one cloud; distance.py 517-527: [pdist] evaluates the pairs
    i < j only, [squareform] mirrors them and puts zeros on the diagonal. *)
Definition kernel_x n (X : 'M[R]_(n, d)) : 'M[R]_n :=
  \matrix_(i, j) phi (if (i < j)%N then dist (row i X) (row j X)
                      else if (j < i)%N then dist (row j X) (row i X) else 0).

Inductive center_type := AllData | Random (n_samples : nat) | FitParams | InitialCondition.

(** Training data: [initial] are the rows of the initial states if the data is a time series
    collection. *)
Record data := Data { nrows : nat; points : 'M[R]_(nrows, d); initial : option (seq 'I_nrows) }.

(** Centers passed in [fit_params] can have any number of features. *)
Definition given := {n : nat & {p : nat & 'M[R]_(n, p)}}.

(** The attributes of the object. *)
Record rbf := Rbf { centers_ : option cloud; inv_coeff_matrix_ : option cloud }.

Definition new_rbf : rbf := Rbf None None.

(** transform.py 1141-1218 [fit]; [inv_coeff_matrix_] is not touched. *)
Definition fit_centers (ct : center_type) (X : data) (centers : option given) : option cloud :=
  match ct with
  | AllData => if centers is Some _ then None else Some (Tagged (fun n => 'M[R]_(n, d)) (points X))
  | Random n_samples =>
      match @idP (n_samples <= nrows X)%N with
      | ReflectT H => Some (Tagged (fun n => 'M[R]_(n, d)) (\matrix_(i < n_samples) row (choice H i) (points X)))
      | ReflectF _ => None
      end
  | FitParams =>
      if centers is Some C then
        match @eqP _ (tag (tagged C)) d with
        | ReflectT H => Some (Tagged (fun n => 'M[R]_(n, d)) (castmx (erefl, H) (tagged (tagged C))))
        | ReflectF _ => None
        end
      else None
  | InitialCondition =>
      if initial X is Some s then
        Some (Tagged (fun n => 'M[R]_(n, d)) (\matrix_(i < size s) row (tnth (in_tuple s) i) (points X)))
      else None
  end.

Definition fit (ct : center_type) (st : rbf) (X : data) (centers : option given) : option rbf :=
  if fit_centers ct X centers is Some C then Some (Rbf (Some C) (inv_coeff_matrix_ st)) else None.

(** transform.py 1220-1243 [transform]. *)
Definition transform (st : rbf) m (Y : 'M[R]_(m, d)) : option {k : nat & 'M[R]_(m, k)} :=
  if centers_ st is Some C then Some (Tagged (fun k => 'M[R]_(m, k)) (kernel_xy (tagged C) Y)) else None.

(** transform.py 1245-1276 [fit_transform]. *)
Definition fit_transform (ct : center_type) (st : rbf) (X : data) (centers : option given)
  : option (rbf * {k : nat & 'M[R]_(nrows X, k)}) :=
  if fit ct st X centers is Some st' then
    match ct with
    | AllData => Some (st', Tagged (fun k => 'M[R]_(nrows X, k)) (kernel_x (points X)))
    | _ => if transform st' (points X) is Some W then Some (st', W) else None
    end
  else None.

(** transform.py 1278-1308 [inverse_transform]; base.py 284-306 checks the number of columns; the
    product fails if the sizes do not match. *)
Definition inverse_transform (st : rbf) m (W : {k : nat & 'M[R]_(m, k)}) : option (rbf * 'M[R]_(m, d)) :=
  if centers_ st is Some C then
    if tag W == tag C then
      let inv := if inv_coeff_matrix_ st is Some inv then inv
                 else Tagged (fun n => 'M[R]_(n, d)) (lstsq (kernel_x (tagged C)) (tagged C)) in
      match @eqP _ (tag W) (tag inv) with
      | ReflectT H => Some (Rbf (Some C) (Some inv), castmx (erefl, H) (tagged W) *m tagged inv)
      | ReflectF _ => None
      end
    else None
  else None.

End Model.
