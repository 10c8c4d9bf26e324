(** * Radial basis kernels (proof-free).

    Source: datafold/pcfold/kernels.py (kernels.py), datafold/pcfold/distance.py (distance.py).
    Real numbers for floats (no nan and no infinities, except where a comment says so). *)

From Coq Require Import Reals List Arith.
From Verif Require Import Np.
Import ListNotations.
Local Open Scope R_scope.

Definition point := list R.

(** A matrix: an array, or a csr_matrix whose rows are lists of (column, stored value). *)
Inductive matrix := Dense (rows : list (list R)) | Sparse (ncols : nat) (rows : list (list (nat * R))).

(** ** Distances *)

Inductive metric := Euclidean | SqEuclidean | OtherMetric.

(** scipy.spatial.distance: one pair. *)
Fixpoint sq_euclidean (x y : point) : R :=
  match x, y with
  | a :: x', b :: y' => (a - b) * (a - b) + sq_euclidean x' y'
  | _, _ => 0
  end.
Definition mdist (m : metric) (x y : point) : R :=
  match m with SqEuclidean => sq_euclidean x y | _ => sqrt (sq_euclidean x y) end.

(** distance.py 517-527: [squareform(pdist(X))]; 530-539: [cdist(Y, X)]. *)
Definition pdist (m : metric) (X : list point) : list (list R) :=
  map (fun i => map (fun j =>
    if (i <? j)%nat then mdist m (nth i X []) (nth j X [])
    else if (j <? i)%nat then mdist m (nth j X []) (nth i X []) else 0) (seq 0 (length X))) (seq 0 (length X)).
Definition cdist (m : metric) (X Y : list point) : list (list R) :=
  map (fun y => map (fun x => mdist m x y) X) Y.

(** distance.py 147-168 [_validate_cut_off]: given in the Euclidean metric. *)
Definition cut_value (m : metric) (c : R) : R := match m with SqEuclidean => c * c | _ => c end.

(** distance.py 541-548: only distances below the cut-off are stored, zeros included (see DistModel
    for the steps). *)
Definition csr_row (cut : R) (row : list R) : list (nat * R) :=
  filter (fun p => if Rlt_dec (snd p) cut then true else false) (combine (seq 0 (length row)) row).

(** distance.py 492-549 [BruteForceDist.__call__]; a missing or infinite cut-off is [None]. *)
Definition distance (m : metric) (cut_off : option R) (X : list point) (Y : option (list point)) : matrix :=
  let D := match Y with None => pdist m X | Some Y => cdist m X Y end in
  match cut_off with
  | None => Dense D
  | Some c => Sparse (length X) (map (csr_row (cut_value m c)) D)
  end.

(** ** The constructor *)

(** kernels.py 689-712: the argument [distance]; of a dictionary only the key "metric" matters. *)
Inductive dist_arg := NoDist | Algorithm (m : metric) | Dict (m : option metric).

Definition metric_eqb (a b : metric) : bool :=
  match a, b with
  | Euclidean, Euclidean | SqEuclidean, SqEuclidean | OtherMetric, OtherMetric => true
  | _, _ => false
  end.

(** kernels.py 689-712 [RadialBasisKernel.__init__]: the argument after the call (a dictionary is
    modified) and the metric of the kernel. *)
Definition radial_init (required : metric) (arg : dist_arg) : dist_arg * result metric :=
  match arg with
  | NoDist => (NoDist, Ok required)
  | Algorithm m => (arg, if metric_eqb m required then Ok m else Err ValueError)
  | Dict o =>
      let popped := Dict None in
      match o with
      | None => (Dict (Some required), Ok required)
      | Some m => if metric_eqb m required then (Dict (Some required), Ok required) else (popped, Err ValueError)
      end
  end.

(** ** Evaluation *)

Inductive kernel_name := Gaussian | Multiquadric | InvMultiquadric | InvQuadratic | Thinplate | Cubic | Quintic.

(** kernels.py 786, 850, 897, 944, 976, 999, 1029. *)
Definition required_metric (k : kernel_name) : metric :=
  match k with
  | Gaussian | Multiquadric | InvMultiquadric | InvQuadratic => SqEuclidean
  | Thinplate | Cubic | Quintic => Euclidean
  end.

(** kernels.py 821-825, 870-874, 917-921, 965-969, 981-984, 1020, 1050: the expressions.  D**2 * log(D)
    is nan for D = 0, and nan is replaced with 0. *)
Definition kernel_value (k : kernel_name) (eps D : R) : R :=
  match k with
  | Gaussian => exp ((- 1 / (2 * eps)) * D)
  | Multiquadric => sqrt (1 / (2 * eps) * D + 1)
  | InvMultiquadric => 1 / sqrt (1 / (2 * eps) * D + 1)
  | InvQuadratic => 1 / (1 / (2 * eps) * D + 1)
  | Thinplate => if Req_EM_T D 0 then 0 else D ^ 2 * ln D
  | Cubic => D ^ 3
  | Quintic => D ^ 5
  end.

(** kernels.py 43-55 [_apply_kernel_function_numexpr]: the stored values of a sparse matrix. *)
Definition apply_kernel (f : R -> R) (D : matrix) : matrix :=
  match D with
  | Dense rows => Dense (map (map f) rows)
  | Sparse n rows => Sparse n (map (map (fun p => (fst p, f (snd p)))) rows)
  end.

(** kernels.py 781-785: [epsilon] is a number or a function of the distance matrix (array) or of the
    stored distances. *)
Inductive eps_arg := ArgArray (rows : list (list R)) | ArgData (data : list R).
Inductive epsilon := Number (e : R) | Callable (f : eps_arg -> R).

Record kernel := Kernel { k_name : kernel_name; k_eps : epsilon }.

(** kernels.py 804-815 *)
Definition call_epsilon (f : eps_arg -> R) (D : matrix) : R :=
  match D with
  | Dense rows => f (ArgArray rows)
  | Sparse _ rows => f (ArgData (concat (map (map snd) rows)))
  end.

(** kernels.py 714-723 [_check_bandwidth_parameter]. *)
Definition check_bandwidth (e : epsilon) : result R :=
  match e with
  | Callable _ => Err TypeError
  | Number e => if Rlt_dec 0 e then Ok e else Err ValueError
  end.

(** kernels.py 787-827, 851-874, 898-921, 945-969, 978-985, 1003-1020, 1033-1050 [evaluate]: the
    kernel after the call and the result.  [np.isnan] does not support sparse matrices. *)
Definition evaluate (k : kernel) (D : matrix) : kernel * result matrix :=
  match k_name k with
  | Thinplate => (k, match D with Dense _ => Ok (apply_kernel (kernel_value Thinplate 1) D) | Sparse _ _ => Err TypeError end)
  | Cubic | Quintic => (k, Ok (apply_kernel (kernel_value (k_name k) 1) D))
  | name =>
      let eps := match name, k_eps k with
                 | Gaussian, Callable f => Number (call_epsilon f D)
                 | _, e => e
                 end in
      (Kernel name eps,
       match check_bandwidth eps with
       | Err e => Err e
       | Ok e => Ok (apply_kernel (kernel_value name e) D)
       end)
  end.

(** kernels.py 725-760 [RadialBasisKernel.__call__]; kernels.py 499-516 [_read_kernel_kwargs]: no
    keyword arguments are accepted. *)
Definition call (k : kernel) (cut_off : option R) (X : list point) (Y : option (list point)) (kwargs : list nat)
  : kernel * result matrix :=
  match kwargs with
  | [] => evaluate k (distance (required_metric (k_name k)) cut_off X Y)
  | _ => (k, Err KeyError)
  end.

(** A kernel object is used for several distance matrices, one after the other. *)
Fixpoint evaluate_all (k : kernel) (Ds : list matrix) : kernel * list (result matrix) :=
  match Ds with
  | [] => (k, [])
  | D :: Ds' =>
      let (k', r) := evaluate k D in
      let (k'', rs) := evaluate_all k' Ds' in (k'', r :: rs)
  end.
