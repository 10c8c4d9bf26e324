(** * Cone kernel (proof-free).

    Source: datafold/pcfold/kernels.py (kernels.py).  Real numbers for floats; states and
    velocities are lists of coordinates.  The velocities (the finite differences of
    [_approx_dynflow], 2190-2200) are inputs: a sample is a state with its velocity. *)

From Coq Require Import Reals List.
Import ListNotations.
Local Open Scope R_scope.

Definition vec := list R.

(** [np.dot] / [scipy.linalg.norm]. *)
Fixpoint dot (x y : vec) : R :=
  match x, y with
  | a :: x', b :: y' => a * b + dot x' y'
  | _, _ => 0
  end.
Definition norm (x : vec) : R := sqrt (dot x x).

(** [np.subtract]. *)
Fixpoint sub (x y : vec) : vec :=
  match x, y with
  | a :: x', b :: y' => (a - b) :: sub x' y'
  | _, _ => []
  end.

(** A row of X.loc[timederiv.index] and of timederiv. *)
Record sample := Sample { state : vec; velocity : vec }.

(** kernels.py 2050-2098: [check_scalar] of zeta in [0, 1) and epsilon >= 0. *)
Record cone := Cone { zeta : R; epsilon : R }.
Definition valid_cone (c : cone) : Prop := 0 <= zeta c < 1 /\ 0 <= epsilon c.

Definition dup_threshold : R := / 10 ^ 14.

(** kernels.py 2130-2180 [_compute_distance_and_cosinus_matrix]: the entry of one pair; [y] is
    the row (query), [x] the column. *)
Definition distance_entry (y x : sample) : R := norm (sub (state x) (state y)).

Definition cos_entry (c : cone) (y x : sample) : R :=
  let diff := sub (state x) (state y) in
  let denominator := norm (velocity y) * distance_entry y x in
  let cosv := if Rle_dec denominator dup_threshold then 0 else dot (velocity y) diff / denominator in
  1 - zeta c * (cos cosv) ^ 2.

(** kernels.py 58-185 [_symmetric_matrix_division] with value_zero_division=0: one entry. *)
Definition division_entry (m vl vr scalar : R) : R :=
  (if Req_EM_T vl 0 then 0 else if Req_EM_T vr 0 then 0 else / vl * m * / vr) * / scalar.

(** kernels.py 2240-2262 (pairwise) and 2276-2318 (component-wise; there the two cosine
    matrices are computed separately, which gives the same entries): the root of the product of
    the two angular factors. *)
Definition angular_factor (c : cone) (y x : sample) : R :=
  if Req_EM_T (zeta c) 0 then 1 else sqrt (cos_entry c y x * cos_entry c x y).

(** kernels.py 2262 [remove_numeric_noise_symmetric_matrix] for the pairwise evaluation. *)
Definition factor_pdist (c : cone) (dt : R) (y x : sample) : R :=
  let scalar := dt ^ 2 * epsilon c in
  let e a b := (if Req_EM_T (norm (velocity a)) 0 then 0
                else if Req_EM_T (norm (velocity b)) 0 then 0
                else / norm (velocity a) * angular_factor c a b * / norm (velocity b)) in
  (e y x + e x y) / 2 * / scalar.

Definition factor_cdist (c : cone) (dt : R) (y x : sample) : R :=
  division_entry (angular_factor c y x) (norm (velocity y)) (norm (velocity x)) (dt ^ 2 * epsilon c).

(** kernels.py 2320-2326: [exp(-1.0 * D * factor_matrix)]. *)
Definition kernel_pdist (c : cone) (dt : R) (X : list sample) : list (list R) :=
  map (fun y => map (fun x => exp (- 1 * distance_entry y x ^ 2 * factor_pdist c dt y x)) X) X.

Definition kernel_cdist (c : cone) (dt : R) (X Y : list sample) : list (list R) :=
  map (fun y => map (fun x => exp (- 1 * distance_entry y x ^ 2 * factor_cdist c dt y x)) X) Y.

(** kernels.py 2318: [assert np.isfinite(factor_matrix).all()] fails for epsilon = 0. *)
Definition evaluate_pdist (c : cone) (dt : R) (X : list sample) : option (list (list R)) :=
  if Req_EM_T (dt ^ 2 * epsilon c) 0 then None else Some (kernel_pdist c dt X).
Definition evaluate_cdist (c : cone) (dt : R) (X Y : list sample) : option (list (list R)) :=
  if Req_EM_T (dt ^ 2 * epsilon c) 0 then None else Some (kernel_cdist c dt X Y).
