(** * Evolving a linear system: arguments, batches of initial conditions, result (proof-free).

    Source: datafold/dynfold/dynsystem.py (cited as dynsystem.py), datafold/utils/general.py
    201-205 and 376-430.

    Arrays are functions of their indices together with the shape.  The scalars are an
    arbitrary type with addition and multiplication; taking the real part is the identity
    (real systems).  The exponential and the fractional power of a matrix and of a scalar are
    parameters. *)

From Coq Require Import List ZArith Bool Arith.
From Verif Require Import Np TscModel SysModel.
Import ListNotations.

Section Evo.
Context {R : Type}.
Variables (zero : R) (add mul : R -> R -> R).

Record arr2 := Arr2 { nrow : nat; ncol : nat; at2 : nat -> nat -> R }.
Record arr3 := Arr3 { dim0 : nat; dim1 : nat; dim2 : nat; at3 : nat -> nat -> nat -> R }.

(** Oracles: dynsystem.py 41 [expm (A * t)], 191 [fractional_matrix_power A (t / dt)],
    136 [exp (lambda * t)], 233 [float_power lambda (t / dt)], 96-124 the numerical solution of
    the affine system for one initial condition and its control (as list of states). *)
Variables (mexp : arr2 -> Z -> arr2) (mpow : arr2 -> Z -> Z -> arr2)
          (sexp : R -> Z -> R) (spow : R -> Z -> Z -> R)
          (affine : (nat -> R) -> (nat -> nat -> R) -> list Z -> result (list (list R))).

Definition sum_to (n : nat) (f : nat -> R) : R :=
  fold_left add (map f (seq 0 n)) zero.

(** numpy [@] for two matrices with matching inner dimension. *)
Definition matmul (A B : arr2) : arr2 :=
  Arr2 (nrow A) (ncol B) (fun i j => sum_to (ncol A) (fun k => mul (at2 A i k) (at2 B k j))).

(** general.py 376-430 [diagmat_dot_mat]: [diag[:, newaxis] * matrix]. *)
Definition diagmat_dot_mat (d : nat -> R) (A : arr2) : arr2 :=
  Arr2 (nrow A) (ncol A) (fun i j => mul (d i) (at2 A i j)).

Definition mat_add (A B : arr2) : arr2 :=
  Arr2 (nrow A) (ncol A) (fun i j => add (at2 A i j) (at2 B i j)).

(** ** arguments *)

Inductive ic_arg := ICScalar (a : R) | IC1 (n : nat) (v : nat -> R) | IC2 (M : arr2) | ICnd.
Inductive ctrl_arg := UNone | U1 (n : nat) (v : nat -> R) | U2 (M : arr2) | U3 (T : arr3).
Inductive time_arg := TVScalar (t : Z) | TV1 (l : list Z) | TVnd.
Inductive delta_arg := DNone | DOther | DScalar (d : Z).
Inductive over_arg := OvNone | OvMat (M : arr2) | OvOther.

(** Attributes after the set-up (dynsystem.py 780-894): the system matrix or the right
    eigenvectors; eigenvalues and left eigenvectors in spectral mode; control matrix, None if
    not given. *)
Record sysdat := SysDat {
  y_matrix : arr2; y_neig : nat; y_eig : nat -> R; y_left : arr2; y_control : option arr2 }.

(** dynsystem.py 471-484 [_set_sys_matrix]. *)
Definition set_sys_matrix (D : sysdat) (o : over_arg) : result arr2 :=
  match o with
  | OvNone => Ok (y_matrix D)
  | OvMat M => Ok M
  | OvOther => Err ValueError
  end.

(** dynsystem.py 523-547 [_check_initial_condition]. *)
Definition check_initial_condition (x : ic_arg) (state_length : nat) : result arr2 :=
  match x with
  | ICnd => Err ValueError
  | _ =>
      let M := match x with
               | ICScalar a => Arr2 1 1 (fun _ _ => a)
               | IC1 n v => Arr2 n 1 (fun i _ => v i)
               | IC2 M => M
               | ICnd => Arr2 0 0 (fun _ _ => zero)
               end in
      if negb (nrow M =? state_length)%nat then Err ValueError else Ok M
  end.

(** dynsystem.py 549-571 [_check_time_values] (numeric time values). *)
Definition check_time_values (t : time_arg) : result (list Z) :=
  match t with
  | TVScalar t => Ok [t]
  | TV1 l => Ok l
  | TVnd => Err ValueError
  end.

(** dynsystem.py 486-521 [_check_control_input]; [req_last] is the class attribute
    [_requires_last_control_state].  None has no attribute [ndim]. *)
Definition check_control_input (D : sysdat) (req_last : bool) (u : ctrl_arg) (n_times n_ic : nat)
  : result arr3 :=
  match (match u with
         | UNone => None
         | U1 n v => Some (Arr3 1 n 1 (fun _ k _ => v k))
         | U2 M => Some (Arr3 1 (nrow M) (ncol M) (fun _ k i => at2 M k i))
         | U3 T => Some T
         end) with
  | None => Err AttributeError
  | Some T =>
      if negb (dim0 T =? n_ic)%nat then Err ValueError
      else match y_control D with
      | None => Err ValueError
      | Some B =>
          if negb (dim1 T + (if req_last then 0 else 1) =? n_times)%nat then Err ValueError
          else if negb (dim2 T =? ncol B)%nat then Err ValueError
          else Ok T
      end
  end.

(** dynsystem.py 573-596 [_check_time_delta]. *)
Definition check_time_delta (c : config) (d : delta_arg) : result (option Z) :=
  if stype_eqb (c_type c) TDifferential then Ok None
  else match d with
  | DScalar d => if (d <=? 0)%Z then Err ValueError else Ok (Some d)
  | _ => Err TypeError
  end.

(** ** solvers: all initial conditions (columns) at once *)

(** The tensor [time_series_tensor[series, time, feature]] as one matrix (features x series)
    per time value. *)
Definition slices := list arr2.

Definition square (A : arr2) : bool := (nrow A =? ncol A)%nat.

(** dynsystem.py 24-43, 173-196: [expm] and [fractional_matrix_power] require a square matrix. *)
Definition solve_matrix (A X : arr2) (f : arr2 -> Z -> arr2) (ts : list Z) : result slices :=
  match ts with
  | [] => Ok []
  | _ => if square A then Ok (map (fun t => matmul (f A t) X) ts) else Err ValueError
  end.

(** dynsystem.py 131-139, 227-238; different numbers of eigenvalues and rows are rejected
    (broadcasting of a single eigenvalue is not modelled). *)
Definition solve_spectral (D : sysdat) (S X : arr2) (f : R -> Z -> R) (ts : list Z) : result slices :=
  match ts with
  | [] => Ok []
  | _ => if (y_neig D =? nrow X)%nat
         then Ok (map (fun t => matmul S (diagmat_dot_mat (fun i => f (y_eig D i) t) X)) ts)
         else Err ValueError
  end.

(** control_input[:, idx, :].T *)
Definition control_slice (T : arr3) (idx : nat) : arr2 :=
  Arr2 (dim2 T) (dim0 T) (fun i j => at3 T j idx i).

(** dynsystem.py 263-293, 313-326: the loop over the time steps. *)
Fixpoint control_steps (A B : arr2) (T : arr3) (X : arr2) (idx n : nat) : slices :=
  match n with
  | O => [X]
  | S n' => X :: control_steps A B T
                   (mat_add (matmul A X) (matmul B (control_slice T idx))) (idx + 1) n'
  end.

(** dynsystem.py 240-295; the shapes that numpy would broadcast (a single row) are rejected
    here. *)
Definition solve_matrix_controlled (A B : arr2) (T : arr3) (X : arr2) (ts : list Z)
  : result slices :=
  match ts with
  | [] => Err IndexError
  | _ => if negb (square A) || negb (nrow B =? nrow A)%nat then Err ValueError
         else Ok (control_steps A B T X 0 (length ts - 1))
  end.

(** dynsystem.py 297-326. *)
Definition solve_spectral_controlled (D : sysdat) (S B : arr2) (T : arr3) (X : arr2) (ts : list Z)
  : result slices :=
  match ts with
  | [] => Err IndexError
  | _ =>
      let A := matmul S (diagmat_dot_mat (y_eig D) (y_left D)) in
      if negb (square A) || negb (nrow B =? nrow A)%nat
         || negb (nrow (y_left D) =? y_neig D)%nat || negb (ncol S =? y_neig D)%nat
      then Err ValueError
      else Ok (control_steps A B T (matmul S X) 0 (length ts - 1))
  end.

(** One time series of the tensor: the states of column [j]. *)
Definition series_of (n_features : nat) (sl : slices) (j : nat) : list (list R) :=
  map (fun M => map (fun i => at2 M i j) (seq 0 n_features)) sl.

(** dynsystem.py 975-997 (from the call of [_evolve_system_states]); the tensor has
    [X.shape[1]] series. *)
Definition evolve_states (D : sysdat) (s : strategy) (S X : arr2) (T : option arr3)
    (ts : list Z) (d : option Z) : result (list (list (list R))) :=
  let tensor sl := map (series_of (nrow S) sl) (seq 0 (ncol X)) in
  let dt := match d with Some d => d | None => 1%Z end in
  match s with
  | differential_matrix => bind (solve_matrix S X mexp ts) (fun sl => Ok (tensor sl))
  | flowmap_matrix => bind (solve_matrix S X (fun A t => mpow A t dt) ts) (fun sl => Ok (tensor sl))
  | differential_spectral => bind (solve_spectral D S X sexp ts) (fun sl => Ok (tensor sl))
  | flowmap_spectral => bind (solve_spectral D S X (fun l t => spow l t dt) ts) (fun sl => Ok (tensor sl))
  | flowmap_matrix_controlled =>
      match T, y_control D with
      | Some T, Some B => bind (solve_matrix_controlled S B T X ts) (fun sl => Ok (tensor sl))
      | _, _ => Err TypeError
      end
  | flowmap_spectral_controlled =>
      match T, y_control D with
      | Some T, Some B => bind (solve_spectral_controlled D S B T X ts) (fun sl => Ok (tensor sl))
      | _, _ => Err TypeError
      end
  | differential_matrix_controlled_affine =>
      match T with
      | Some T => map_result (fun j => affine (fun i => at2 X i j) (fun k i => at3 T j k i) ts) (seq 0 (ncol X))
      | None => Err TypeError
      end
  | differential_matrix_controlled => Err TypeError
  end.

(** dynsystem.py 598-649 [_set_and_check_system_params] and 896-997 [evolve_system].
    [names] is the number of feature names, None: not given. *)
Definition evolve (c : config) (req_last : bool) (D : sysdat) (x : ic_arg) (tv : time_arg)
    (u : ctrl_arg) (o : over_arg) (d : delta_arg) (oi : option (list Z)) (names : option nat)
  : result (list (row (list R))) :=
  bind (new_system c) (fun s =>
  bind (set_sys_matrix D o) (fun S =>
  let n_features := nrow S in
  let state_length := ncol S in
  bind (check_initial_condition x state_length) (fun X =>
  bind (check_time_values tv) (fun ts =>
  bind (if c_controlled c
        then bind (check_control_input D req_last u (length ts) (ncol X)) (fun T => Ok (Some T))
        else Ok None) (fun T =>
  bind (check_time_delta c d) (fun dt =>
  let ids := match oi with None => np_arange (ncol X) | Some l => l end in
  let n_names := match names with None => state_length | Some n => n end in
  if negb (n_names =? n_features)%nat then Err ValueError
  else bind (evolve_states D s S X T ts dt) (fun tensor =>
  from_tensor tensor (length ts) (Some ids) (Some ts)))))))).

End Evo.
Arguments arr2 R : clear implicits.
Arguments arr3 R : clear implicits.
Arguments ic_arg R : clear implicits.
Arguments ctrl_arg R : clear implicits.
Arguments over_arg R : clear implicits.
Arguments sysdat R : clear implicits.
