(** * Specification of the evolution of a linear system for several initial conditions. *)

From Coq Require Import List ZArith Bool Arith.
From Verif Require Import Np TscModel EvoModel.
Import ListNotations.

Section Spec.
Context {R : Type}.
Variables (zero : R) (add mul : R -> R -> R).

(** Matrix times vector, vectors as functions of the index. *)
Definition mv (A : arr2 R) (x : nat -> R) (i : nat) : R :=
  fold_left add (map (fun k => mul (at2 A i k) (x k)) (seq 0 (ncol A))) zero.

(** The initial conditions of an argument: how many, and the j-th one. *)
Definition n_initial (x : ic_arg R) : nat := match x with IC2 M => ncol M | _ => 1 end.
Definition initial (x : ic_arg R) (j : nat) : nat -> R :=
  match x with
  | ICScalar a => fun _ => a
  | IC1 _ v => v
  | IC2 M => fun i => at2 M i j
  | ICnd => fun _ => zero
  end.
Definition state_dim (x : ic_arg R) (n : nat) : Prop :=
  match x with
  | ICScalar _ => n = 1%nat
  | IC1 m _ => m = n
  | IC2 M => nrow M = n
  | ICnd => False
  end.

(** The controls of an argument: the number of series, of time steps, of features, and the
    k-th state of the j-th control. *)
Definition control_shape (u : ctrl_arg R) (a b q : nat) : Prop :=
  match u with
  | UNone => False
  | U1 n _ => a = 1%nat /\ b = n /\ q = 1%nat
  | U2 M => a = 1%nat /\ b = nrow M /\ q = ncol M
  | U3 T => a = dim0 T /\ b = dim1 T /\ q = dim2 T
  end.
Definition control (u : ctrl_arg R) (j k : nat) : nat -> R :=
  match u with
  | UNone => fun _ => zero
  | U1 _ v => fun _ => v k
  | U2 M => fun i => at2 M k i
  | U3 T => fun i => at3 T j k i
  end.

Definition times_given (tv : time_arg) (ts : list Z) : Prop :=
  tv = TV1 ts \/ exists t, tv = TVScalar t /\ ts = [t].

(** x_0 = x and x_{k+1} = A x_k + B u_k *)
Fixpoint trajectory (A B : arr2 R) (u : nat -> nat -> R) (x : nat -> R) (k : nat) (i : nat) : R :=
  match k with
  | O => x i
  | S k' => add (mv A (trajectory A B u x k') i) (mv B (u k') i)
  end.

(** [F] holds exactly the series [ids], in series number [j] and at the b-th time the first [n]
    entries of the state [st j b]. *)
Definition Holds (F : list (row (list R))) (ids ts : list Z) (n : nat)
    (st : nat -> nat -> nat -> R) : Prop :=
  forall r, In r F <->
    exists j b, nth_error ids j = Some (rid r) /\ nth_error ts b = Some (rtime r) /\
                rval r = map (st j b) (seq 0 n).

(** IDs and number of feature names; [d] is the number of default names. *)
Definition ids_given (oi : option (list Z)) (m : nat) : list Z :=
  match oi with None => map Z.of_nat (seq 0 m) | Some l => l end.
Definition names_given (o : option nat) (d : nat) : nat :=
  match o with None => d | Some n => n end.

Definition GoodIds (ids : list Z) (m : nat) : Prop :=
  length ids = m /\ NoDup ids /\ forall i, In i ids -> (0 <= i)%Z.
Definition GoodTimes (ts : list Z) : Prop :=
  ts <> [] /\ NoDup ts /\ forall t, In t ts -> (0 <= t)%Z.

End Spec.
