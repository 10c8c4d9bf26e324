(** * Linear dynamical systems: specification for C28 and C29. *)

From Coq Require Import List ZArith.
From Verif Require Import Np SysModel.
Import ListNotations.

(** A trajectory of the controlled discrete system x' = f(x, u): it starts at [x0], has
    one state per time value, and every next state is obtained from its predecessor and
    the control state of that step. *)
Definition Trajectory {X W : Type} (f : X -> W -> X) (x0 : X) (us : list W) (n : nat) (xs : list X)
  : Prop :=
  length xs = n /\ nth_error xs 0 = Some x0 /\
  (forall i x u y, nth_error xs i = Some x -> nth_error us i = Some u ->
     nth_error xs (S i) = Some y -> y = f x u).

(** Configurations for which datafold has a solver that can be selected. *)
Definition Supported (c : config) : Prop :=
  c_invariant c = true /\
  (   (c_type c = TDifferential /\ c_mode c = MMatrix)
   \/ (c_type c = TDifferential /\ c_mode c = MSpectral /\ c_controlled c = false)
   \/ (c_type c = TFlowmap /\ (c_mode c = MMatrix \/ c_mode c = MSpectral)
       /\ (c_controlled c = true -> c_affine c = false))).

Section Setup.
Context {P : Type}.

(** Arguments of the matrix set-up that fit together: a matrix, and a control matrix with
    the same number of rows, or a control tensor whose first two dimensions are those of
    the matrix, or no control matrix. *)
Definition ValidMatrix (c : config) (A B : arg P) : Prop :=
  exists r k p, A = AArray [r; k] p /\
  match c_controlled c, c_affine c with
  | true, false => exists q b, B = AArray [r; q] b
  | true, true => exists q b, B = AArray [r; k; q] b
  | false, _ => B = ANone
  end.

(** One eigenvalue per column of the right eigenvectors, at least one. *)
Definition ValidSpectral (V E : arg P) : Prop :=
  exists r k v e, V = AArray [r; S k] v /\ E = AArray [S k] e.

(** Position [i] holds the last spectral set-up with valid arguments. *)
Definition LastValidSpectral (ks : list (call P)) (i : nat) (V E L B : arg P) : Prop :=
  nth_error ks i = Some (CallSpectral V E L B) /\ ValidSpectral V E /\
  (forall j V' E' L' B', (i < j)%nat -> nth_error ks j = Some (CallSpectral V' E' L' B') ->
     ~ ValidSpectral V' E').

End Setup.
