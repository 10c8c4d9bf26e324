(** * What the documentation of the cone kernel promises. *)

From Coq Require Import Reals List.
From Verif Require Import ConeModel.
Import ListNotations.
Local Open Scope R_scope.

(** The cosine of the angle between the velocity of [y] and the displacement from [y] to [x]. *)
Definition cos_angle (y x : sample) : R :=
  dot (velocity y) (sub (state x) (state y)) / (norm (velocity y) * norm (sub (state x) (state y))).

(** The documented kernel (kernels.py 1962-1972) of a pair. *)
Definition documented (c : cone) (dt : R) (y x : sample) : R :=
  exp (- (norm (sub (state x) (state y)) ^ 2 /
          (epsilon c * dt ^ 2 * norm (velocity y) * norm (velocity x)) *
          sqrt ((1 - zeta c * cos_angle y x ^ 2) * (1 - zeta c * cos_angle x y ^ 2)))).

(** Entry (i, j) of a list matrix. *)
Definition entry (K : list (list R)) (i j : nat) : R := nth j (nth i K []) 0.

(** All samples have the same number of coordinates. *)
Definition same_dim (d : nat) (X : list sample) : Prop :=
  forall s, In s X -> length (state s) = d /\ length (velocity s) = d.

(** A pair the code does not treat as duplicates. *)
Definition apart (y x : sample) : Prop :=
  dup_threshold < norm (velocity y) * norm (sub (state x) (state y)) /\
  dup_threshold < norm (velocity x) * norm (sub (state y) (state x)).
