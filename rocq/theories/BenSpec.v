(** * Specification of the benchmark systems. *)

From Coq Require Import Reals List Arith.
From Coquelicot Require Import Coquelicot.
Import ListNotations.
Local Open Scope R_scope.

(** (x, y) has the polar coordinates (r, a). *)
Definition Polar (x y r a : R) : Prop := x = r * cos a /\ y = r * sin a /\ 0 <= r.

(** [(y1, y2)] is a solution of the system with right hand side [f]. *)
Definition Solves (f : R * R -> R * R) (y1 y2 : R -> R) : Prop :=
  forall t, is_derive y1 t (fst (f (y1 t, y2 t))) /\ is_derive y2 t (snd (f (y1 t, y2 t))).

(** Angles that differ by full turns. *)
Definition SameAngle (a b : R) : Prop := exists k : Z, a = b + 2 * PI * IZR k.

(** Neighbours on a ring of [n] nodes. *)
Definition next (n i : nat) : nat := if (S i =? n)%nat then 0 else S i.
Definition prev (n i : nat) : nat := match i with O => n - 1 | S j => j end.

Definition total (l : list R) : R := fold_right Rplus 0 l.

(** Mechanical energy of a mass [m] at a rod of length [l]: kinetic energy, and height above the
    lowest point. *)
Definition mech_energy (m l g theta omega : R) : R :=
  m * (l * omega) ^ 2 / 2 + m * g * (l * (1 - cos theta)).

(** The function [g] at the nodes 0, 2 pi / (n - 1), ..., 2 pi. *)
Definition samples (g : R -> R) (n : nat) : list R :=
  map (fun i => g (INR i * (2 * PI / (INR n - 1)))) (seq 0 n).
