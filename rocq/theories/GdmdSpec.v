(** * Specification vocabulary for generators identified from sampled time series. *)

From Coq Require Import List ZArith.
From mathcomp Require Import all_ssreflect all_algebra.
From Verif Require Import Np TscModel DerSpec.
Import Order.Theory GRing.Theory Num.Theory.
Set Implicit Arguments.
Unset Strict Implicit.
Unset Printing Implicit Defensive.
Local Open Scope ring_scope.

Section Spec.
Variables (R : realFieldType) (n : nat).
Notation frame := (list (row 'rV[R]_n)).

(** All samples of the stencil around time [t - m * d] exist in series [i]: the derivative is
    stored at time [t]. *)
Definition Used (stencil : seq (Z * R)) (m d : Z) (F : frame) (i t : Z) : Prop :=
  forall p, List.In p stencil -> exists v, List.In (mkRow i (Z.add t (Z.mul (Z.sub p.1 m) d)) v) F.

(** The states at the used samples span the state space. *)
Definition SpanningSamples (stencil : seq (Z * R)) (m d : Z) (F : frame) : Prop :=
  forall v : 'cV[R]_n,
    (forall i t x, Used stencil m d F i t -> List.In (mkRow i t x) F -> \sum_k x 0 k * v k 0 = 0) -> v = 0.

(** Consecutive samples follow x(t + d) = M x(t). *)
Definition SampledSystem (d : Z) (M : 'M[R]_n) (F : frame) : Prop :=
  forall i t v w, List.In (mkRow i t v) F -> List.In (mkRow i (Z.add t d) w) F ->
    forall j, w 0 j = \sum_k M j k * v 0 k.

(** A trajectory for all past and future steps. *)
Definition TwoSided (M : 'M[R]_n) (x : Z -> 'cV[R]_n) : Prop :=
  forall z, x (Z.add z (Zpos 1)) = M *m x z.

(** Every series consists of samples of a solution of x' = A x that is a polynomial of degree at
    most [deg] in time. *)
Definition PolynomialSolutions (unit : R) (deg : nat) (A : 'M[R]_n) (F : frame) : Prop :=
  forall i, exists P : 'I_n -> {poly R},
    [/\ forall j, (size (P j) <= deg.+1)%N,
        forall j, (P j)^`() = \sum_k A j k *: P k &
        forall t v, List.In (mkRow i t v) F -> forall j, v 0 j = (P j).[unit * number R t]].

(** Sum of the squared errors of the derivatives [xdot = L x] over given pairs. *)
Definition derivative_error (pairs : seq ('rV[R]_n * 'rV[R]_n)) (L : 'M[R]_n) : R :=
  \sum_(p <- pairs) \sum_j (p.2 0 j - \sum_k L j k * p.1 0 k) ^+ 2.

(** If a derivative is stored for a time value in one series, then in every series that has a
    sample at this time. *)
Definition CommonTimes (stencil : seq (Z * R)) (d : Z) (F : frame) : Prop :=
  forall r i, List.In r F -> Used stencil Z0 d F i (rtime r) -> Used stencil Z0 d F (rid r) (rtime r).

(** ** Control input *)

Variable q : nat.

(** The same for the system x' = A x + sum_c u_c B_c x, at the times of the samples. *)
Definition PolynomialControlled (unit : R) (deg : nat) (A : 'M[R]_n) (B : 'I_q -> 'M[R]_n) (F : frame)
  (U : list (row 'rV[R]_q)) : Prop :=
  forall i, exists P : 'I_n -> {poly R},
    [/\ forall j, (size (P j) <= deg.+1)%N,
        forall t v, List.In (mkRow i t v) F -> forall j, v 0 j = (P j).[unit * number R t] &
        forall t u, List.In (mkRow i t u) U -> forall j,
          ((P j)^`()).[unit * number R t]
          = \sum_k A j k * (P k).[unit * number R t] + \sum_c u 0 c * \sum_k B c j k * (P k).[unit * number R t]].

(** The states and the products of control input and state at the used samples determine a
    control-affine system. *)
Definition SpanningControlled (stencil : seq (Z * R)) (d : Z) (F : frame) (U : list (row 'rV[R]_q)) : Prop :=
  forall (v : 'cV[R]_n) (W : 'M[R]_(q, n)),
    (forall i t x u, Used stencil Z0 d F i t -> List.In (mkRow i t x) F -> List.In (mkRow i t u) U ->
       \sum_k x 0 k * v k 0 + \sum_c \sum_k u 0 c * x 0 k * W c k = 0) -> v = 0 /\ W = 0.

End Spec.
