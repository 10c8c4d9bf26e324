(** * Specification for C94. *)

From mathcomp Require Import all_ssreflect all_algebra.
Import Order.Theory GRing.Theory Num.Theory.
Set Implicit Arguments.
Unset Strict Implicit.
Unset Printing Implicit Defensive.
Local Open Scope ring_scope.

Section Spec.
Variable R : rcfType.

(** What is assumed of the numerical functions. *)
Definition ExpLaw (exp : R -> R) : Prop := exp 0 = 1 /\ forall x, 0 < exp x.
Definition PowLaw (pow : R -> R -> R) : Prop :=
  [/\ forall x b, 0 < x -> 0 < pow x b, forall x b, 1 <= x -> b <= 0 -> pow x b <= 1
    & forall b, pow 1 b = 1].

(** A matrix of squared distances of distinct points. *)
Definition Distances n (D : 'M[R]_n) : Prop :=
  [/\ forall i j, D i j = D j i, forall i, D i i = 0 & forall i j, i != j -> 0 < D i j].

(** [r] is the root mean square distance of the point [i] to its [k] nearest other points. *)
Definition NearestMean n (D : 'M[R]_n) (k : nat) (i : 'I_n) (r : R) : Prop :=
  exists s : seq 'I_n,
    [/\ uniq s /\ i \notin s, size s = minn k n.-1,
        forall l j, l \in s -> j \notin s -> j != i -> D i l <= D i j
      & r = Num.sqrt ((\sum_(l <- s) D i l) / (size s)%:R)].

(** [q] is, up to a constant factor, the kernel estimate of the sampling density with the
    bandwidth [r] in [d] dimensions. *)
Definition Density (exp : R -> R) (pow : R -> R -> R) (d : R) n (D : 'M[R]_n) (r q : 'I_n -> R) : Prop :=
  exists c, 0 < c /\
    forall i, q i = c / pow (r i) d * \sum_j exp (- (D i j / (2%:R * r i * r j))).

(** [rho] is proportional to [q ^ beta] and has mean one. *)
Definition Bandwidth (pow : R -> R -> R) (beta : R) n (q rho : 'I_n -> R) : Prop :=
  (exists c, 0 < c /\ forall i, rho i = c * pow (q i) beta) /\ \sum_i rho i = n%:R.

(** The kernel with the variable bandwidth [rho], divided by powers of its own density. *)
Definition VariableKernel (exp : R -> R) (pow : R -> R -> R) (eps d alpha : R) n (D : 'M[R]_n)
    (rho : 'I_n -> R) (K : 'M[R]_n) : Prop :=
  let k i j := exp (- (D i j / (4%:R * eps * rho i * rho j))) in
  let q i := (\sum_j k i j) / pow (rho i) d in
  forall i j, K i j = k i j / (pow (q i) alpha * pow (q j) alpha).

(** Some positive symmetric weights [K] and a bandwidth [rho] at every point. *)
Definition Weights n (K : 'M[R]_n) (rho : 'I_n -> R) : Prop :=
  [/\ forall i j, K i j = K j i, forall i j, 0 < K i j & forall i, 0 < rho i].

(** The generator of a diffusion with the weights [K] and the bandwidth [rho]: the mean of a
    function over the neighbours minus its value, relative to the squared bandwidth. *)
Definition Generator n (K : 'M[R]_n) (rho : 'I_n -> R) (G : 'M[R]_n) : Prop :=
  forall (v : 'cV[R]_n) i,
    (G *m v) i 0 = ((\sum_j K i j * v j 0) / (\sum_j K i j) - v i 0) / rho i ^+ 2.

End Spec.
