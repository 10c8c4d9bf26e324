(** * Theorems: linear quadratic regulator (C88). *)

From mathcomp Require Import all_ssreflect all_algebra.
From Verif Require Import MpcModel LqrModel LqrSpec LqrProofs.
Import Order.Theory GRing.Theory Num.Theory.
Set Implicit Arguments.
Unset Strict Implicit.
Unset Printing Implicit Defensive.
Local Open Scope ring_scope.

(** For every horizon, every initial state and every target that is an equilibrium, no
    sequence of inputs has a lower cost than the feedback; the costs are those handed to
    the constructor, with the solution of the Riccati equation as terminal cost. *)
Theorem C88_optimal :
  forall (R : realFieldType) n m (A : 'M[R]_n) (B : 'M[R]_(n, m)) solve (crun cin : cost_t R) (F : 'M[R]_(m, n)),
  RiccatiSolver A B solve -> lqr_setup A B solve crun cin = Some F ->
  exists (q : 'rV[R]_n) (r : 'rV[R]_m) (P : 'M[R]_n),
  [/\ cost_to_array n crun = Some q, cost_to_array m cin = Some r, Psd P &
    forall (xs x0 : 'cV[R]_n), A *m xs = xs ->
    let fb := feedback F xs in
    let ufb k := fb (closed A B fb x0 k) in
    let J := running A B (diag_mx q) (diag_mx r) xs x0 in
    forall N,
    J ufb N + quad P (closed A B fb x0 N - xs) = quad P (x0 - xs) /\
    forall u : nat -> 'cV[R]_m,
    J ufb N + quad P (closed A B fb x0 N - xs) <= J u N + quad P (state A B x0 u N - xs)].
Proof.
move=> R n m A B solve crun cin F HS.
rewrite /lqr_setup /lqr_cost; case Eq: (cost_to_array n crun) => [q|] //; case Er: (cost_to_array m cin) => [r|] //.
case EP: (solve A B (diag_mx q) (diag_mx r)) => [P|] //; case: ifP => // Su [EF].
have [HP HPsd] := HS _ _ _ EP; exists q, r, P; split; [done|done|done|] => xs x0 Es.
pose fb := feedback F xs; pose ufb k := fb (closed A B fb x0 k); pose J := running A B (diag_mx q) (diag_mx r) xs x0.
change (forall N, J ufb N + quad P (closed A B fb x0 N - xs) = quad P (x0 - xs) /\
  forall u : nat -> 'cV[R]_m, J ufb N + quad P (closed A B fb x0 N - xs) <= J u N + quad P (state A B x0 u N - xs)) => N.
have Rs : (diag_mx r)^T = diag_mx r by rewrite tr_diag_mx.
have sq u : J u N + quad P (state A B x0 u N - xs) =
  quad P (x0 - xs) + \sum_(k < N) quad (diag_mx r + B^T *m P *m B) (u k + F *m (state A B x0 u k - xs)).
  rewrite /J running_shift // state_shift // (square Rs HP) EF; congr (_ + _).
  by apply: eq_bigr => k _; rewrite state_shift.
have E : J ufb N + quad P (closed A B fb x0 N - xs) = quad P (x0 - xs).
  rewrite closed_state -[fun k => _]/ufb sq big1 ?addr0 // => k _.
  have -> : ufb k + F *m (state A B x0 ufb k - xs) = 0.
    by rewrite /ufb -closed_state /fb /feedback mulNmx addNr.
  by rewrite /quad trmx0 mul0mx mul0mx mxE.
split=> // u; rewrite E sq ler_addl; apply: sumr_ge0 => k _.
by apply: psd_add; [apply/psd_diag/(cost_ge0 Er)|apply: psd_congr].
Qed.
Print Assumptions C88_optimal.

(** The accumulated cost of the feedback never exceeds a value that only depends on the
    initial state, however long the system runs. *)
Theorem C88_bounded :
  forall (R : realFieldType) n m (A : 'M[R]_n) (B : 'M[R]_(n, m)) solve (crun cin : cost_t R) (F : 'M[R]_(m, n)),
  RiccatiSolver A B solve -> lqr_setup A B solve crun cin = Some F ->
  exists (q : 'rV[R]_n) (r : 'rV[R]_m) (P : 'M[R]_n),
  [/\ cost_to_array n crun = Some q, cost_to_array m cin = Some r &
    forall (xs x0 : 'cV[R]_n), A *m xs = xs ->
    let fb := feedback F xs in
    forall N, running A B (diag_mx q) (diag_mx r) xs x0 (fun k => fb (closed A B fb x0 k)) N <= quad P (x0 - xs)].
Proof.
move=> R n m A B solve crun cin F HS HF.
have [q [r [P [Eq Er HP HO]]]] := C88_optimal HS HF; exists q, r, P; split; [done|done|] => xs x0 Es.
move=> fb N.
by have [<- _] := HO xs x0 Es N; rewrite ler_addl.
Qed.
Print Assumptions C88_bounded.

(** What [control_sequence] returns is that feedback, if there is one control input
    and one sample; in all other cases it fails, for every gain, state and target. *)
Theorem C88_control :
  forall (R : realFieldType) n (F : 'M[R]_(1, n)) (x xs : 'cV[R]_n),
  lqr_control F x^T xs^T = Some (feedback F xs x).
Proof.
move=> R n F x xs; rewrite /lqr_control /feedback /=; congr (Some (_ *m _)).
by apply/matrixP => i j; rewrite !mxE ord1.
Qed.
Print Assumptions C88_control.

Theorem C88_inputs_refuted :
  forall (R : realFieldType) n m T (F : 'M[R]_(m, n)) (Z : 'M[R]_(T, n)) (target : 'rV[R]_n),
  (m <> 1 \/ T <> 1)%N -> lqr_control F Z target = None.
Proof.
move=> R n m T F Z target H; rewrite /lqr_control; case: ifP => // /andP [/eqP Em /eqP ET].
by exfalso; case: H; apply=> //; rewrite ET.
Qed.
Print Assumptions C88_inputs_refuted.

(** A target that is not an equilibrium of the model is not even kept if it is the
    initial state. *)
Theorem C88_equilibrium_refuted :
  forall (R : realFieldType) n m (A : 'M[R]_n) (B : 'M[R]_(n, m)) (F : 'M[R]_(m, n)) (xs : 'cV[R]_n),
  A *m xs <> xs -> closed A B (feedback F xs) xs 1 <> xs.
Proof. by move=> R n m A B F xs H; rewrite /= /feedback subrr mulmx0 mulmx0 addr0. Qed.
Print Assumptions C88_equilibrium_refuted.

(** Example: the integrator [x+ = x + u] with running cost 1/2 and input cost 1: the
    solution of the Riccati equation is 1 and the gain 1/2. *)
Definition ex88_solve (A : 'M[rat]_1) (B : 'M[rat]_(1, 1)) (Q Rc : 'M[rat]_1) : option 'M[rat]_1 :=
  if (Q == (2^-1)%:M) && (Rc == 1%:M) then Some 1%:M else None.

Lemma ex88_two : (1%:M + 1%:M^T *m 1%:M *m 1%:M : 'M[rat]_1) = 2%:R%:M.
Proof. by rewrite trmx1 !mul1mx -raddfD. Qed.

Lemma ex88_unit : (1%:M + 1%:M^T *m 1%:M *m 1%:M : 'M[rat]_1) \in unitmx.
Proof. by rewrite ex88_two unitmxE det_scalar expr1 unitfE. Qed.

Lemma ex88_inv : invmx (2%:R%:M : 'M[rat]_1) = (2%:R^-1)%:M.
Proof. by rewrite invmx_scalar. Qed.

Lemma ex88_solver : RiccatiSolver (1%:M : 'M[rat]_1) 1%:M ex88_solve.
Proof.
move=> Q Rc P; rewrite /ex88_solve; case: ifP => // /andP [/eqP -> /eqP ->] [<-]; split.
- split; [by rewrite trmx1|exact: ex88_unit|].
  rewrite ex88_two ex88_inv !trmx1 !mul1mx !mulmx1 -raddfB -raddfD /=; exact: congr1.
- by move=> x; rewrite /quad mulmx1 mxE; apply: sumr_ge0 => j _; rewrite mxE -expr2 sqr_ge0.
Qed.

Example C88_example :
  lqr_setup (1%:M : 'M[rat]_1) 1%:M ex88_solve (CScalar (2^-1)) (CScalar 1) = Some (2^-1)%:M.
Proof.
rewrite /lqr_setup /lqr_cost /=.
have H1 : diag_mx (const_mx 1 : 'rV[rat]_1) = 1%:M by rewrite diag_const_mx.
have H2 : diag_mx (const_mx (2^-1) : 'rV[rat]_1) = (2^-1)%:M by rewrite diag_const_mx.
by rewrite H1 H2 /ex88_solve !eqxx /= ex88_unit ex88_two ex88_inv trmx1 !mulmx1.
Qed.
