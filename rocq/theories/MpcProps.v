(** * Model predictive control: the theorems of C25 and C26. *)

From mathcomp Require Import all_ssreflect all_algebra.
Import Order.Theory GRing.Theory Num.Theory.
From Verif Require Import LinSpec MpcModel MpcSpec MpcProofs.
Set Implicit Arguments.
Unset Strict Implicit.
Unset Printing Implicit Defensive.
Local Open Scope ring_scope.

(** The condensed matrices stack the outputs y_1, ..., y_N of the controlled system. *)
Theorem C25_condensed_matrices (R : realFieldType) (n q m N : nat)
    (A : 'M[R]_n) (B : 'M[R]_(n, m)) (C : 'M[R]_(q, n)) (z0 : 'cV[R]_n) (U : 'M[R]_(N, m))
    (i : 'I_N) (j : 'I_q) :
  (evolution_A N A C *m z0 + evolution_B N A B C *m (mxvec U)^T) (mxvec_index i j) 0
  = output A B C z0 U i.+1 j 0.
Proof. exact: evolution. Qed.
Print Assumptions C25_condensed_matrices.

(** For valid cost parameters there is a quadratic program, its objective is the tracking
    cost up to a constant, and its constraints are the bounds on states and inputs. *)
Theorem C26_quadratic_program (R : realFieldType) (n q m N : nat)
    (A : 'M[R]_n) (B : 'M[R]_(n, m)) (C : 'M[R]_(q, n))
    (running : cost_t R) (terminal : option (cost_t R)) (input : cost_t R)
    (state_bounds : option 'M[R]_(q, 2)) (input_bounds : option 'M[R]_(m, 2))
    (z0 : 'cV[R]_n) (reference : 'M[R]_(N, q)) :
  valid_cost q running -> valid_cost m input -> (forall t, terminal = Some t -> valid_cost q t) ->
  exists p, control_qp A B C running terminal input state_bounds input_bounds z0 reference = Some p
    /\ forall U : 'M[R]_(N, m),
       let J := tracking_cost A B C (cost_vector q running) (terminal_vector q running terminal)
                              (cost_vector m input) z0 reference in
       qp_objective p (mxvec U)^T = J U - J 0
       /\ (qp_feasible p (mxvec U)^T <-> respects_bounds A B C state_bounds input_bounds z0 U).
Proof.
move=> Hr Hi Ht.
have [p Hp] : exists p, control_qp A B C running terminal input state_bounds input_bounds z0 reference = Some p.
  by eexists; rewrite /control_qp cost_matricesE.
exists p; split=> // U J; split; [exact: (objective Hr Hi Ht Hp)|exact: (feasible Hp)].
Qed.
Print Assumptions C26_quadratic_program.

(** Hence a solution of the quadratic program, read as a sequence of inputs, is optimal. *)
Theorem C26_optimal_sequence (R : realFieldType) (n q m N : nat)
    (A : 'M[R]_n) (B : 'M[R]_(n, m)) (C : 'M[R]_(q, n))
    (running : cost_t R) (terminal : option (cost_t R)) (input : cost_t R)
    (state_bounds : option 'M[R]_(q, 2)) (input_bounds : option 'M[R]_(m, 2))
    (z0 : 'cV[R]_n) (reference : 'M[R]_(N, q)) p u :
  valid_cost q running -> valid_cost m input -> (forall t, terminal = Some t -> valid_cost q t) ->
  control_qp A B C running terminal input state_bounds input_bounds z0 reference = Some p ->
  qp_solution p u ->
  let J := tracking_cost A B C (cost_vector q running) (terminal_vector q running terminal)
                         (cost_vector m input) z0 reference in
  respects_bounds A B C state_bounds input_bounds z0 (control_sequence u)
  /\ forall U, respects_bounds A B C state_bounds input_bounds z0 U -> J (control_sequence u) <= J U.
Proof.
move=> Hr Hi Ht Hp [Hf Ho] J.
have Eu : u = (mxvec (control_sequence u))^T by rewrite vec_mxK trmxK.
split; first by apply/(feasible Hp); rewrite -Eu.
move=> U /(feasible Hp) HU; have := Ho _ HU.
by rewrite {1}Eu !(objective Hr Hi Ht Hp) ler_add2r.
Qed.
Print Assumptions C26_optimal_sequence.

(** Invalid running or input costs are rejected. *)
Theorem C26_invalid_costs_rejected (R : realFieldType) (n q m N : nat)
    (A : 'M[R]_n) (B : 'M[R]_(n, m)) (C : 'M[R]_(q, n))
    (running : cost_t R) (terminal : option (cost_t R)) (input : cost_t R)
    (state_bounds : option 'M[R]_(q, 2)) (input_bounds : option 'M[R]_(m, 2))
    (z0 : 'cV[R]_n) (reference : 'M[R]_(N, q)) :
  ~~ valid_cost q running || ~~ valid_cost m input ->
  control_qp A B C running terminal input state_bounds input_bounds z0 reference = None.
Proof.
move=> H; rewrite /control_qp /cost_matrices.
have E k (c : cost_t R) : ~~ valid_cost k c -> cost_to_array k c = None.
  case: c=> [x|v] /=; first by rewrite -ltNge=> ->.
  rewrite negb_and; case: eqP=> //= _; rewrite -has_predC => Hh; rewrite (eq_has (a2 := predC (fun x => 0 <= x))) ?Hh //.
  by move=> x /=; rewrite ltNge.
by case/orP: H=> /E -> //; case: (cost_to_array q _)=> // ?; case: (cost_to_array q _).
Qed.
Print Assumptions C26_invalid_costs_rejected.

(** The documentation of KMPC describes the bounds as rows [max, min].  With bounds given
    in this order no input sequence is feasible. *)
Theorem C26_documented_bounds_refuted (R : realFieldType) (n q m N : nat)
    (A : 'M[R]_n) (B : 'M[R]_(n, m)) (C : 'M[R]_(q, n))
    (running : cost_t R) (terminal : option (cost_t R)) (input : cost_t R)
    (state_bounds : option 'M[R]_(q, 2)) (umax umin : 'cV[R]_m)
    (z0 : 'cV[R]_n) (reference : 'M[R]_(N, q)) p (k : 'I_N) (j : 'I_m) :
  umin j 0 < umax j 0 ->
  control_qp A B C running terminal input state_bounds (Some (row_mx umax umin)) z0 reference = Some p ->
  forall u, ~ qp_feasible p u.
Proof.
move=> Hlt Hp u Hf.
have Eu : u = (mxvec (vec_mx u^T))^T by rewrite vec_mxK trmxK.
rewrite Eu in Hf; have [_ /(_ _ erefl k j)] := proj1 (feasible Hp _) Hf.
have -> : (0 : 'I_2) = @lshift 1 1 0 by apply: val_inj.
have -> : (1 : 'I_2) = @rshift 1 1 0 by apply: val_inj.
rewrite (row_mxEl umax) (row_mxEr umax) => /andP [H1 H2].
by have := le_lt_trans (le_trans H1 H2) Hlt; rewrite ltxx.
Qed.
Print Assumptions C26_documented_bounds_refuted.

(** z_{k+1} = 2 z_k + u_k, horizon 2, running cost 1, terminal cost 3, input cost 1,
    z_0 = 1, reference 0: the inputs (-2, 0) steer to 0 at cost 4. *)
Example C26_example :
  let A : 'M[rat]_1 := 2%:R%:M in let B : 'M[rat]_1 := 1%:M in let C : 'M[rat]_1 := 1%:M in
  let U : 'M[rat]_(2, 1) := \matrix_(i, j) if i == 0 then - 2%:R else 0 in
  let z0 : 'cV[rat]_1 := 1%:M in
  valid_cost 1%N (CScalar (1 : rat)) /\ valid_cost 1%N (CVector [:: 3%:R : rat])
  /\ output A B C z0 U 1%N 0 0 = 0 /\ output A B C z0 U 2%N 0 0 = 0
  /\ tracking_cost A B C (cost_vector 1%N (CScalar 1)) (terminal_vector 1%N (CScalar 1) (Some (CVector [:: 3%:R])))
       (cost_vector 1%N (CScalar 1)) z0 0 U = 4%:R
  /\ tracking_cost A B C (cost_vector 1%N (CScalar 1)) (terminal_vector 1%N (CScalar 1) (Some (CVector [:: 3%:R])))
       (cost_vector 1%N (CScalar 1)) z0 0 (0 : 'M_(2, 1)) = 52%:R.
Proof.
move=> A B C U z0.
have i0 W : input_at (W : 'M[rat]_(2, 1)) 0%N = (row 0 W)^T.
  by rewrite /input_at; case: insubP=> // i _ Hi; congr (row _ _)^T; apply: val_inj.
have i1 W : input_at (W : 'M[rat]_(2, 1)) 1%N = (row 1 W)^T.
  by rewrite /input_at; case: insubP=> // i _ Hi; congr (row _ _)^T; apply: val_inj.
have o1 : output A B C z0 U 1%N 0 0 = 0 by rewrite /output /= i0 !(mxE, big_ord1) /=.
have o2 : output A B C z0 U 2%N 0 0 = 0 by rewrite /output /= i0 i1 !(mxE, big_ord1) /=.
have p1 : output A B C z0 (0 : 'M_(2, 1)) 1%N 0 0 = 2%:R by rewrite /output /= i0 !(mxE, big_ord1) /=.
have p2 : output A B C z0 (0 : 'M_(2, 1)) 2%N 0 0 = 4%:R by rewrite /output /= i0 i1 !(mxE, big_ord1) /=.
have Et : terminal_vector 1%N (CScalar 1) (Some (CVector [:: 3%:R])) = const_mx (3%:R : rat).
  rewrite /terminal_vector /=; case: eqP=> [/rowP /(_ 0)|_]; first by rewrite !mxE.
  by apply/rowP=> j; rewrite !mxE !ord1.
rewrite /tracking_cost !big_ord_recl !big_ord0 Et /= o1.
do 4 split=> //.
split; rewrite ?o2 ?p1 ?p2 !mxE; by apply/eqP; vm_compute.
Qed.
