(** * Proofs for C56. *)

From mathcomp Require Import all_ssreflect all_algebra.
From Verif Require Import FieldTac LinModel LinSpec LinProofs KoopModel KoopSpec.
Import Order.Theory GRing.Theory Num.Theory.
Set Implicit Arguments.
Unset Strict Implicit.
Unset Printing Implicit Defensive.
Local Open Scope ring_scope.

Section Field.
Variable F : fieldType.

Lemma branches_agree (lstsq : lstsq_t F) (re : F -> F) n p m (A V : 'M[F]_n) (d : 'rV[F]_n)
    (L : option 'M[F]_n) (B : 'M[F]_(n, p)) (X0 : 'M[F]_(n, m)) steps :
  solves_consistent lstsq -> V \in unitmx -> A *m V = V *m diag_mx d ->
  (forall L', L = Some L' -> L' *m V = 1%:M) ->
  (forall x y, re (x + y) = re x + re y) -> (forall i j x, re (B i j * x) = B i j * re x) ->
  edmd_predict_modes lstsq re V d L B X0 steps = edmd_predict_matrix re A B X0 steps.
Proof.
move=> Hl HV HA HL Hadd Hre; rewrite /edmd_predict_modes /koopman_modes.
rewrite (@predict_spectral_modes _ lstsq re _ _ _ A) //.
rewrite /edmd_predict_matrix /predict_matrix /flowmap_matrix -map_comp; apply: eq_map => k /=.
rewrite mxpow_trajectory trmx_mul trmxK; apply/matrixP => i j; rewrite !mxE.
have re0 : re 0 = 0 by apply: (addrI (re 0)); rewrite -Hadd !addr0.
rewrite (big_morph re Hadd re0); apply: eq_bigr => l _.
by rewrite !mxE Hre.
Qed.

Lemma koopman_iter (T : Type) n (f : T -> T) (psi : T -> 'cV[F]_n) (K : 'M[F]_n) x k :
  KoopmanInvariant f psi K -> trajectory K (psi x) k = psi (iter k f x).
Proof. by move=> H; elim: k => //= k ->; rewrite H. Qed.
End Field.

Section Real.
Variable R : realFieldType.

Lemma inverse_map_exact (lstsq : lstsq_t R) (T : Type) s n p (psi : T -> 'cV[R]_n) (h : T -> 'cV[R]_p)
    (C : 'M[R]_(p, n)) (ys : 'I_s -> T) :
  solves_consistent lstsq -> Reconstructs psi h C -> spanning (samples psi ys) ->
  inverse_map lstsq (samples psi ys) (samples h ys) = C^T.
Proof.
move=> Hl HC HS.
have E : samples psi ys *m C^T = samples h ys.
  by apply/matrixP => i j; rewrite !mxE HC mxE; apply: eq_bigr => l _; rewrite !mxE mulrC.
have H := Hl _ _ _ _ _ _ E; apply/eqP; rewrite -subr_eq0; apply/eqP.
by apply: (spanning_inj HS); rewrite mulmxBr H E subrr.
Qed.

Lemma edmd_exact (lstsq : lstsq_t R) (T : Type) s s' n p N (f : T -> T) (psi : T -> 'cV[R]_n) (h : T -> 'cV[R]_p)
    (K : 'M[R]_n) (C : 'M[R]_(p, n)) (xs : 'I_s -> T) (ys : 'I_s' -> T) x0 steps :
  solves_consistent lstsq -> (0 < N)%N -> KoopmanInvariant f psi K -> Reconstructs psi h C ->
  spanning (samples psi xs) -> spanning (samples psi ys) ->
  let A := full_system_matrix lstsq N None (samples psi xs) (samples psi (f \o xs)) in
  let B := inverse_map lstsq (samples psi ys) (samples h ys) in
  A = K /\ B = C^T /\
  edmd_predict_matrix id A B (psi x0) steps = [seq h (iter k f x0) | k <- steps].
Proof.
move=> Hl HN HK HC HX HY A B.
have EA : A = K.
  rewrite /A; apply: full_system_recovers => //=; first by move=> i; rewrite mxE invr_gt0 ltr0n.
  by move=> i j; rewrite !mxE /= HK mxE; apply: eq_bigr => l _; rewrite mxE.
have EB : B = C^T by exact: inverse_map_exact.
split=> //; split=> //; rewrite EA EB /edmd_predict_matrix /predict_matrix /flowmap_matrix -map_comp.
apply: eq_map => k /=; rewrite trmx_mul !trmxK mxpow_trajectory (koopman_iter _ _ HK) HC.
by congr (_ *m _); apply/matrixP => i j; rewrite mxE.
Qed.
End Real.

(** The system (x, y) -> (2x, 3y + x^2) with the dictionary x, y, x^2. *)
Section Example.
Let T := (rat * rat)%type.
Definition ex_f (z : T) : T := (2%:R * z.1, 3%:R * z.2 + z.1 ^+ 2).
Definition ex_psi (z : T) : 'cV[rat]_3 := \col_i nth 0 [:: z.1; z.2; z.1 ^+ 2] i.
Definition ex_h (z : T) : 'cV[rat]_2 := \col_i nth 0 [:: z.1; z.2] i.
Definition ex_x (i : 'I_3) : T := nth (0, 0) [:: (1, 0); (0, 1); (2%:R, 0)] i.

Lemma ex_ok : exists K C, KoopmanInvariant ex_f ex_psi K /\ Reconstructs ex_psi ex_h C /\
  spanning (samples ex_psi ex_x).
Proof.
exists (\matrix_(i, j) nth 0 (nth [::] [:: [:: 2%:R; 0; 0]; [:: 0; 3%:R; 1]; [:: 0; 0; 4%:R]] i) j).
exists (\matrix_(i, j) nth 0 (nth [::] [:: [:: 1; 0; 0]; [:: 0; 1; 0]] i) j).
split; last split.
- move=> [x y]; apply/matrixP => i j; rewrite !mxE !big_ord_recl big_ord0 !mxE /=.
  case: i => [[|[|[|//]]] Hi] /=; rewrite ?mul0r ?mul1r ?addr0 ?add0r //.
  by rewrite exprMn; congr (_ * _).
- move=> [x y]; apply/matrixP => i j; rewrite !mxE !big_ord_recl big_ord0 !mxE /=.
  by case: i => [[|[|//]] Hi] /=; rewrite ?mul0r ?mul1r ?addr0 ?add0r.
- move=> v Hv.
  have E i : samples ex_psi ex_x i 0 * v 0 0 + samples ex_psi ex_x i 1 * v 1 0
             + samples ex_psi ex_x i (inord 2) * v (inord 2) 0 = 0.
    rewrite -(Hv i) !big_ord_recl big_ord0 addr0 addrA; set M := samples _ _.
    congr (_ + M i _ * v _ 0 + M i _ * v _ 0); by apply/val_inj; rewrite /= ?inordK.
  have X2 : ex_x (inord 2) = (2%:R, 0) by rewrite /ex_x inordK.
  have := E 0; have := E 1; have := E (inord 2); rewrite !mxE /= X2 !inordK //= expr1n expr0n !mul0r !mul1r !add0r !addr0.
  move=> H2 H1 H0.
  have H3 : 2%:R * v (inord 2) 0 = 0.
    have -> : 2%:R * v (inord 2) 0 = (2%:R * v 0 0 + 2%:R ^+ 2 * v (inord 2) 0) - 2%:R * (v 0 0 + v (inord 2) 0).
      by rewrite mulrDr opprD addrACA subrr add0r -mulrBl; congr (_ * _).
    by rewrite H2 H0 mulr0 subr0.
  have H4 : v (inord 2) 0 = 0 by move/eqP: H3; rewrite mulf_eq0 => /orP[//|/eqP].
  have H5 : v 0 0 = 0 by move: H0; rewrite H4 addr0.
  apply/matrixP => i j; rewrite [j]ord1 mxE; case: i => [[|[|[|//]]] Hi].
  + by rewrite -[RHS]H5; congr (v _ _); apply/val_inj.
  + by rewrite -[RHS]H1; congr (v _ _); apply/val_inj.
  + by rewrite -[RHS]H4; congr (v _ _); apply/val_inj; rewrite /= inordK.
Qed.
End Example.
