(** * Theorems about prediction and score of interpolators (C110). *)

From Coq Require Import ZArith Lia.
From mathcomp Require Import all_ssreflect all_algebra.
From Verif Require Import Np ScoModel ScoSpec RingTac.
Import Order.Theory GRing.Theory Num.Theory.
Set Implicit Arguments.
Unset Strict Implicit.
Unset Printing Implicit Defensive.
Local Open Scope ring_scope.

Section Lemmas.
Variable R : rcfType.

Lemma insub_ord n (i : 'I_n) : insub (val i) = Some i.
Proof. by rewrite valK. Qed.

Lemma as_targets_squeeze m q (M : 'M[R]_(m, q)) : m <> 1%N -> (0 < m)%N -> (0 < q)%N -> as_targets q m (squeeze M) = Ok M.
Proof.
case: m M => [|[|m]] // M _ _; case: q M => [|[|q]] // M _; rewrite /= !eqxx /=; congr Ok; apply/matrixP => i j.
- by rewrite mxE insub_ord mxE (ord1 j).
- by rewrite mxE !insub_ord.
Qed.

Add Ring RRing : (rt_theory R).

Lemma root_of_average q (e : 'I_q -> R) : (0 < q)%N -> (forall j, 0 <= e j) ->
  - Num.sqrt (average e) <= - average (fun j => Num.sqrt (e j)) /\
  (- Num.sqrt (average e) = - average (fun j => Num.sqrt (e j)) <-> forall j l, e j = e l).
Proof.
move=> Hq H0.
have q0 : (q%:R : R) != 0 by rewrite pnatr_eq0 -lt0n.
have qp : 0 < (q%:R : R) by rewrite ltr0n.
pose r j := Num.sqrt (e j).
have rr j : r j ^+ 2 = e j by rewrite sqr_sqrtr.
pose a := average r.
have a0 : 0 <= a by apply: divr_ge0; rewrite ?ler0n //; apply: sumr_ge0 => j _; exact: sqrtr_ge0.
have Var : average e - a ^+ 2 = average (fun j => (r j - a) ^+ 2).
{ have Es : \sum_j r j = q%:R * a by rewrite mulrC /a /average divfK.
  rewrite /average; apply: (canRL (mulfK q0)); rewrite mulrBl divfK //.
  rewrite [RHS](eq_bigr (fun j => e j + (a ^+ 2 - 2%:R * a * r j))); last first.
  { by move=> j _; rewrite -rr; mring R. }
  rewrite big_split sumrB /= sumr_const card_ord -mulr_sumr Es -[a ^+ 2 *+ q]mulr_natr; congr (_ + _).
  by mring R. }
have V0 : 0 <= average (fun j => (r j - a) ^+ 2).
{ by apply: divr_ge0; rewrite ?ler0n //; apply: sumr_ge0 => j _; exact: sqr_ge0. }
have E0 : 0 <= average e by apply: divr_ge0; rewrite ?ler0n //; apply: sumr_ge0 => j _; exact: H0.
have Hle : a ^+ 2 <= average e by rewrite -subr_ge0 Var.
split.
{ rewrite ler_opp2 -/a -[a]ger0_norm // -sqrtr_sqr; exact: ler_wsqrtr. }
split=> [/oppr_inj E j l|H].
- have : average (fun j => (r j - a) ^+ 2) = 0.
  { by rewrite -Var /a -E sqr_sqrtr // subrr. }
  move/eqP; rewrite mulf_eq0 invr_eq0 (negbTE q0) orbF psumr_eq0; last by move=> ? _; exact: sqr_ge0.
  move=> /allP H; have F j' : r j' = a by move: (H j' (mem_index_enum j')) => /=; rewrite sqrf_eq0 subr_eq0 => /eqP.
  by rewrite -!rr !F.
- congr (- _); have [j0 _] : exists j : 'I_q, true by exists (Ordinal Hq).
  have Ee : average e = e j0.
  { rewrite /average (eq_bigr (fun _ => e j0)); last by move=> j _; exact: H.
    by rewrite sumr_const card_ord -[_ *+ q]mulr_natr mulfK. }
  rewrite Ee -/(r j0) /average (eq_bigr (fun _ => r j0)); last by move=> j _; rewrite /r (H j j0).
  by rewrite sumr_const card_ord -[_ *+ q]mulr_natr mulfK.
Qed.

Variables (p n q m : nat) (krow : 'rV[R]_p -> 'rV[R]_n) (aux : 'M[R]_(n, q)) (X : 'M[R]_(m, p)).

Lemma interpolatedE i j : interpolated krow aux X i j = value_at krow aux (row i X) j.
Proof. by rewrite !mxE; apply: eq_bigr => l _; rewrite mxE. Qed.

Lemma mseE (Y : 'M[R]_(m, q)) j : mean_squared_errors Y (interpolated krow aux X) 0 j = mse krow aux X Y j.
Proof. by rewrite mxE; congr (_ / _); apply: eq_bigr => i _; rewrite interpolatedE. Qed.

Lemma mse_ge0 (Y : 'M[R]_(m, q)) j : 0 <= mse krow aux X Y j.
Proof. by apply: divr_ge0; rewrite ?ler0n //; apply: sumr_ge0 => i _; exact: sqr_ge0. Qed.

Lemma mse_eq0 (Y : 'M[R]_(m, q)) j : (0 < m)%N -> mse krow aux X Y j = 0 <-> forall i, Y i j = value_at krow aux (row i X) j.
Proof.
move=> Hm; split=> [E i|H]; last by rewrite /mse big1 ?mul0r // => i _; rewrite H subrr expr0n.
move/eqP: E; rewrite mulf_eq0 invr_eq0 pnatr_eq0 eqn0Ngt Hm orbF psumr_eq0; last by move=> ? _; exact: sqr_ge0.
by move/allP => /(_ i (mem_index_enum i)) /=; rewrite sqrf_eq0 subr_eq0 => /eqP.
Qed.

End Lemmas.

(** C110: predictions of several points are those of the single points, whatever the other points;
    the documented shape (points, targets) is only returned if there are several of both. *)
Theorem C110_predict :
  forall (R : rcfType) p n q (krow : 'rV[R]_p -> 'rV[R]_n) (aux : 'M[R]_(n, q)) m (X : 'M[R]_(m, p)),
  (0 < m)%N -> (0 < q)%N ->
  (m <> 1%N -> exists P : 'M[R]_(m, q), as_targets q m (predict krow aux X) = Ok P /\ forall i j, P i j = value_at krow aux (row i X) j) /\
  (shape (predict krow aux X) = [:: m; q] <-> (1 < m)%N /\ (1 < q)%N) /\
  (forall (Eq : q = 1%N) (Nm : (1 < m)%N), predict krow aux X = A1 (\row_(i < m) value_at krow aux (row i X) (cast_ord (esym Eq) 0))) /\
  (forall (Em : m = 1%N) (Nq : (1 < q)%N), predict krow aux X = A1 (\row_(j < q) value_at krow aux (row (cast_ord (esym Em) 0) X) j)) /\
  (forall (Em : m = 1%N) (Eq : q = 1%N), predict krow aux X = A0 (value_at krow aux (row (cast_ord (esym Em) 0) X) (cast_ord (esym Eq) 0))).
Proof.
move=> R p n q krow aux m X Hm Hq; split; [|split; [|split; [|split]]].
- move=> N; exists (interpolated krow aux X); rewrite /predict as_targets_squeeze //; split=> // i j; exact: interpolatedE.
- case: m X Hm => [|[|m]] // X _; case: q aux Hq => [|[|q]] // aux _; by split=> [|[]].
- move=> Eq Nm; subst q; case: m X Hm Nm => [|[|m]] // X _ _; congr A1; apply/rowP => i; rewrite [LHS]mxE [RHS]mxE interpolatedE; congr value_at; exact: val_inj.
- move=> Em Nq; subst m; case: q aux Hq Nq => [|[|q]] // aux _ _; congr A1; apply/rowP => j; rewrite [LHS]mxE [RHS]mxE interpolatedE; congr (value_at _ _ (row _ X)); exact: val_inj.
- move=> Em Eq; subst m q; rewrite /predict /squeeze /= interpolatedE; congr (A0 (value_at _ _ (row _ X) _)); exact: val_inj.
Qed.
Print Assumptions C110_predict.

(** C110: with several points, the raw score of a target is minus the root of the mean squared error:
    never positive, and zero exactly if all values are met. *)
Theorem C110_raw_values :
  forall (R : rcfType) p n q (krow : 'rV[R]_p -> 'rV[R]_n) (aux : 'M[R]_(n, q)) m (X : 'M[R]_(m, p)) (Y : 'M[R]_(m, q)) w,
  (1 < m)%N -> (0 < q)%N ->
  exists v : 'I_q -> R,
  score krow aux RawValues X Y w = (if q == 1%N then Ok (Number q (average v)) else Ok (PerTarget (\row_j v j))) /\
  forall j, v j = - Num.sqrt (mse krow aux X Y j) /\ v j <= 0 /\
    (v j = 0 <-> forall i, Y i j = value_at krow aux (row i X) j).
Proof.
move=> R p n q krow aux m X Y w Hm Hq; exists (fun j => - Num.sqrt (mse krow aux X Y j)).
have Hm1 : m <> 1%N by move=> E; rewrite E in Hm.
have Hm0 : (0 < m)%N by exact: ltnW.
split.
- rewrite /score /predict as_targets_squeeze //=; case: eqP => E.
  + subst q; rewrite insubT /= /average big_ord1 divr1 mseE; congr (Ok (Number _ (- Num.sqrt (mse _ _ _ _ _)))); exact: val_inj.
  + by congr (Ok (PerTarget _)); apply/rowP => j; rewrite !mxE -mseE mxE.
- move=> j; split=> //; split; first by rewrite oppr_le0 sqrtr_ge0.
  rewrite -mse_eq0 //; split=> [/eqP|->]; last by rewrite sqrtr0 oppr0.
  by rewrite oppr_eq0 sqrtr_eq0 => H; apply/eqP; rewrite eq_le H mse_ge0.
Qed.
Print Assumptions C110_raw_values.

(** C110: the uniform score is minus the root of the average of the mean squared errors. It is at most
    the average of the raw scores, with equality exactly if all targets have the same error. *)
Theorem C110_uniform_average :
  forall (R : rcfType) p n q (krow : 'rV[R]_p -> 'rV[R]_n) (aux : 'M[R]_(n, q)) m (X : 'M[R]_(m, p)) (Y : 'M[R]_(m, q)) w,
  (1 < m)%N -> (0 < q)%N ->
  let u := - Num.sqrt (average (mse krow aux X Y)) in
  score krow aux UniformAverage X Y w = Ok (Number q u) /\
  u <= average (fun j => - Num.sqrt (mse krow aux X Y j)) /\
  (u = average (fun j => - Num.sqrt (mse krow aux X Y j)) <-> forall j l, mse krow aux X Y j = mse krow aux X Y l).
Proof.
move=> R p n q krow aux m X Y w Hm Hq u.
have Hm1 : m <> 1%N by move=> E; rewrite E in Hm.
have Hm0 : (0 < m)%N by exact: ltnW.
split.
{ rewrite /score /predict as_targets_squeeze //=; congr (Ok (Number _ (- Num.sqrt (_ / _)))).
  by apply: eq_bigr => j _; rewrite mseE. }
have -> : average (fun j => - Num.sqrt (mse krow aux X Y j)) = - average (fun j => Num.sqrt (mse krow aux X Y j)) by rewrite /average sumrN mulNr.
by apply: root_of_average => // j; exact: mse_ge0.
Qed.
Print Assumptions C110_uniform_average.

(** C110 (refuted): the documented score is the negative mean squared error; with one target the
    returned number is this only if the error is zero or one. *)
Theorem C110_documented_metric_refuted :
  forall (R : rcfType) p n (krow : 'rV[R]_p -> 'rV[R]_n) (aux : 'M[R]_(n, 1)) m (X : 'M[R]_(m, p)) (Y : 'M[R]_(m, 1)) w mo,
  (1 < m)%N ->
  let e := mse krow aux X Y 0 in
  (score krow aux mo X Y w = Ok (Number 1 (- e)) <-> e = 0 \/ e = 1).
Proof.
move=> R p n krow aux m X Y w mo Hm e.
have E : score krow aux mo X Y w = Ok (Number 1 (- Num.sqrt e)).
{ case: mo.
  - have [v [-> /(_ 0) [Hv _]]] := C110_raw_values krow aux X Y w Hm (ltn0Sn 0).
    by rewrite /= /average big_ord1 divr1 Hv.
  - have [-> _] := C110_uniform_average krow aux X Y w Hm (ltn0Sn 0).
    by rewrite /average big_ord1 divr1. }
rewrite E; have e0 : 0 <= e by exact: mse_ge0.
split=> [[/oppr_inj H]|[->|->]]; [|by rewrite sqrtr0|by rewrite sqrtr1].
have : e * (e - 1) = 0 by rewrite mulrBr mulr1 -expr2 -[X in _ - X](sqr_sqrtr e0) H subrr.
by move/eqP; rewrite mulf_eq0 subr_eq0 => /orP [/eqP ->|/eqP ->]; [left|right].
Qed.
Print Assumptions C110_documented_metric_refuted.

(** C110 (refuted): one point cannot be scored. *)
Theorem C110_one_point_refuted :
  forall (R : rcfType) p n q (krow : 'rV[R]_p -> 'rV[R]_n) (aux : 'M[R]_(n, q)) (X : 'M[R]_(1, p)) (Y : 'M[R]_(1, q)) w mo,
  (0 < q)%N ->
  score krow aux mo X Y w = Err (if q == 1%N then TypeError else ValueError).
Proof. by move=> R p n [|[|q]] krow aux X Y w mo Hq. Qed.
Print Assumptions C110_one_point_refuted.

(** C110 (refuted): the weights of the samples have no effect, although the weighted errors of some data
    are different. *)
Theorem C110_weights_refuted :
  forall (R : rcfType),
  (forall p n q (krow : 'rV[R]_p -> 'rV[R]_n) (aux : 'M[R]_(n, q)) m (X : 'M[R]_(m, p)) (Y : 'M[R]_(m, q)) w w' mo,
     score krow aux mo X Y w = score krow aux mo X Y w') /\
  exists (krow : 'rV[R]_1 -> 'rV[R]_1) (aux : 'M[R]_1) (X Y : 'M[R]_(2, 1)) (w : 'I_2 -> R),
    score krow aux RawValues X Y (Some w) = Ok (Number 1 (- Num.sqrt 2%:R^-1)) /\ weighted_mse krow aux X Y w 0 = 0.
Proof.
move=> R; split=> //.
exists id, 1%:M, (\col_i i%:R), (\col_i (i%:R + i%:R)), (fun i => if i == 0 then 1 else 0).
have EV (i : 'I_2) : value_at id (1%:M : 'M[R]_1) (row i (\col_(i < 2) i%:R)) 0 = i%:R by rewrite /value_at big_ord1 !mxE eqxx mulr1.
split.
- have [v [-> /(_ 0) [Hv _]]] := C110_raw_values id (1%:M : 'M[R]_1) (\col_(i < 2) i%:R) (\col_(i < 2) (i%:R + i%:R)) (Some (fun i : 'I_2 => if i == 0 then 1 else 0)) isT (ltn0Sn 0).
  rewrite /= /average big_ord1 divr1 Hv /mse big_ord_recl big_ord1 !EV !mxE /= !addrK expr0n /= add0r.
  by rewrite expr1n mul1r.
- by rewrite /weighted_mse !big_ord_recl !big_ord0 /= !EV !mxE /= !addrK expr0n mulr0 mul0r !addr0 mul0r.
Qed.
Print Assumptions C110_weights_refuted.

(** C110: [gradient] evaluates for the targets 0, ..., q - 1; a negative number or one above q is a
    ValueError, but q itself an IndexError. Without a number it works for a single target. *)
Theorem C110_gradient_column :
  forall (R : rcfType) p n q (krow : 'rV[R]_p -> 'rV[R]_n) (X_fit : 'M[R]_(n, p)) (y : 'M[R]_(n, q)) m (X : 'M[R]_(m, p)) c,
  (0 < q)%N ->
  ((exists G, gradient krow X_fit y (Some c) X = Ok G) <-> (Z.le Z0 c /\ Z.lt c (Z.of_nat q))) /\
  (gradient krow X_fit y (Some c) X = Err ValueError <-> (Z.lt c Z0 \/ Z.lt (Z.of_nat q) c)) /\
  (gradient krow X_fit y (Some c) X = Err IndexError <-> c = Z.of_nat q) /\
  ((exists G, gradient krow X_fit y None X = Ok G) <-> q = 1%N).
Proof.
move=> R p n q krow X_fit y m X c Hq.
have E0 : gradient krow X_fit y None X = if (1 < q)%N then Err NotImplementedError else gradient krow X_fit y (Some Z0) X.
{ by rewrite /gradient /=; case: (1 < q)%N. }
have C : (Z.lt c Z0 \/ Z.lt (Z.of_nat q) c) /\ gradient krow X_fit y (Some c) X = Err ValueError \/
         c = Z.of_nat q /\ gradient krow X_fit y (Some c) X = Err IndexError \/
         (Z.le Z0 c /\ Z.lt c (Z.of_nat q)) /\ exists G, gradient krow X_fit y (Some c) X = Ok G.
{ rewrite /gradient /=; case E1 : (Z.ltb c Z0) => /=; first by left; split=> //; left; apply/Z.ltb_lt.
  case E2 : (Z.ltb (Z.of_nat q) c) => /=; first by left; split=> //; right; apply/Z.ltb_lt.
  move/Z.ltb_ge: E1 => E1; move/Z.ltb_ge: E2 => E2; right.
  case: insubP => [j Hj _|Hj]; [right|left].
  - split; last by eexists.
    split=> //; move/ssrnat.ltP: Hj => Hj; lia.
  - split=> //; move/negP: Hj => Hj; have : ~ (Z.to_nat c < q)%coq_nat by move/ssrnat.ltP.
    lia. }
split; [|split; [|split]].
- case: C => [[H E]|[[H E]|[H HG]]]; split=> // [[G]|]; rewrite ?E //; lia.
- case: C => [[H E]|[[H E]|[H [G E]]]]; rewrite E; split=> //; lia.
- case: C => [[H E]|[[H E]|[H [G E]]]]; rewrite E; split=> //; lia.
- rewrite E0; case: q y Hq {C E0} => [|[|q]] // y _; last by split=> [[]|].
  split=> // _; rewrite /gradient /=; case: insubP => [j _ _|//]; by eexists.
Qed.
Print Assumptions C110_gradient_column.

(** Two targets at two points: the average of the raw scores is -1/2, the uniform score -sqrt(1/2). *)
Example C110_example (R : rcfType) :
  exists (krow : 'rV[R]_1 -> 'rV[R]_1) (aux : 'M[R]_(1, 2)) (X : 'M[R]_(2, 1)) (Y : 'M[R]_(2, 2)),
  average (fun j => - Num.sqrt (mse krow aux X Y j)) = - 2%:R^-1 /\
  score krow aux UniformAverage X Y None = Ok (Number 2 (- Num.sqrt 2%:R^-1)).
Proof.
exists id, 0, 0, (\matrix_(i, j) j%:R).
have EV i j : value_at id (0 : 'M[R]_(1, 2)) (row i (0 : 'M[R]_(2, 1))) j = 0 by rewrite /value_at big1 // => l _; rewrite !mxE mul0r.
have EM (j : 'I_2) : mse id (0 : 'M[R]_(1, 2)) (0 : 'M[R]_(2, 1)) (\matrix_(i < 2, j < 2) j%:R) j = j%:R ^+ 2.
{ rewrite /mse (eq_bigr (fun _ => (j%:R : R) ^+ 2)); last by move=> i _; rewrite EV subr0 mxE.
  by rewrite sumr_const card_ord -[_ *+ 2]mulr_natr mulfK // pnatr_eq0. }
split.
- by rewrite /average big_ord_recl big_ord1 !EM /= expr0n sqrtr0 oppr0 add0r expr1n sqrtr1 mulN1r.
- have [-> _] := C110_uniform_average id (0 : 'M[R]_(1, 2)) (0 : 'M[R]_(2, 1)) (\matrix_(i < 2, j < 2) j%:R) None isT isT.
  by rewrite /average big_ord_recl big_ord1 !EM /= expr0n add0r expr1n mul1r.
Qed.
