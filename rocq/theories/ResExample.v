(** * Example data for C50. *)

From mathcomp Require Import all_ssreflect all_algebra.
From Verif Require Import LinModel LinSpec ResModel ResSpec ResProofs.
Import Order.Theory GRing.Theory Num.Theory.
Set Implicit Arguments.
Unset Strict Implicit.
Unset Printing Implicit Defensive.
Local Open Scope ring_scope.

Section Ex.
Variable C : numClosedFieldType.

Definition ex_mx (a b c d : C) : 'M[C]_2 :=
  \matrix_(i, j) (if i == 0 then if j == 0 then a else b else if j == 0 then c else d).
Definition ex_v n (a b : C) : 'cV[C]_n := \col_i (if i == 0%N :> nat then a else b).

(** Checks a fixed list of candidates: an eigensolver that is right but incomplete. *)
Definition ex_eig n (A : 'M[C]_n) : seq (C * 'cV[C]_n) :=
  [seq p <- [:: (1, ex_v n 1 0); (1, ex_v n 1 (-1)); (2%:R, ex_v n 1 1); (3%:R, ex_v n 1 1)]
   | A *m p.2 == p.1 *: p.2].
Definition ex_lstsq : lstsq_t C := fun m n p A B => pinvmx A *m B.

Lemma ex_eig_ok : EigSolver ex_eig.
Proof. by move=> n A lam v /in_In; rewrite mem_filter => /andP [/eqP /= H _]; apply/rightP. Qed.

Lemma ex_lstsq_ok : solves_consistent ex_lstsq.
Proof.
move=> m n p A B Z <-; rewrite /ex_lstsq (mulmxA A (pinvmx A)) (mulmxA (A *m pinvmx A) A Z).
by rewrite (mulmxKpV (submx_refl A)).
Qed.

Lemma sum2 (f : 'I_2 -> C) : \sum_i f i = f 0 + f 1.
Proof. by rewrite !big_ord_recl big_ord0 addr0; congr (_ + f _); apply/val_inj. Qed.

Lemma ord2 (P : 'I_2 -> Prop) : P 0 -> P 1 -> forall i, P i.
Proof.
by move=> H0 H1 [[|[|//]] Hi]; [have -> : Ordinal Hi = 0 by apply/val_inj
                              |have -> : Ordinal Hi = 1 by apply/val_inj].
Qed.

Lemma ex_mulv a b c d x y : ex_mx a b c d *m ex_v 2 x y = ex_v 2 (a * x + b * y) (c * x + d * y).
Proof. by apply/matrixP=> i j; rewrite mxE sum2; move: i; apply: ord2; rewrite !mxE. Qed.
Lemma ex_scalev k x y : k *: ex_v 2 x y = ex_v 2 (k * x) (k * y).
Proof. by apply/matrixP=> i j; move: i; apply: ord2; rewrite !mxE. Qed.
Lemma ex_veq x y x' y' : (ex_v 2 x y == ex_v 2 x' y') = (x == x') && (y == y').
Proof.
apply/eqP/andP=> [E|[/eqP -> /eqP ->]] //.
by split; [have := congr1 (fun M : 'cV_2 => M 0 0) E|have := congr1 (fun M : 'cV_2 => M 1 0) E]; rewrite !mxE /= => ->.
Qed.

Lemma ex_eig_shear : ex_eig (ex_mx 1 1 0 2%:R) = [:: (1, ex_v 2 1 0); (2%:R, ex_v 2 1 1)].
Proof.
rewrite /ex_eig /= !ex_mulv !ex_scalev !ex_veq !(mulr1, mulr0, mul0r, mul1r, addr0, add0r) !eqxx /=.
have E23 : (2%:R == 3%:R :> C) = false by rewrite eqr_nat.
have E2 : 1 + 1 = 2%:R :> C by [].
by rewrite subrr eq_sym oner_eq0 /= E23 ?andbF.
Qed.

Lemma ex_eig_sym : ex_eig (ex_mx 2%:R 1 1 2%:R) = [:: (1, ex_v 2 1 (-1)); (3%:R, ex_v 2 1 1)].
Proof.
rewrite /ex_eig /= !ex_mulv !ex_scalev !ex_veq !(mulr1, mulr0, mul0r, mul1r, addr0, add0r, mulrN1).
have E23 : (3%:R == 2%:R :> C) = false by rewrite eqr_nat.
have E21 : (2%:R == 1 :> C) = false by rewrite (eqr_nat C 2 1).
have E3 : 2%:R + 1 = 3%:R :> C by rewrite -(natrD C 2 1).
have E3' : 1 + 2%:R = 3%:R :> C by rewrite addrC.
have E1 : (1 - 2%:R == -1 :> C) by rewrite subr_eq addrC (natrD C 1 1) addrK.
have E1' : 2%:R - 1 = 1 :> C by rewrite (natrD C 1 1) addrK.
by rewrite E3 E3' E21 E23 eqxx E1 E1' eqxx.
Qed.

Lemma ex_span : Spanning (1%:M : 'M[C]_2).
Proof.
move=> v H; apply/matrixP => i j; rewrite [j]ord1 [RHS]mxE -[RHS](H i).
rewrite (bigD1 i) //= big1 ?addr0 => [|k Hk]; rewrite mxE ?eqxx ?mul1r // eq_sym (negbTE Hk) mul0r //.
Qed.

Lemma ex_real (M : 'M[nat]_2) : RealData (map_mx (fun k => k%:R) M : 'M[C]_2).
Proof. by move=> i j; rewrite mxE realn. Qed.

Lemma ex_real_mx a b c d : a \is Num.real -> b \is Num.real -> c \is Num.real -> d \is Num.real ->
  RealData (ex_mx a b c d).
Proof. by move=> Ha Hb Hc Hd i j; rewrite mxE; case: ifP; case: ifP. Qed.

Lemma ex_real1 : RealData (1%:M : 'M[C]_2).
Proof. by move=> i j; rewrite mxE; case: (_ == _); [apply: real1|apply: real0]. Qed.

Lemma ex_exact (A : 'M[C]_2) : ExactData 1%:M A^T A.
Proof.
move=> i j; rewrite mxE (bigD1 i) //= big1 ?addr0 => [|k Hk]; rewrite mxE ?eqxx ?mulr1 // eq_sym (negbTE Hk) mulr0 //.
Qed.

Lemma ex_weights (i : 'I_2) : 0 < Weights 1 (None : option 'rV[C]_2) 0 i.
Proof. by rewrite mxE invr1 ltr01. Qed.

Lemma ex_size (x y : C) : size_of (Weights 1 (None : option 'rV[C]_2)) 1%:M (ex_v 2 x y) = `|x| ^+ 2 + `|y| ^+ 2.
Proof. by rewrite /size_of !sum2 !mxE /= !invr1 !(mul1r, mul0r, addr0, add0r). Qed.

Lemma ex_defect (a b c d lam x y : C) :
  defect (Weights 1 (None : option 'rV[C]_2)) 1%:M (ex_mx a b c d)^T lam (ex_v 2 x y)
  = `|a * x + c * y - lam * x| ^+ 2 + `|b * x + d * y - lam * y| ^+ 2.
Proof. by rewrite /defect !sum2 !mxE /= !invr1 !(mul1r, mul0r, addr0, add0r). Qed.

Lemma tiny_lt1 : tiny C < 1.
Proof. by rewrite /tiny invf_lt1 ?exprn_gt0 ?ltr0n // exprn_egt1 // ?ltr1n. Qed.

End Ex.
