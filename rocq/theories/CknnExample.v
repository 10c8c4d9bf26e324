(** * Concrete cases for C44 (cut-off) and C45. *)

From mathcomp Require Import all_ssreflect all_algebra.
From Verif Require Import RingTac FieldTac KernModel KernSpec KernProofs KernExample EmbExample.
From Verif Require Import CknnModel CknnSpec CknnProofs.
Import Order.Theory GRing.Theory Num.Theory.
Set Implicit Arguments.
Unset Strict Implicit.
Unset Printing Implicit Defensive.
Local Open Scope ring_scope.

Section Examples.
Variable R : rcfType.
Add Field RField : (ft_theory R).

Lemma kth_unique m n (D : 'M[R]_(m, n)) k i d d' : KthNearest D k i d -> KthNearest D k i d' -> d = d'.
Proof.
have H (a b : R) : KthNearest D k i a -> KthNearest D k i b -> a <= b.
  move=> [_ [A _]] [B _]; rewrite leNgt; apply/negP => Hba.
  have : (k < k)%N; last by rewrite ltnn.
  apply: leq_ltn_trans B (leq_ltn_trans _ A); apply: subset_leq_card; apply/subsetP => j.
  by rewrite !inE => Hj; apply: le_lt_trans Hba.
by move=> H1 H2; apply: le_anti; rewrite !H.
Qed.

Lemma card3 (p : pred 'I_3) : #|[set j | p j]| = (p (inord 0) + p (inord 1) + p (inord 2))%N.
Proof.
rewrite -sum1_card big_mkcond /= (eq_bigr (fun j => nat_of_bool (p j))); last by move=> j _; rewrite inE; case: (p j).
rewrite !big_ord_recl big_ord0 addn0 addnA.
by congr (nat_of_bool (p _) + nat_of_bool (p _) + nat_of_bool (p _))%N; apply/val_inj; rewrite /= inordK.
Qed.

(** Three points 0, 1, 3 on a line. *)
Definition line : 'M[R]_3 := mxl 3 3 [:: [:: 0; 1; 3%:R]; [:: 1; 0; 2%:R]; [:: 3%:R; 2%:R; 0]].

Lemma lineE : (line (inord 0) (inord 0) = 0) * (line (inord 0) (inord 1) = 1) * (line (inord 0) (inord 2) = 3%:R)
  * (line (inord 1) (inord 0) = 1) * (line (inord 1) (inord 1) = 0) * (line (inord 1) (inord 2) = 2%:R)
  * (line (inord 2) (inord 0) = 3%:R) * (line (inord 2) (inord 1) = 2%:R) * (line (inord 2) (inord 2) = 0).
Proof. by rewrite !mxE !inordK. Qed.

Lemma line_dist : Distances line.
Proof.
split; [|split].
- by move=> i j; case: (ord3 i) => ->; case: (ord3 j) => ->; rewrite !lineE.
- by move=> i; case: (ord3 i) => ->; rewrite !lineE.
- by move=> i j; case: (ord3 i) => ->; case: (ord3 j) => ->; rewrite !lineE ?ler0n ?ler01.
Qed.

Definition ref3 : 'I_3 -> R := fun i => if i == inord 2 then 2%:R else 1.

Lemma inord_neq : (inord 0 == inord 2 :> 'I_3 = false) * (inord 1 == inord 2 :> 'I_3 = false).
Proof. by split; apply/negbTE/eqP => /(congr1 val); rewrite /= !inordK. Qed.

Lemma line_kth i : KthNearest line 2 i (ref3 i).
Proof.
have n12 : (2%:R <= 1 :> R) = false by rewrite lern1.
have n13 : (3%:R <= 1 :> R) = false by rewrite lern1.
have n23 : (3%:R <= 2%:R :> R) = false by rewrite ler_nat.
split; [|split].
- by rewrite card3 /ref3; case: (ord3 i) => ->; rewrite ?inord_neq ?eqxx !lineE ?ler01 ?lexx ?ler0n ?addn1.
- rewrite card3 /ref3; case: (ord3 i) => ->; rewrite ?inord_neq ?eqxx !lineE ?ltr01 ?ltxx ?ltr0n.
  + by rewrite ltrn1.
  + by rewrite ltrn1.
  + by rewrite ltr_nat.
- case: (ord3 i) => ->; rewrite /ref3 ?inord_neq ?eqxx.
  + by exists (inord 1); rewrite lineE.
  + by exists (inord 0); rewrite lineE.
  + by exists (inord 1); rewrite lineE.
Qed.

Lemma cknn_example : exists (c : cknn R 3) A c', new_cknn 3 2 2%:R = Some c /\ Distances line /\
  evaluate_pdist c true line = Some (A, c') /\ (k_neighbor c < 3)%N /\
  A (inord 0) (inord 1) = true /\ A (inord 1) (inord 2) = true /\ A (inord 0) (inord 2) = false.
Proof.
pose c : cknn R 3 := Cknn 2 2%:R None.
have [dk Ek] : exists dk, kth_nearest_neighbor_dist line 2 = Some dk.
  by rewrite /kth_nearest_neighbor_dist /=; eexists.
have Hdk i : dk 0 i = ref3 i by apply: kth_unique (kth_nearest i Ek) (line_kth i).
have ref_gt0 i : 0 < ref3 i by rewrite /ref3; case: ifP; rewrite ?ltr01 ?ltr0n.
have Hz : has_zero (sqrt_vec dk) = false.
  by apply/has_zeroPn => j; rewrite sqrt_vecE Hdk gt_eqF // sqrtr_gt0.
have [F EF] : exists F, sym_division line (sqrt_vec dk) true = Some F.
  by rewrite /sym_division Hz; eexists.
have E : evaluate_pdist c true line
    = Some (\matrix_(i, j) (F i j < 2%:R), Cknn 2 2%:R (Some dk)).
  rewrite /evaluate_pdist -[k_neighbor c]/(2%N) Ek EF.
  have -> : [forall i, line i i != 0] = false.
    by apply/negbTE/negP => /forallP/(_ (inord 0)); rewrite lineE eqxx.
  by [].
exists c, (\matrix_(i, j) (F i j < 2%:R)), (Cknn 2 2%:R (Some dk)).
split; first by rewrite /new_cknn /= lern0.
split; first exact: line_dist.
split; first exact: E.
split=> //.
have [dk' [K1 [K2 _]]] := edges line_dist E.
have Hdk' i : dk' i = ref3 i by have [H _] := K1 i; apply: kth_unique H (line_kth i).
rewrite !K2 !Hdk' /ref3 !inord_neq !eqxx !lineE /=.
have q2 : 0 <= Num.sqrt 2%:R :> R by exact: sqrtr_ge0.
have s2 : Num.sqrt 2%:R ^+ 2 = 2%:R :> R by rewrite sqr_sqrtr ?ler0n.
have one_q : 1 < Num.sqrt 2%:R :> R.
  rewrite -(@ltr_pexpn2r _ 2) ?nnegrE ?ler01 // s2 expr1n; by rewrite ltr1n.
rewrite !mul1r sqrtr1 mulr1; split; first by rewrite ltr1n.
split.
- by rewrite -{1}[2%:R]mulr1 ltr_pmul2l ?ltr0n.
- apply/negbTE; rewrite -leNgt -(@ler_pexpn2r _ 2) ?nnegrE ?ler0n ?mulr_ge0 ?ler0n //.
  by rewrite exprMn s2 -!natrX -natrM ler_nat.
Qed.

End Examples.
