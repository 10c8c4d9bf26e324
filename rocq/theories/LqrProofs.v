(** * Proofs: linear quadratic regulator. *)

From mathcomp Require Import all_ssreflect all_algebra ssrAC.
From Verif Require Import MpcModel LqrModel LqrSpec.
Import Order.Theory GRing.Theory Num.Theory.
Set Implicit Arguments.
Unset Strict Implicit.
Unset Printing Implicit Defensive.
Local Open Scope ring_scope.

Section Proofs.
Variable R : realFieldType.
Variables n m : nat.
Variables (A : 'M[R]_n) (B : 'M[R]_(n, m)).

Lemma quad_add k (M : 'M[R]_k) x y : M^T = M -> quad M (x + y) = quad M x + quad M y + (x^T *m M *m y) 0 0 *+ 2.
Proof.
move=> HM; rewrite /quad.
have -> : (x + y)^T = x^T + y^T by rewrite linearD.
rewrite !mulmxDl !mulmxDr mulr2n.
have E : (y^T *m M *m x) 0 0 = (x^T *m M *m y) 0 0.
  by rewrite -[in LHS](trmxK (y^T *m M *m x)) [in LHS]mxE !trmx_mul HM trmxK mulmxA.
have D (p q : 'M[R]_1) : (p + q) 0 0 = p 0 0 + q 0 0 by rewrite mxE.
rewrite !D E.
set a := (_ *m _ *m x) 0 0; set b := (_ *m _ *m y) 0 0; set c := (_ *m _ *m y) 0 0.
by rewrite -!addrA; congr (_ + _); rewrite [RHS]addrC -addrA.
Qed.

Lemma quad_mul k l (M : 'M[R]_k) (T : 'M[R]_(k, l)) x : quad M (T *m x) = quad (T^T *m M *m T) x.
Proof. by rewrite /quad trmx_mul !mulmxA. Qed.

Lemma quadD k (M M' : 'M[R]_k) x : quad (M + M') x = quad M x + quad M' x.
Proof. by rewrite /quad mulmxDr mulmxDl mxE. Qed.

Lemma quadB k (M M' : 'M[R]_k) x : quad (M - M') x = quad M x - quad M' x.
Proof. by rewrite /quad mulmxBr mulmxBl !mxE. Qed.

Section Step.
Variables (Q P : 'M[R]_n) (Rc : 'M[R]_m).
Hypothesis HR : Rc^T = Rc.
Hypothesis HP : Riccati A B Q Rc P.
Let S := Rc + B^T *m P *m B.
Let F := invmx S *m B^T *m P *m A.

Lemma S_sym : S^T = S.
Proof. by case: HP => Ps _ _; rewrite /S linearD /= HR !trmx_mul trmxK Ps mulmxA. Qed.

(** completing the square *)
Lemma step_square x u :
  quad Q x + quad Rc u + quad P (A *m x + B *m u) = quad P x + quad S (u + F *m x).
Proof.
case: HP => Ps Su E; rewrite -/S in Su E.
have HS := S_sym.
rewrite (quad_add _ _ Ps) (quad_add _ _ HS) !quad_mul.
rewrite [in quad P x]E quadD quadB.
have EF : S *m F = B^T *m P *m A by rewrite /F !mulmxA mulmxV // mul1mx.
have -> : F^T *m S *m F = A^T *m P *m B *m invmx S *m (B^T *m P *m A).
  rewrite -mulmxA EF /F !trmx_mul trmxK Ps trmx_inv HS !mulmxA //.
have -> : (u^T *m S *m (F *m x)) 0 0 = ((A *m x)^T *m P *m (B *m u)) 0 0.
  have -> : u^T *m S *m (F *m x) = u^T *m (S *m F) *m x by rewrite !mulmxA.
  rewrite EF -[in RHS](trmxK ((A *m x)^T *m P *m (B *m u))) [in RHS]mxE !trmx_mul Ps !trmxK !mulmxA //.
rewrite [quad S u]quadD.
set a := quad Q x; set b := quad Rc u; set c := quad _ x; set d := quad _ u; set e := _ *+ 2.
set f := quad _ x.
by rewrite [RHS](AC (3*4) ((3*4)*(1*5*7)*(2*6))) /= addNr addr0.
Qed.

Lemma square x0 u N :
  running A B Q Rc 0 x0 u N + quad P (state A B x0 u N) =
  quad P x0 + \sum_(k < N) quad S (u k + F *m state A B x0 u k).
Proof.
rewrite /running; elim: N => [|N IH]; first by rewrite !big_ord0 add0r addr0.
rewrite !big_ord_recr /= [quad P x0 + _]addrA -IH subr0.
by rewrite -addrA step_square addrA.
Qed.
End Step.

(** shift by an equilibrium *)
Lemma state_shift xs x0 u k : A *m xs = xs -> state A B x0 u k - xs = state A B (x0 - xs) u k.
Proof. by move=> E; elim: k => [|k IH] //=; rewrite -IH mulmxBr E addrAC. Qed.

Lemma running_shift Q Rc xs x0 u N : A *m xs = xs -> running A B Q Rc xs x0 u N = running A B Q Rc 0 (x0 - xs) u N.
Proof. by move=> E; apply: eq_bigr => k _; rewrite state_shift // subr0. Qed.

Lemma closed_state f x0 k : closed A B f x0 k = state A B x0 (fun k => f (closed A B f x0 k)) k.
Proof. by elim: k => [|k IH] //=; rewrite -IH. Qed.

Lemma psd_diag k (v : 'rV[R]_k) : (forall j, 0 <= v 0 j) -> Psd (diag_mx v).
Proof.
move=> Hv x; rewrite /quad mxE; apply: sumr_ge0 => j _.
have -> : (x^T *m diag_mx v) 0 j = v 0 j * x j 0.
  by rewrite mul_mx_diag !mxE mulrC.
by rewrite -mulrA mulr_ge0 // -expr2 sqr_ge0.
Qed.

Lemma psd_congr k l (M : 'M[R]_k) (T : 'M[R]_(k, l)) : Psd M -> Psd (T^T *m M *m T).
Proof. by move=> HM x; rewrite -quad_mul. Qed.

Lemma psd_add k (M M' : 'M[R]_k) : Psd M -> Psd M' -> Psd (M + M').
Proof. by move=> H H' x; rewrite quadD addr_ge0. Qed.

Lemma cost_ge0 k c (v : 'rV[R]_k) : cost_to_array k c = Some v -> forall j, 0 <= v 0 j.
Proof.
case: c => [c|s] /=.
- by case: ltP => // Hc [<-] j; rewrite mxE.
- case: eqP => // Hs; case: hasP => // Hn [<-] j; rewrite mxE leNgt; apply/negP => Hlt.
  by apply: Hn; exists (nth 0 s j) => //; rewrite mem_nth // Hs.
Qed.

End Proofs.
