(** * Four points in the plane for the theorems about principal components (C108). *)

From Coq Require Import String List ZArith.
From mathcomp Require Import all_ssreflect all_algebra.
From Verif Require Import FieldTac Np TrModel ScaModel PcaModel PcaSpec.
Import Order.Theory GRing.Theory Num.Theory.
Set Implicit Arguments.
Unset Strict Implicit.
Unset Printing Implicit Defensive.
Local Open Scope ring_scope.

Section Example.
Variable R : rcfType.
Add Field RField : (ft_theory R).
Local Notation tbl l := (\matrix_(i, j) nth 0 (nth [::] l (val i)) (val j)).

(** The points (3, 12), (-9, -4), (11, 6), (-1, -10) with average (1, 1). *)
Definition ex_values : 'M[R]_(4, 2) := tbl [:: [:: 3%:R; 12%:R]; [:: - 9%:R; - 4%:R]; [:: 11%:R; 6%:R]; [:: -1; - 10%:R]].
Definition ex_frame : mtable R nat 4 2 :=
  MTable PandasFrame [:: 0; 1; 2; 3]%N [:: Str "x"; Str "y"] ex_values.

Definition ex_U : 'M[R]_(4, 2) :=
  tbl [:: [:: 1/2%:R; 1/2%:R]; [:: -(1/2%:R); 1/2%:R]; [:: 1/2%:R; -(1/2%:R)]; [:: -(1/2%:R); -(1/2%:R)]].
Definition ex_s : 'rV[R]_2 := \row_j nth 0 [:: 20%:R; 10%:R] (val j).
Definition ex_V : 'M[R]_(2, 2) := tbl [:: [:: 3%:R/5%:R; 4%:R/5%:R]; [:: -(4%:R/5%:R); 3%:R/5%:R]].

Definition ex_svd : svd_t R := fun n d A =>
  (\matrix_(i, j) nth 0 (nth [::] [:: [:: 1/2%:R; 1/2%:R]; [:: -(1/2%:R); 1/2%:R]; [:: 1/2%:R; -(1/2%:R)]; [:: -(1/2%:R); -(1/2%:R)]] (val i)) (val j),
   \row_j nth 0 [:: 20%:R; 10%:R] (val j),
   tbl [:: [:: 3%:R/5%:R; 4%:R/5%:R]; [:: -(4%:R/5%:R); 3%:R/5%:R]]).

Lemma two_nz : (2%:R : R) != 0. Proof. by rewrite pnatr_eq0. Qed.
Lemma five_nz : (5%:R : R) != 0. Proof. by rewrite pnatr_eq0. Qed.
Lemma four_nz : (4%:R : R) != 0. Proof. by rewrite pnatr_eq0. Qed.
Lemma ord2 (i : 'I_2) : i = 0 \/ i = 1.
Proof. case: i => [[|[|//]]] H; [left|right]; exact: val_inj. Qed.
Definition o2 : 'I_4 := Ordinal (isT : 2 < 4)%N.
Definition o3 : 'I_4 := Ordinal (isT : 3 < 4)%N.
Lemma ord4 (i : 'I_4) : [\/ i = 0, i = 1, i = o2 | i = o3].
Proof. case: i => [[|[|[|[|//]]]]] H; [constructor 1|constructor 2|constructor 3|constructor 4]; exact: val_inj. Qed.
Lemma sum2 (F : 'I_2 -> R) : \sum_i F i = F 0 + F 1.
Proof. by rewrite big_ord_recl big_ord1; congr (_ + F _); apply: val_inj. Qed.
Lemma sum4 (F : 'I_4 -> R) : \sum_i F i = F 0 + F 1 + F o2 + F o3.
Proof.
by rewrite !big_ord_recl big_ord0 addr0 !addrA; congr (_ + F _ + F _ + F _); apply: val_inj.
Qed.

Lemma ex_average : average_row ex_values = const_mx 1.
Proof.
apply/rowP => j; rewrite !mxE sum4 !mxE.
have H2 := two_nz; have H4 := four_nz.
case: (ord2 j) => -> /=; mfield R.
Qed.

Lemma ex_decomposition : IsSvd (ex_values - repeat_row 4 (average_row ex_values)) ex_U ex_s ex_V.
Proof.
have H2 := two_nz; have H5 := five_nz; rewrite ex_average; split.
- apply/matrixP => i j; rewrite !mxE sum4 !mxE; case: (ord2 i) => ->; case: (ord2 j) => -> /=; mfield R.
- apply/matrixP => i j; rewrite !mxE sum2 !mxE; case: (ord2 i) => ->; case: (ord2 j) => -> /=; mfield R.
- apply/matrixP => i j; rewrite mul_mx_diag !mxE sum2 !mxE; case: (ord4 i) => ->; case: (ord2 j) => -> /=; mfield R.
- move=> j; rewrite mxE; case: (ord2 j) => -> /=; exact: ler0n.
- move=> i j; rewrite !mxE; case: (ord2 i) => ->; case: (ord2 j) => -> //= _; by rewrite ler_nat.
Qed.

Lemma ex_good : GoodFrame ex_frame.
Proof. by split=> //; split=> // a /= [<-|[<-|[]]]; eexists. Qed.

Lemma ex_decomposed whiten k : Decomposed ex_svd whiten k ex_values ex_s.
Proof.
exists ex_U, ex_V; split; first by [].
split; first exact: ex_decomposition.
move=> _; split=> // j _; rewrite mxE; case: (ord2 j) => -> /=; by rewrite pnatr_eq0.
Qed.

End Example.
