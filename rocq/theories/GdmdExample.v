(** * Concrete collections for the theorems about generators identified from time series. *)

From Coq Require Import List ZArith Lia.
From mathcomp Require Import all_ssreflect all_algebra.
From Verif Require Import Np TscModel TscSpec TscProofs TscDt DerModel DerSpec DerList DerProofs DerProps DerExample
  ChkSpec LinModel LinSpec GenModel GenSpec GenProps GdmdModel GdmdSpec RingTac.
Import Order.Theory GRing.Theory Num.Theory.
Set Implicit Arguments.
Unset Strict Implicit.
Unset Printing Implicit Defensive.
Local Open Scope ring_scope.

Lemma central_extent (R : realFieldType) (a b c : R) : Extent [:: (Zneg 1, a); (Z0, b); (Zpos 1, c)] (Zneg 1) (Zpos 1).
Proof.
split; [by exists a; left|by exists c; right; right; left| |by split].
by move=> p /=; do !case=> [<- /=|]; try lia.
Qed.

(** ** A system with control input in two series whose IDs are not stored in increasing order *)

Notation Q := rat_realFieldType.

(** the central difference *)
Definition sc (i t : Z) (x : rat) : row 'rV[Q]_1 := mkRow i t (const_mx x).

(** x' = u x: series 5 is x = t + 1 with u = 1 / (t + 1), series 2 is x = t^2 + 1 with u = 2t / (t^2 + 1). *)
Definition un_F : list (row 'rV[Q]_1) :=
  [:: sc (Zpos 5) Z0 1%:R; sc (Zpos 5) (Zpos 1) 2%:R; sc (Zpos 5) (Zpos 2) 3%:R; sc (Zpos 5) (Zpos 3) 4%:R;
      sc (Zpos 2) Z0 1%:R; sc (Zpos 2) (Zpos 1) 2%:R; sc (Zpos 2) (Zpos 2) 5%:R; sc (Zpos 2) (Zpos 3) 10%:R].
Definition un_U : list (row 'rV[Q]_1) :=
  [:: sc (Zpos 5) Z0 1%:R; sc (Zpos 5) (Zpos 1) 2%:R^-1; sc (Zpos 5) (Zpos 2) 3%:R^-1; sc (Zpos 5) (Zpos 3) 4%:R^-1;
      sc (Zpos 2) Z0 0; sc (Zpos 2) (Zpos 1) 1; sc (Zpos 2) (Zpos 2) (4%:R / 5%:R); sc (Zpos 2) (Zpos 3) (6%:R / 10%:R)].

(** the rows are sorted by time first, the derivatives by ID *)
Lemma un_data : exists G : list (row 'rV[Q]_1), affine_data 1 ex_table KInt center 2 un_F un_U
  = Ok ([:: sc (Zpos 5) (Zpos 1) 2%:R; sc (Zpos 2) (Zpos 1) 2%:R; sc (Zpos 5) (Zpos 2) 3%:R; sc (Zpos 2) (Zpos 2) 5%:R],
        [:: sc (Zpos 5) (Zpos 1) 2%:R^-1; sc (Zpos 2) (Zpos 1) 1; sc (Zpos 5) (Zpos 2) 3%:R^-1; sc (Zpos 2) (Zpos 2) (4%:R / 5%:R)], G) /\
  [seq (rid g, rtime g, (rval g : 'rV[Q]_1) 0 0) | g <- G]
  = [:: (Zpos 2, Zpos 1, 2%:R); (Zpos 2, Zpos 2, 4%:R); (Zpos 5, Zpos 1, 1%:R); (Zpos 5, Zpos 2, 1%:R)].
Proof.
eexists; split; first by rewrite /affine_data /=.
rewrite /= !mxE; congr [:: (_, _, _); (_, _, _); (_, _, _); (_, _, _)]; by apply/eqP.
Qed.

Lemma un_valid : ValidRows un_F.
Proof. by have /tsc_ok [] : tsc un_F = Ok un_F by []. Qed.

Lemma un_small : SmallSteps un_F.
Proof.
have Hb r : List.In r un_F -> Z.le Z0 (rtime r) /\ Z.lt (rtime r) (Zpos 100).
  by rewrite /un_F /=; do !case=> [<- /=|]; try lia.
move=> a b [l [r E]] _.
have Ha : List.In a un_F by rewrite E; apply: List.in_or_app; right; left.
have Hb' : List.In b un_F by rewrite E; apply: List.in_or_app; right; right; left.
by move: (Hb a Ha) (Hb b Hb'); lia.
Qed.

Lemma un_regular i : Occurs un_F i -> Regular un_F i (Zpos 1).
Proof. by move: i; apply/(delta_time_scalar_some un_F (Zpos 1) un_valid un_small). Qed.

Lemma un_aligned : Aligned un_F (Zpos 1).
Proof. by move=> r r' _ _; exists (Z.sub (rtime r) (rtime r')); lia. Qed.

Lemma un_controlled : PolynomialControlled (1 : Q) 2 0 (fun _ : 'I_1 => 1%:M) un_F un_U.
Proof.
move=> i.
exists (fun _ => if Z.eqb i (Zpos 5) then 'X + 1 else 'X * 'X + 1); split=> [j|t v|t u].
- case: Z.eqb; first by rewrite -[1]/(1%:P) size_XaddC.
  by rewrite (leq_trans (size_add _ _)) // geq_max size_poly1 andbT -expr2 size_polyXn.
- rewrite /un_F /sc /=; do !case=> [[<- <- <-] j|] //; rewrite mxE /= !hornerE; by apply/eqP.
- rewrite /un_U /sc /=; do !case=> [[<- <- <-] j|] //; rewrite (ord1 j) !big_ord_recl !big_ord0 !mxE /= !derivE !hornerE; by apply/eqP.
Qed.

Lemma un_used i t : (i = Zpos 5 \/ i = Zpos 2) -> (t = Zpos 1 \/ t = Zpos 2) ->
  Used (ex_table center 1 2) Z0 (Zpos 1) un_F i t.
Proof.
by case=> ->; case=> -> p; rewrite /ex_table /=; do !case=> [<-|] //; eexists; rewrite /un_F /sc /=; tauto.
Qed.

Lemma un_used_times i t : Used (ex_table center 1 2) Z0 (Zpos 1) un_F i t -> t = Zpos 1 \/ t = Zpos 2.
Proof.
have H r : List.In r un_F -> Z.le Z0 (rtime r) /\ Z.le (rtime r) (Zpos 3).
  by rewrite /un_F /=; do !case=> [<- /=|]; try lia.
move=> HU.
have [v1 /H /= H1] := HU (Zneg 1, - 2%:R^-1) (or_introl erefl).
have [v2 /H /= H2] := HU (Zpos 1, 2%:R^-1) (or_intror (or_intror (or_introl erefl))).
lia.
Qed.

Lemma un_common : CommonTimes (ex_table center 1 2) (Zpos 1) un_F.
Proof.
move=> r i Hr /un_used_times Ht; apply: un_used => //.
by move: Hr; rewrite /un_F /=; do !case=> [<- /=|] //; tauto.
Qed.

Lemma un_spanning : SpanningControlled (ex_table center 1 2) (Zpos 1) un_F un_U.
Proof.
move=> v W H.
have /(_ (or_intror erefl) (or_introl erefl)) U1 := @un_used (Zpos 2) (Zpos 1).
have /(_ (or_introl erefl) (or_introl erefl)) U2 := @un_used (Zpos 5) (Zpos 1).
have H1 := H _ _ (const_mx 2%:R) (const_mx 1) U1 _ _.
have H2 := H _ _ (const_mx 2%:R) (const_mx 2%:R^-1) U2 _ _.
have {}H1 : 2%:R * v 0 0 + 2%:R * W 0 0 = 0.
  by rewrite -[RHS]H1 ?big_ord_recl ?big_ord0 ?mxE ?addr0 ?mul1r //; rewrite /un_F /un_U /sc /=; tauto.
have {}H2 : 2%:R * v 0 0 + W 0 0 = 0.
  rewrite -[RHS]H2 ?big_ord_recl ?big_ord0 ?mxE ?addr0 ?mulVf ?mul1r //; rewrite /un_F /un_U /sc /=; tauto.
have EW : W 0 0 = 0 by move: H1; rewrite [2%:R * W 0 0]mulr_natl mulr2n addrA H2 add0r.
have EV : v 0 0 = 0 by move/eqP: H2; rewrite EW addr0 mulf_eq0 => /orP [//|/eqP].
by split; apply/matrixP => a b; rewrite !ord1 mxE.
Qed.

(** the result is not the system that the data follow *)
Lemma un_fit (lstsq : lstsq_t Q) : solves_consistent lstsq -> exists A T,
  affine_fit 1 ex_table lstsq KInt center 2 un_F un_U = Ok (A, T) /\ ~ (A = 0 /\ T 0 = 1%:M).
Proof.
move=> Hl; have [G [E HG]] := un_data.
rewrite /affine_fit E [bind _ _]/=.
case: G HG {E} => [|g1 [|g2 [|g3 [|g4 [|? ?]]]]] // HG.
have [_ _ E1 _ _ E2 _ _ E3 _ _ E4] := HG.
have := @C59_affine_least_squares Q lstsq 4 1 1 4
  (values_matrix 4 [:: sc (Zpos 5) (Zpos 1) 2%:R; sc (Zpos 2) (Zpos 1) 2%:R; sc (Zpos 5) (Zpos 2) 3%:R; sc (Zpos 2) (Zpos 2) 5%:R])
  (values_matrix 4 [:: g1; g2; g3; g4])
  (values_matrix 4 [:: sc (Zpos 5) (Zpos 1) 2%:R^-1; sc (Zpos 2) (Zpos 1) 1; sc (Zpos 5) (Zpos 2) 3%:R^-1; sc (Zpos 2) (Zpos 2) (4%:R / 5%:R)])
  0 (fun _ => (2%:R^-1)%:M) Hl erefl.
case E: koopman_and_control_tensor => [A T] H; exists A, T; split=> // -[EA ET].
move: H; rewrite /affine_error !big_ord_recl !big_ord0 !mxE /=.
have EZ : ord0 = 0 :> 'I_1 by [].
rewrite !EZ EA ET /= ?E1 ?E2 ?E3 ?E4 !mxE /=.
set a := (X in X <= _); set b := (X in _ <= X).
have -> : a = 14%:R by apply/eqP; vm_compute.
have -> : b = 25%:R / 2%:R by apply/eqP; vm_compute.
by rewrite leNgt => /negP; apply; rewrite ltr_pdivr_mulr // -natrM ltr_nat.
Qed.

(** ** The same series stored in the order of the IDs *)

Definition so_F : list (row 'rV[Q]_1) := drop 4 un_F ++ take 4 un_F.
Definition so_U : list (row 'rV[Q]_1) := drop 4 un_U ++ take 4 un_U.

Lemma so_in r : List.In r so_F <-> List.In r un_F.
Proof. by rewrite /so_F /un_F /=; tauto. Qed.
Lemma so_in_u r : List.In r so_U <-> List.In r un_U.
Proof. by rewrite /so_U /un_U /=; tauto. Qed.

Lemma so_used i t : Used (ex_table center 1 2) Z0 (Zpos 1) so_F i t <-> Used (ex_table center 1 2) Z0 (Zpos 1) un_F i t.
Proof. by split=> H p /H [v /so_in Hv]; exists v. Qed.

Lemma so_valid : ValidRows so_F.
Proof. by have /tsc_ok [] : tsc so_F = Ok so_F by []. Qed.

Lemma so_small : SmallSteps so_F.
Proof.
have Hb r : List.In r so_F -> Z.le Z0 (rtime r) /\ Z.lt (rtime r) (Zpos 100).
  by rewrite /so_F /=; do !case=> [<- /=|]; try lia.
move=> a b [l [r E]] _.
have Ha : List.In a so_F by rewrite E; apply: List.in_or_app; right; left.
have Hb' : List.In b so_F by rewrite E; apply: List.in_or_app; right; right; left.
by move: (Hb a Ha) (Hb b Hb'); lia.
Qed.

Lemma so_regular i : Occurs so_F i -> Regular so_F i (Zpos 1).
Proof. by move: i; apply/(delta_time_scalar_some so_F (Zpos 1) so_valid so_small). Qed.

Lemma so_aligned : Aligned so_F (Zpos 1).
Proof. by move=> r r' _ _; exists (Z.sub (rtime r) (rtime r')); lia. Qed.

Lemma so_sorted : IdsSorted so_F.
Proof. by apply: TscOps.lexsorted_iff. Qed.

Lemma so_common : CommonTimes (ex_table center 1 2) (Zpos 1) so_F.
Proof. by move=> r i /so_in Hr /so_used Hu; apply/so_used; apply: un_common Hu. Qed.

Lemma so_controlled : PolynomialControlled (1 : Q) 2 0 (fun _ : 'I_1 => 1%:M) so_F so_U.
Proof.
move=> i; have [P [H1 H2 H3]] := un_controlled i; exists P; split=> // t v.
  by move=> /so_in; apply: H2.
by move=> /so_in_u; apply: H3.
Qed.

Lemma so_spanning : SpanningControlled (ex_table center 1 2) (Zpos 1) so_F so_U.
Proof.
by move=> v W H; apply: un_spanning => i t x u /so_used Hu /so_in Hx /so_in_u Hv; apply: H Hu Hx Hv.
Qed.

(** ** Two decoupled growth processes with the factors 2 and 3, every two time units *)

Definition two (a b : rat) : 'rV[Q]_2 := \row_j (if j == 0 then a else b).
Definition gr_F : list (row 'rV[Q]_2) :=
  [:: mkRow (Zpos 4) Z0 (two 1%:R 1%:R); mkRow (Zpos 4) (Zpos 2) (two 2%:R 3%:R);
      mkRow (Zpos 4) (Zpos 4) (two 4%:R 9%:R); mkRow (Zpos 4) (Zpos 6) (two 8%:R 27%:R)].
Definition gr_M : 'M[Q]_2 := diag_mx (two 2%:R 3%:R).

Lemma gr_valid : ValidRows gr_F.
Proof. by have /tsc_ok [] : tsc gr_F = Ok gr_F by []. Qed.

Lemma gr_small : SmallSteps gr_F.
Proof.
have Hb r : List.In r gr_F -> Z.le Z0 (rtime r) /\ Z.lt (rtime r) (Zpos 100).
  by rewrite /gr_F /=; do !case=> [<- /=|]; try lia.
move=> a b [l [r E]] _.
have Ha : List.In a gr_F by rewrite E; apply: List.in_or_app; right; left.
have Hb' : List.In b gr_F by rewrite E; apply: List.in_or_app; right; right; left.
by move: (Hb a Ha) (Hb b Hb'); lia.
Qed.

Lemma gr_regular i : Occurs gr_F i -> Regular gr_F i (Zpos 2).
Proof. by move: i; apply/(delta_time_scalar_some gr_F (Zpos 2) gr_valid gr_small). Qed.

Lemma gr_aligned : Aligned gr_F (Zpos 2).
Proof.
have H r : List.In r gr_F -> exists z, rtime r = Z.mul z (Zpos 2).
  by rewrite /gr_F /=; do !case=> [<- /=|] //; [exists Z0|exists (Zpos 1)|exists (Zpos 2)|exists (Zpos 3)].
by move=> r r' /H [z ->] /H [z' ->]; exists (Z.sub z z'); lia.
Qed.

Lemma gr_sampled : SampledSystem (Zpos 2) gr_M gr_F.
Proof.
move=> i t v w; rewrite /gr_F /gr_M /=.
do !case=> [[<- <- <-]|] //; do !case=> [[] //= <- j|] //;
  rewrite !big_ord_recl big_ord0 !mxE /=; case: j => -[|[|//]] Hj //; rewrite ?mxE /=; by apply/eqP.
Qed.

Lemma gr_unit : gr_M \in unitmx.
Proof. by rewrite unitmxE det_diag unitfE !big_ord_recl big_ord0 !mxE. Qed.

Lemma gr_used t : t = Zpos 2 \/ t = Zpos 4 -> Used (ex_table center 1 2) Z0 (Zpos 2) gr_F (Zpos 4) t.
Proof. by case=> -> p; rewrite /ex_table /=; do !case=> [<-|] //; eexists; rewrite /gr_F /=; tauto. Qed.

Lemma two_sum (a b : rat) (v : 'cV[Q]_2) : \sum_k two a b 0 k * v k 0 = a * v 0 0 + b * v 1 0.
Proof.
rewrite !big_ord_recl big_ord0 addr0 !mxE /=.
by have -> : lift ord0 ord0 = 1 :> 'I_2 by apply/val_inj.
Qed.

Section Two.
Variable R : realFieldType.
Add Ring ring_two : (rt_theory R).

Lemma two_zero (a b c e : R) (v : 'cV[R]_2) : a * e - c * b != 0 ->
  a * v 0 0 + b * v 1 0 = 0 -> c * v 0 0 + e * v 1 0 = 0 -> v = 0.
Proof.
move=> Hd H1 H2.
have E0 : (a * e - c * b) * v 0 0 = 0.
  transitivity (e * (a * v 0 0 + b * v 1 0) - b * (c * v 0 0 + e * v 1 0)); last by rewrite H1 H2 !mulr0 subrr.
  by mring R.
have E1 : (a * e - c * b) * v 1 0 = 0.
  transitivity (a * (c * v 0 0 + e * v 1 0) - c * (a * v 0 0 + b * v 1 0)); last by rewrite H1 H2 !mulr0 subrr.
  by mring R.
apply/matrixP => i j; rewrite ord1 mxE; case: i => -[|[|//]] Hi.
  have -> : Ordinal Hi = 0 by apply/val_inj.
  by apply/eqP; move/eqP: E0; rewrite mulf_eq0 (negPf Hd).
have -> : Ordinal Hi = 1 by apply/val_inj.
by apply/eqP; move/eqP: E1; rewrite mulf_eq0 (negPf Hd).
Qed.

End Two.

Lemma gr_spanning : SpanningSamples (ex_table center 1 2) Z0 (Zpos 2) gr_F.
Proof.
move=> v H; apply: (@two_zero Q 2%:R 3%:R 4%:R 9%:R) => //.
  rewrite -two_sum; apply: (H (Zpos 4) (Zpos 2)); first exact: (gr_used (or_introl erefl)).
  by rewrite /gr_F /=; tauto.
rewrite -two_sum; apply: (H (Zpos 4) (Zpos 4)); first exact: (gr_used (or_intror erefl)).
by rewrite /gr_F /=; tauto.
Qed.

(** ** A double integrator *)

Definition di_F : list (row 'rV[Q]_2) :=
  [:: mkRow (Zpos 1) Z0 (two 0 1%:R); mkRow (Zpos 1) (Zpos 1) (two 1%:R 1%:R);
      mkRow (Zpos 1) (Zpos 2) (two 2%:R 1%:R); mkRow (Zpos 1) (Zpos 3) (two 3%:R 1%:R)].
Definition di_A : 'M[Q]_2 := \matrix_(i, j) (if (i == 0) && (j == 1) then 1 else 0).

Lemma di_valid : ValidRows di_F.
Proof. by have /tsc_ok [] : tsc di_F = Ok di_F by []. Qed.

Lemma di_small : SmallSteps di_F.
Proof.
have Hb r : List.In r di_F -> Z.le Z0 (rtime r) /\ Z.lt (rtime r) (Zpos 100).
  by rewrite /di_F /=; do !case=> [<- /=|]; try lia.
move=> a b [l [r E]] _.
have Ha : List.In a di_F by rewrite E; apply: List.in_or_app; right; left.
have Hb' : List.In b di_F by rewrite E; apply: List.in_or_app; right; right; left.
by move: (Hb a Ha) (Hb b Hb'); lia.
Qed.

Lemma di_regular i : Occurs di_F i -> Regular di_F i (Zpos 1).
Proof. by move: i; apply/(delta_time_scalar_some di_F (Zpos 1) di_valid di_small). Qed.

Lemma di_aligned : Aligned di_F (Zpos 1).
Proof. by move=> r r' _ _; exists (Z.sub (rtime r) (rtime r')); lia. Qed.

Lemma di_solutions : PolynomialSolutions (1 : Q) 2 di_A di_F.
Proof.
move=> i; exists (fun j => if j == 0 then 'X else 1); split=> [j|j|t v].
- by case: ifP => _; rewrite ?size_polyX ?size_poly1.
- rewrite !big_ord_recl big_ord0 addr0 !mxE /=.
  by case: j => -[|[|//]] Hj /=; rewrite !scale0r add0r ?derivX -?[1]/(1%:P) ?derivC ?scale1r ?scale0r.
- rewrite /di_F /=; do !case=> [[_ <- <-] j|] //; rewrite mxE; case: j => -[|[|//]] Hj /=; rewrite !hornerE; by apply/eqP.
Qed.

Lemma di_used t : t = Zpos 1 \/ t = Zpos 2 -> Used (ex_table center 1 2) Z0 (Zpos 1) di_F (Zpos 1) t.
Proof. by case=> -> p; rewrite /ex_table /=; do !case=> [<-|] //; eexists; rewrite /di_F /=; tauto. Qed.

Lemma di_spanning : SpanningSamples (ex_table center 1 2) Z0 (Zpos 1) di_F.
Proof.
move=> v H; apply: (@two_zero Q 1%:R 1%:R 2%:R 1%:R) => //.
  rewrite -two_sum; apply: (H (Zpos 1) (Zpos 1)); first exact: (di_used (or_introl erefl)).
  by rewrite /di_F /=; tauto.
rewrite -two_sum; apply: (H (Zpos 1) (Zpos 2)); first exact: (di_used (or_intror erefl)).
by rewrite /di_F /=; tauto.
Qed.

(** ** Two series with different time ranges *)

Definition tr_F : list (row 'rV[Q]_1) :=
  [:: sc (Zpos 2) Z0 1%:R; sc (Zpos 2) (Zpos 1) 2%:R; sc (Zpos 2) (Zpos 2) 5%:R; sc (Zpos 2) (Zpos 3) 10%:R;
      sc (Zpos 5) (Zpos 1) 2%:R; sc (Zpos 5) (Zpos 2) 3%:R; sc (Zpos 5) (Zpos 3) 4%:R; sc (Zpos 5) (Zpos 4) 5%:R].

Lemma tr_valid : ValidRows tr_F.
Proof. by have /tsc_ok [] : tsc tr_F = Ok tr_F by []. Qed.

Lemma tr_small : SmallSteps tr_F.
Proof.
have Hb r : List.In r tr_F -> Z.le Z0 (rtime r) /\ Z.lt (rtime r) (Zpos 100).
  by rewrite /tr_F /=; do !case=> [<- /=|]; try lia.
move=> a b [l [r E]] _.
have Ha : List.In a tr_F by rewrite E; apply: List.in_or_app; right; left.
have Hb' : List.In b tr_F by rewrite E; apply: List.in_or_app; right; right; left.
by move: (Hb a Ha) (Hb b Hb'); lia.
Qed.

Lemma tr_regular i : Occurs tr_F i -> Regular tr_F i (Zpos 1).
Proof. by move: i; apply/(delta_time_scalar_some tr_F (Zpos 1) tr_valid tr_small). Qed.

Lemma tr_aligned : Aligned tr_F (Zpos 1).
Proof. by move=> r r' _ _; exists (Z.sub (rtime r) (rtime r')); lia. Qed.

Lemma tr_sorted : IdsSorted tr_F.
Proof. by apply: TscOps.lexsorted_iff. Qed.

Lemma tr_times : exists r i, [/\ List.In r tr_F, Used (ex_table center 1 2) Z0 (Zpos 1) tr_F i (rtime r)
  & ~ Used (ex_table center 1 2) Z0 (Zpos 1) tr_F (rid r) (rtime r)].
Proof.
exists (sc (Zpos 5) (Zpos 1) 2%:R), (Zpos 2); split.
- by rewrite /tr_F /=; tauto.
- by move=> p; rewrite /ex_table /=; do !case=> [<-|] //; eexists; rewrite /tr_F /sc /=; tauto.
- move=> /(_ (Zneg 1, - 2%:R^-1) (or_introl erefl)) [v] /=.
  by rewrite /tr_F /sc /=; do !case=> [[]|].
Qed.
