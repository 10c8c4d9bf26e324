(** * Proofs about finite differences of real vectors. *)

From Coq Require Import List ZArith Lia.
From mathcomp Require Import all_ssreflect all_algebra.
From Verif Require Import Np TscModel TscSpec TscProofs TscDt TscRegular DerModel DerSpec DerList.
Import Order.Theory GRing.Theory Num.Theory.
Set Implicit Arguments.
Unset Strict Implicit.
Unset Printing Implicit Defensive.
Local Open Scope ring_scope.

Section P.
Variables (R : realFieldType) (f : nat).
Notation vec := ('rV[R]_f).
Notation frame := (list (row vec)).
Notation number := (@number R).

(** the arithmetic of the model for real vectors *)
Definition vaxpy (acc : vec) (w : R) (x : vec) : vec := acc + w *: x.
Definition vscale (unit : R) (order : nat) (d : Z) (x : vec) : vec := (unit * number d) ^- order *: x.

Lemma fold_sum (st : seq (Z * R)) (x : Z -> vec) (acc : vec) :
  List.fold_left (fun a p => vaxpy a (snd p) (x (fst p))) st acc = acc + \sum_(p <- st) p.2 *: x p.1.
Proof.
elim: st acc => [|p st IH] acc; first by rewrite big_nil addr0.
by rewrite big_cons /= IH /vaxpy addrA.
Qed.

Lemma numberE z : number z = (match z with Z0 => 0 | Zpos p => Posz (Pos.to_nat p) | Zneg p => - Posz (Pos.to_nat p) end)%:~R.
Proof. by case: z => [|p|p] //=; rewrite rmorphN. Qed.

Lemma number_pos p : (0 : R) < number (Zpos p).
Proof. by rewrite ltr0n; apply/ssrnat.ltP; apply: Pos2Nat.is_pos. Qed.

Lemma number_add_nat (z : Z) (n : nat) : number (Z.add z (Z.of_nat n)) = number z + n%:R.
Proof.
elim: n z => [|n IH] z; first by rewrite Z.add_0_r addr0.
rewrite Znat.Nat2Z.inj_succ Z.add_succ_r -Z.add_succ_l IH -(addn1 n) natrD [n%:R + _]addrC addrA; congr (_ + _).
case: z => [|p|p] //=; first by rewrite add0r.
  by rewrite Pos.add_1_r Pos2Nat.inj_succ -addn1 natrD.
case: (Pos.eq_dec p 1) => [->|H] /=; first by rewrite addNr.
rewrite -[in RHS](Pos.succ_pred p H) Pos2Nat.inj_succ -addn1 natrD opprD addrNK.
have -> : Z.pos_sub 1 p = Zneg (Pos.pred p); last by [].
rewrite Z.pos_sub_lt //; last lia.
by rewrite Pos.sub_1_r.
Qed.

Lemma numberN z : number (Z.opp z) = - number z.
Proof. by case: z => [|p|p] /=; rewrite ?oppr0 ?opprK. Qed.

Lemma number_add (a b : Z) : number (Z.add a b) = number a + number b.
Proof.
case: b => [|p|p].
- by rewrite Z.add_0_r addr0.
- by rewrite -(Znat.positive_nat_Z p) number_add_nat Znat.positive_nat_Z.
- rewrite -[Z.add _ _]Z.opp_involutive numberN Z.opp_add_distr.
  have -> : Z.opp (Z.neg p) = Z.of_nat (Pos.to_nat p) by rewrite Znat.positive_nat_Z.
  by rewrite number_add_nat numberN opprD opprK.
Qed.

Lemma number_mul (a b : Z) : number (Z.mul a b) = number a * number b.
Proof.
case: a => [|p|p]; case: b => [|q|q] /=; rewrite ?mul0r ?mulr0 // Pos2Nat.inj_mul natrM;
  by rewrite ?mulNr ?mulrN ?opprK.
Qed.

Lemma extent_in (st : seq (Z * R)) lo hi : Extent st lo hi ->
  [/\ List.In lo (List.map fst st), List.In hi (List.map fst st),
      (forall p, List.In p st -> Z.le lo (fst p) /\ Z.le (fst p) hi) & Z.le lo Z0 /\ Z.le Z0 hi].
Proof.
case=> -[w1 H1] [w2 H2] H3 H4; split=> //.
  by apply/List.in_map_iff; exists (lo, w1).
by apply/List.in_map_iff; exists (hi, w2).
Qed.

Lemma eq_big_list (T : Type) (l : seq T) (g h : T -> R) : (forall p, List.In p l -> g p = h p) ->
  \sum_(p <- l) g p = \sum_(p <- l) h p.
Proof.
elim: l => [|p l IH] H; first by rewrite !big_nil.
by rewrite !big_cons (H p (or_introl erefl)) IH // => q Hq; apply: H; right.
Qed.

Lemma taylor_sum (st : seq (Z * R)) (order accuracy : nat) (P : {poly R}) (a h : R) :
  OrderConditions st order accuracy -> (size P <= order + accuracy)%N ->
  \sum_(p <- st) p.2 * P.[a + h * number p.1] = h ^+ order * (P^`(order)).[a].
Proof.
move=> HC HP.
transitivity (\sum_(q < order + accuracy) P^`N(q).[a] * h ^+ q * \sum_(p <- st) p.2 * number p.1 ^+ q).
  under [RHS]eq_bigr do rewrite big_distrr /=.
  rewrite [RHS]exchange_big /=; apply: eq_bigr => p _.
  rewrite (nderiv_taylor_wide _ HP); last exact: mulrC.
  rewrite big_distrr /=; apply: eq_bigr => q _.
  by rewrite exprMn [RHS]mulrCA !mulrA.
case: (leqP (size P) order) => [Hs|Ho].
  rewrite big1; last first.
    move=> q _; rewrite HC //; case: eqP => [->|_]; last by rewrite mulr0.
    by rewrite nderivn_poly0 // horner0 !mul0r.
  by rewrite derivn_poly0 // horner0 mulr0.
have Hlt : (order < order + accuracy)%N := leq_trans Ho HP.
rewrite (bigD1 (Ordinal Hlt)) //= [X in _ + X]big1 ?addr0; last first.
  by move=> q Hq; rewrite HC // ifF ?mulr0 //; apply/negbTE; apply: contra Hq => /eqP E; apply/eqP/val_inj.
by rewrite HC // eqxx nderivn_def hornerMn mulr_natr mulrnAr [h ^+ _ * _]mulrC.
Qed.

(** the result of time_derivative *)
Lemma derivative_ok (unit : R) (table : scheme -> nat -> nat -> seq (Z * R)) k s order acc sh (F G : frame) d lo hi :
  ValidRows F -> (forall i, Occurs F i -> Regular F i d) ->
  List.In lo (List.map fst (table s order acc)) -> List.In hi (List.map fst (table s order acc)) ->
  (forall p, List.In p (table s order acc) -> Z.le lo (fst p) /\ Z.le (fst p) hi) -> Z.le lo Z0 /\ Z.le Z0 hi ->
  time_derivative 0 vaxpy (vscale unit) table k s order acc sh F = Ok G ->
  G = assembled F (diff 0 vaxpy (vscale unit) (table s order acc) order d (shifts s sh)) /\
  forall i, Occurs F i -> Peano.gt (length (rows_of F i)) (width lo hi).
Proof.
move=> HV HR H1 H2 H3 H4; rewrite /time_derivative /check_const_time_delta (delta_time_regular k F d HV HR) => E.
have E' : from_frame_list (List.map (fun p => diff 0 vaxpy (vscale unit) (table s order acc) order d (shifts s sh) (snd p)) (itertimeseries F)) (Some (ids F)) = Ok G.
  by case: k E.
have Hlong i : Occurs F i -> Peano.gt (length (rows_of F i)) (width lo hi).
  move=> Hi; case: (Compare_dec.le_lt_dec (length (rows_of F i)) (width lo hi)) => // Hl.
  have Hs := diff_short 0 vaxpy (vscale unit) F d HR (table s order acc) lo hi H1 H2 H3 H4 order (shifts s sh) i Hl.
  by have [e Ee] := frames_err F _ i Hi Hs; rewrite Ee in E'.
split=> //; move: E'; rewrite (frames_ok F _ HV) => [[->] //|i Hi].
by apply: (diff_good _ _ _ _ _ HV HR _ _ _ H1 H2 H3 H4); apply: Hlong.
Qed.

End P.
