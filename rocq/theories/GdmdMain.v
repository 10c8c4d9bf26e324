(** * Main lemmas about generators identified from sampled time series. *)

From Coq Require Import List ZArith Lia.
From mathcomp Require Import all_ssreflect all_algebra.
From Verif Require Import Np TscModel TscSpec TscProofs TscDt TscRegular ChkModel WinModel WinProofs PostProofs
  LinModel LinSpec LinProofs GenModel GenSpec GenProofs GenProps DerModel DerSpec DerList DerProofs DerProps
  GdmdModel GdmdSpec ChkSpec TscOps GdmdAlign GdmdProofs.
Import Order.Theory GRing.Theory Num.Theory.
Set Implicit Arguments.
Unset Strict Implicit.
Unset Printing Implicit Defensive.
Local Open Scope ring_scope.

Lemma nthE (A : Type) (l : list A) x0 i : List.nth i l x0 = nth x0 l i.
Proof. by elim: l i => [|a l IH] [|i] //=. Qed.

Lemma in_iota i N : List.In i (iota 0 N) <-> (i < N)%N.
Proof.
suff H m : List.In i (iota m N) <-> (m <= i < m + N)%N by rewrite H add0n.
elim: N m => [|N IH] m /=.
  by rewrite addn0; split=> // /andP [H1 H2]; move: (leq_trans H2 H1); rewrite ltnn.
rewrite IH addSnnS; split=> [[<-|/andP [H1 H2]]|/andP [H1 H2]].
- by rewrite leqnn /= -[X in (X < _)%N]addn0 ltn_add2l.
- by rewrite (ltnW H1).
- by move: H1; rewrite leq_eqVlt => /orP [/eqP ->|H1]; [left|right; rewrite H1].
Qed.

Lemma nodup_label V (U : list (row V)) a b : List.NoDup (index U) -> List.In a U -> List.In b U ->
  rid a = rid b -> rtime a = rtime b -> a = b.
Proof.
elim: U => [//|u U IH] /= /List.NoDup_cons_iff [Hn HN] [<-|Ha] [<-|Hb] // Ei Et.
- by case: Hn; rewrite Ei Et; apply: (List.in_map (fun r => (rid r, rtime r))).
- by case: Hn; rewrite -Ei -Et; apply: (List.in_map (fun r => (rid r, rtime r))).
- exact: IH.
Qed.

Lemma eq_big_listM (R : realFieldType) a b (T : Type) (l : seq T) (g h : T -> 'M[R]_(a, b)) :
  (forall p, List.In p l -> g p = h p) -> \sum_(p <- l) g p = \sum_(p <- l) h p.
Proof.
elim: l => [|p l IH] H; first by rewrite !big_nil.
by rewrite !big_cons (H p (or_introl erefl)) IH // => q Hq; apply: H; right.
Qed.

Section Full.
Variables (R : realFieldType) (n : nat) (unit : R).
Variable table : scheme -> nat -> nat -> seq (Z * R).
Variable lstsq : lstsq_t R.
Notation frame := (list (row 'rV[R]_n)).
Variables (k : tkind) (s : scheme) (acc : nat) (sh : bool) (F : frame) (L : 'M[R]_n) (d lo hi : Z).
Hypothesis HV : ValidRows F.
Hypothesis HR : forall i, Occurs F i -> Regular F i d.
Hypothesis HE : Extent (table s 1 acc) lo hi.
Hypothesis Hl : solves_consistent lstsq.
Hypothesis HL : gdmd_fit unit table lstsq k (params s acc sh) F = Ok L.
Let m := moved_by s sh hi.

(** a system sampled at regular times *)
Lemma sampled_matrix (M : 'M[R]_n) : M \in unitmx -> SampledSystem d M F -> SpanningSamples (table s 1 acc) m d F ->
  L = (unit * number R d)^-1 *: \sum_(p <- table s 1 acc) p.2 *: zpow M (Z.sub p.1 m).
Proof.
move=> HM HS Hsp.
have [X [G [/gdmd_data_pairs [EG HXG] ->]]] := gdmd_fit_data HL.
apply: (data_recovers HV HR HE EG HXG Hl Hsp) => x g Hx Hg Hi Ht j.
have [_ _ /(_ g) [/(_ Hg) [t0 [Et [y [Hy Ey]]]] _]] := C60_values HV HR HE EG.
have Hpow p : List.In p (table s 1 acc) -> (y p.1)^T = zpow M (Z.sub p.1 m) *m (rval x)^T.
  move=> Hp; apply: (sample_power table HM HV HR HS (i := rid x) (t := rtime x)); first by case: x Hx {Hi Ht}.
  have := Hy p Hp; congr (List.In (mkRow _ _ _) F); first exact: esym.
  by rewrite Ht Et /m; lia.
have E : (rval g)^T = ((unit * number R d)^-1 *: \sum_(p <- table s 1 acc) p.2 *: zpow M (Z.sub p.1 m)) *m (rval x)^T.
  rewrite Ey expr1 linearZ linear_sum -scalemxAl mulmx_suml; congr (_ *: _).
  by apply: eq_big_listM => p Hp; rewrite linearZ /= Hpow // -scalemxAl.
have := congr1 (fun A : 'cV[R]_n => A j 0) E; rewrite [LHS]mxE => ->.
by rewrite mxE; apply: eq_bigr => c _; rewrite [(rval x)^T _ _]mxE.
Qed.

(** polynomial solutions *)
Lemma polynomial_generator (A : 'M[R]_n) : m = Z0 -> OrderConditions (table s 1 acc) 1 acc -> unit != 0 ->
  PolynomialSolutions unit acc A F -> SpanningSamples (table s 1 acc) m d F -> L = A.
Proof.
move=> Hm HO Hu HP Hsp.
have [X [G [/gdmd_data_pairs [EG HXG] ->]]] := gdmd_fit_data HL.
apply: (data_recovers HV HR HE EG HXG Hl Hsp) => x g Hx Hg Hi Ht j.
have [P [HPs HPd HPx]] := HP (rid x).
have Hg' : List.In (mkRow (rid x) (rtime x) (rval g)) G by rewrite Hi Ht; case: g Hg {Hi Ht}.
have := C60_exact_for_polynomials HV HR HE HO Hu EG HPs HPx Hg' j.
rewrite -/m Hm Z.mul_0_l Z.sub_0_r => ->.
rewrite derivn1 HPd horner_sum; apply: eq_bigr => c _.
by rewrite hornerZ (HPx (rtime x) (rval x)) //; case: x Hx {Hi Ht HPx Hg' HPs HPd}.
Qed.

(** the pairs of the least squares problem *)
Lemma least_squares : exists rows : list (row ('rV[R]_n * 'rV[R]_n)),
  [/\ List.NoDup (index rows),
      (forall i t x g, List.In (mkRow i t (x, g)) rows <->
         List.In (mkRow i t x) F /\
         exists t0, t = Z.add t0 (Z.mul m d) /\ Derivative unit (table s 1 acc) 1 d F t0 (mkRow i t g)) &
      forall L', derivative_error (List.map rval rows) L <= derivative_error (List.map rval rows) L'].
Proof.
have [X [G [/gdmd_data_pairs [EG HXG] EL]]] := gdmd_fit_data HL.
have [HVG HSG HG] := C60_values HV HR HE EG.
pose r0 : row 'rV[R]_n := mkRow Z0 Z0 0.
pose rows := [seq mkRow (rid (List.nth i G r0)) (rtime (List.nth i G r0)) (rval (List.nth i X r0), rval (List.nth i G r0))
             | i <- iota 0 (length G)].
exists rows; split.
- have -> : index rows = index G.
    rewrite /index /rows -[List.map _ [seq _ | _ <- _]]/([seq _ | _ <- [seq _ | _ <- _]]) -map_comp.
    rewrite -[in RHS](mkseq_nth r0 G) -[List.map _ (mkseq _ _)]/([seq _ | _ <- [seq _ | _ <- _]]) -map_comp.
    by apply: eq_map => i /=; rewrite nthE.
  by apply: sorted_labels_nodup; apply: index_sorted => //; apply: vr_inc.
- move=> i t x g; split.
    case/List.in_map_iff => j [[Ei Et Ex Eg] /in_iota Hj].
    have [H1 H2 H3 H4] := pair_at HXG (Ordinal Hj); rewrite -/r0 /= in H1 H2 H3 H4.
    split.
      by rewrite -Ei -Et -Ex -H3 -H4; case: (List.nth j X r0) H1.
    have /HG [t0 [E1 E2]] := H2; exists t0; rewrite -Et; split=> //.
    by rewrite -Ei -Eg; case: (List.nth j G r0) E2.
  case=> Hx [t0 [Et Hg]].
  have {}Hg : List.In (mkRow i t g) G by apply/HG; exists t0.
  have [j [Hj Ej]] := List.In_nth _ _ r0 Hg.
  have Hj' : (j < length G)%N by apply/ssrnat.ltP.
  have [H1 H2 H3 H4] := pair_at HXG (Ordinal Hj'); rewrite -/r0 /= Ej /= in H1 H2 H3 H4.
  apply/List.in_map_iff; exists j; split; last by apply/in_iota.
  by rewrite Ej /= (valid_row_unique HV H1 Hx H3 H4).
- move=> L'.
  have EE K : derivative_error (List.map rval rows) K
    = one_step_error (const_mx 1) (values_matrix (length G) X) (values_matrix (length G) G) K.
    rewrite /derivative_error /one_step_error -[List.map _ _]/([seq _ | _ <- _]) !big_map.
    rewrite -{1}[length G]subn0 -/(index_iota 0 (length G)) big_mkord; apply: eq_bigr => i _.
    rewrite mxE mul1r; apply: eq_bigr => j _; rewrite (values_row' r0) // /=; congr ((_ - _) ^+ 2).
    by apply: eq_bigr => c _; rewrite (values_row' r0 _ _ (data_length HXG)).
  by rewrite !EE EL; apply: C59_generator_least_squares.
Qed.

End Full.

(** ** Control-affine systems *)

Section Affine.
Variables (R : realFieldType) (n q : nat) (unit : R).
Variable table : scheme -> nat -> nat -> seq (Z * R).
Variable lstsq : lstsq_t R.
Variables (k : tkind) (s : scheme) (acc : nat) (F : list (row 'rV[R]_n)) (U : list (row 'rV[R]_q)) (d lo hi : Z).
Hypothesis HV : ValidRows F.
Hypothesis HR : forall i, Occurs F i -> Regular F i d.
Hypothesis HE : Extent (table s 1 acc) lo hi.
Hypothesis HS : IdsSorted F.
Hypothesis HA : Aligned F d.
Hypothesis HU : index U = index F.
Hypothesis Hl : solves_consistent lstsq.

Lemma affine_recovers (A : 'M[R]_n) (B : 'I_q -> 'M[R]_n) A' T :
  CommonTimes (table s 1 acc) d F -> OrderConditions (table s 1 acc) 1 acc -> unit != 0 ->
  PolynomialControlled unit acc A B F U -> SpanningControlled (table s 1 acc) d F U ->
  affine_fit unit table lstsq k s acc F U = Ok (A', T) -> A' = A /\ forall c, T c = B c.
Proof.
move=> HC HO Hu HP Hsp; rewrite /affine_fit.
have [G EG] : exists G, derivative unit table k s 1 acc false F = Ok G \/ affine_fit unit table lstsq k s acc F U <> Ok (A', T).
  rewrite /affine_fit /affine_data first_derivativeE; case: derivative => [G|e]; first by exists G; left.
  exists [::]; right; case: check_const_time_delta => //= ?; case: fit_attrs => //.
case: EG => [EG|]; last by rewrite /affine_fit => /[apply].
have [-> [EX EV]] := affine_common HV HR HE HS HA HU EG HC.
set X := select_time_values F _ in EX *; set V := select_time_values U _ in EV *; rewrite [bind _ _]/=.
set N := length G; case EF: koopman_and_control_tensor => [A1 T1] [<- <-] {A' T}.
pose x0 : row 'rV[R]_n := mkRow Z0 Z0 0; pose u0 : row 'rV[R]_q := mkRow Z0 Z0 0.
have LX : length X = N := same_index_length EX.
have LV : length V = N := same_index_length EV.
have PX (i : 'I_N) : [/\ List.In (List.nth i X x0) F, List.In (List.nth i V u0) U, List.In (List.nth i G x0) G &
    [/\ rid (List.nth i X x0) = rid (List.nth i G x0), rtime (List.nth i X x0) = rtime (List.nth i G x0),
    rid (List.nth i V u0) = rid (List.nth i G x0) & rtime (List.nth i V u0) = rtime (List.nth i G x0)]].
  have Hi : (i < length G)%coq_nat := elimT ssrnat.ltP (ltn_ord i).
  have [H1 H2] := forall2_nth x0 x0 (same_index_pairs EX) Hi.
  have [H3 H4] := forall2_nth u0 x0 (same_index_pairs EV) Hi.
  split=> //; last exact: List.nth_In.
    have : List.In (List.nth i X x0) X by apply: List.nth_In; rewrite LX.
    by case/List.filter_In.
  have : List.In (List.nth i V u0) V by apply: List.nth_In; rewrite LV.
  by case/List.filter_In.
have HN : (0 < N)%N.
  have [HVG _ _] := C60_values HV HR HE EG.
  by rewrite /N; case: (G) HVG => [[]|].
have := @C59_recovers_affine_system R lstsq N n q N (values_matrix N X) (values_matrix N G) (values_matrix N V) A B Hl HN.
rewrite EF.
case=> [||-> HT _].
- move=> v W H; apply: (Hsp v W) => i t x u Hused Hx Hu'.
  have /(used_iff HV HR HE EG) Hin := Hused.
  have [j [Hj Ej]] := List.In_nth _ _ (Z0, Z0) Hin.
  have Hj' : (j < N)%N by apply/ssrnat.ltP; move: Hj; rewrite List.map_length.
  have [H1 H2 _ [H3 H4 H5 H6]] := PX (Ordinal Hj'); rewrite /= in H1 H2 H3 H4 H5 H6.
  have [Ei Et] : rid (List.nth j G x0) = i /\ rtime (List.nth j G x0) = t.
    move: Ej; rewrite /index (List.nth_indep _ _ ((fun r => (rid r, rtime r)) x0)) // List.map_nth => -[-> ->] //.
  have EX' := valid_row_unique HV H1 Hx (etrans H3 Ei) (etrans H4 Et).
  have EU' : List.nth j V u0 = mkRow i t u.
    apply: (@nodup_label _ U) => //; [|exact: (etrans H5 Ei)|exact: (etrans H6 Et)].
    by rewrite HU; apply: sorted_labels_nodup; apply: index_sorted => //; apply: vr_inc.
  rewrite -[RHS](H (Ordinal Hj')); congr (_ + _).
    by apply: eq_bigr => c _; rewrite (values_row' x0) // EX'.
  by apply: eq_bigr => c _; apply: eq_bigr => c' _; rewrite (values_row' x0) // (values_row' u0) // EX' EU'.
- move=> i a; have [H1 H2 H0 [H3 H4 H5 H6]] := PX i.
  have [P [HPs HPx HPd]] := HP (rid (List.nth i X x0)).
  have Hg' : List.In (mkRow (rid (List.nth i X x0)) (rtime (List.nth i X x0)) (rval (List.nth i G x0))) G.
    by rewrite H3 H4; case: (List.nth i G x0) H0.
  have Hu' : List.In (mkRow (rid (List.nth i X x0)) (rtime (List.nth i X x0)) (rval (List.nth i V u0))) U.
    by rewrite H3 H4 -H5 -H6; case: (List.nth i V u0) H2.
  have Hx' : List.In (mkRow (rid (List.nth i X x0)) (rtime (List.nth i X x0)) (rval (List.nth i X x0))) F.
    by case: (List.nth i X x0) H1.
  have := C60_exact_for_polynomials HV HR HE HO Hu EG HPs HPx Hg' a.
  rewrite (values_row' x0) // => ->.
  rewrite moved0 Z.mul_0_l Z.sub_0_r derivn1 (HPd _ _ Hu'); congr (_ + _).
    by apply: eq_bigr => c _; rewrite (values_row' x0) // (HPx _ _ Hx').
  apply: eq_bigr => c _; rewrite (values_row' u0) //; congr (_ * _).
  by apply: eq_bigr => b _; rewrite (values_row' x0) // (HPx _ _ Hx').
- by [].
Qed.

End Affine.
