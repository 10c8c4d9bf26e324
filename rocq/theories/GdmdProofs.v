(** * Proofs about generators identified from sampled time series. *)

From Coq Require Import List ZArith Lia.
From mathcomp Require Import all_ssreflect all_algebra.
From Verif Require Import Np TscModel TscSpec TscProofs TscDt TscRegular ChkModel WinModel WinProofs PostProofs
  LinModel LinSpec LinProofs GenModel GenSpec GenProofs GenProps DerModel DerSpec DerList DerProofs DerProps
  GdmdModel GdmdSpec ChkSpec TscOps GdmdAlign.
Import Order.Theory GRing.Theory Num.Theory.
Set Implicit Arguments.
Unset Strict Implicit.
Unset Printing Implicit Defensive.
Local Open Scope ring_scope.

(** ** Lists *)

Lemma forall2_nth {A B} (P : A -> B -> Prop) (l : list A) (m : list B) a b i :
  Forall2 P l m -> (i < length m)%coq_nat -> P (List.nth i l a) (List.nth i m b).
Proof.
move=> H; elim: H i => [|x y l' m' Hp _ IH] [|i] /= Hi; try lia; first by [].
by apply: IH; lia.
Qed.

Lemma forall2_in {A B} (P : A -> B -> Prop) (l : list A) (m : list B) y :
  Forall2 P l m -> List.In y m -> exists2 x, List.In x l & P x y.
Proof.
elim=> [//|a b l' m' Hp _ IH] /= [<-|/IH [x Hx Hxy]]; first by exists a; [left|].
by exists x; [right|].
Qed.

Lemma valid_row_unique V (F : list (row V)) a b : ValidRows F -> List.In a F -> List.In b F ->
  rid a = rid b -> rtime a = rtime b -> a = b.
Proof.
move=> HV Ha Hb Hi Ht.
have [l [r E]] := List.in_split _ _ Ha.
have : List.In b (l ++ a :: r) by rewrite -[l ++ _]/(app l (a :: r)) -E.
rewrite List.in_app_iff /= => -[Hl|[//|Hr]].
  have [l1 [l2 El]] := List.in_split _ _ Hl.
  have HB : Before F b a by exists l1, l2, r; rewrite E El -List.app_assoc.
  by have := vr_inc F HV b a HB (esym Hi); lia.
have [l1 [l2 El]] := List.in_split _ _ Hr.
have HB : Before F a b by exists l, l1, l2; rewrite E El.
by have := vr_inc F HV a b HB Hi; lia.
Qed.

Section P.
Variables (R : realFieldType) (n : nat) (unit : R).
Variable table : scheme -> nat -> nat -> seq (Z * R).
Variable lstsq : lstsq_t R.
Notation frame := (list (row 'rV[R]_n)).

Lemma first_derivativeE k s acc sh (F : frame) :
  first_derivative unit table k s acc sh F = derivative unit table k s 1 acc sh F.
Proof. by []. Qed.

Lemma in_nth (F : frame) (d : Z) : ValidRows F -> (forall i, Occurs F i -> Regular F i d) ->
  forall i t (v : 'rV[R]_n), Z.lt Z0 d ->
  List.In (mkRow i t v) F <->
  exists k, (k < length (series F i))%coq_nat /\ t = Z.add (t0 F i) (Z.mul (Z.of_nat k) d) /\
            v = List.nth k (List.map snd (series F i)) 0.
Proof. move=> HV HR i t v Hd; exact: (in_series_nth 0 (@vaxpy R n) (@vscale R n 0) F d HV HR i t v 0 Hd). Qed.

(** ** Two-sided trajectories *)

Section Power.
Variable M : 'M[R]_n.
Hypothesis HM : M \in unitmx.

Definition zpow (z : Z) : 'M[R]_n :=
  match z with
  | Z0 => 1%:M
  | Zpos p => iter (Pos.to_nat p) (mulmx M) 1%:M
  | Zneg p => iter (Pos.to_nat p) (mulmx (invmx M)) 1%:M
  end.

Lemma zpow_succ z : zpow (Z.add z (Zpos 1)) = M *m zpow z.
Proof.
case: z => [|p|p] //=; first by rewrite Pos.add_1_r Pos2Nat.inj_succ.
case: (Pos.eq_dec p 1) => [->|H] /=; first by rewrite mulmx1 mulmxV.
have -> : Z.pos_sub 1 p = Zneg (Pos.pred p) by rewrite Z.pos_sub_lt //; lia.
by rewrite /= -[in RHS](Pos.succ_pred p H) Pos2Nat.inj_succ /= mulmxA mulmxV // mul1mx.
Qed.

Lemma two_sided_zpow x : TwoSided M x -> forall z, x z = zpow z *m x Z0.
Proof.
move=> Hx; apply: Z.bi_induction => [|z]; first by rewrite mul1mx.
rewrite -Z.add_1_r Hx zpow_succ -mulmxA; split=> [-> //|E].
by rewrite -[LHS]mul1mx -(mulVmx HM) -mulmxA E !mulmxA mulVmx // mul1mx.
Qed.

Lemma zpow_two_sided y : TwoSided M (fun z => zpow z *m y).
Proof. by move=> z; rewrite zpow_succ mulmxA. Qed.

Lemma row_of_sum (v w : 'rV[R]_n) (A : 'M[R]_n) : (forall j, w 0 j = \sum_k A j k * v 0 k) -> w = v *m A^T.
Proof. by move=> H; apply/rowP => j; rewrite H mxE; apply: eq_bigr => k _; rewrite mxE mulrC. Qed.

Variables (F : frame) (d : Z).
Hypothesis HV : ValidRows F.
Hypothesis HR : forall i, Occurs F i -> Regular F i d.
Hypothesis HS : SampledSystem d M F.

Let val i (k : nat) := List.nth k (List.map snd (series F i)) 0.

Lemma val_step i k : (S k < length (series F i))%coq_nat -> (val i (S k))^T = M *m (val i k)^T.
Proof.
move=> Hk; have Hd := step_pos F d HV HR.
have H1 : List.In (mkRow i (Z.add (t0 F i) (Z.mul (Z.of_nat k) d)) (val i k)) F.
  by apply/(@in_nth F d HV HR i _ _ Hd); exists k; split; [lia|split=> //].
have H2 : List.In (mkRow i (Z.add (Z.add (t0 F i) (Z.mul (Z.of_nat k) d)) d) (val i (S k))) F.
  by apply/(@in_nth F d HV HR i _ _ Hd); exists (S k); split; [lia|split; [lia|by []]].
by rewrite (row_of_sum (HS H1 H2)) trmx_mul trmxK.
Qed.

Lemma val_steps i k l : (k + l < length (series F i))%coq_nat -> (val i (k + l))^T = zpow (Z.of_nat l) *m (val i k)^T.
Proof.
elim: l => [|l IH] H; first by rewrite addn0 mul1mx.
rewrite addnS val_step; last by move: H; rewrite -!plusE; lia.
rewrite IH; last by move: H; rewrite -!plusE; lia.
by rewrite mulmxA -zpow_succ Z.add_1_r -Nat2Z.inj_succ.
Qed.

Lemma zpow_neg_nat l : zpow (Z.opp (Z.of_nat l)) *m zpow (Z.of_nat l) = 1%:M.
Proof.
elim: l => [|l IH]; first by rewrite mulmx1.
have E : zpow (Z.opp (Z.of_nat l)) = M *m zpow (Z.opp (Z.of_nat (S l))).
  by rewrite -zpow_succ; congr zpow; lia.
have E2 : zpow (Z.of_nat l.+1) = M *m zpow (Z.of_nat l) by rewrite -zpow_succ; congr zpow; lia.
have Hc : zpow (Z.opp (Z.of_nat l)) = zpow (Z.opp (Z.of_nat l.+1)) *m M.
  rewrite E; case: (Z.opp (Z.of_nat l.+1)) => [|p|p] /=; first by rewrite mul1mx mulmx1.
    elim: (Pos.to_nat p) => [|m IHm] /=; first by rewrite mul1mx mulmx1.
    by rewrite {1}IHm mulmxA.
  elim: (Pos.to_nat p) => [|m IHm] /=; first by rewrite mul1mx mulmx1.
  by rewrite -mulmxA -IHm !mulmxA mulVmx // mulmxV.
by rewrite E2 mulmxA -Hc.
Qed.

(** samples of one series at any distance *)
Lemma sample_power i t z a b : List.In (mkRow i t a) F -> List.In (mkRow i (Z.add t (Z.mul z d)) b) F ->
  b^T = zpow z *m a^T.
Proof.
have Hd := step_pos F d HV HR.
move=> /(@in_nth F d HV HR i _ _ Hd) [k [Hk [Et Ea]]] /(@in_nth F d HV HR i _ _ Hd) [l [Hl [Et' Eb]]].
have Ez : z = Z.sub (Z.of_nat l) (Z.of_nat k) by nia.
have [H|H] : (k <= l)%coq_nat \/ (l <= k)%coq_nat by lia.
  rewrite Ea Eb -!/(val i _).
  have -> : z = Z.of_nat (l - k)%coq_nat by lia.
  rewrite -(@val_steps i k (l - k)%coq_nat); last by rewrite -plusE; lia.
  by congr (val i _)^T; rewrite -plusE; lia.
have -> : z = Z.opp (Z.of_nat (k - l)%coq_nat) by lia.
have E : a^T = zpow (Z.of_nat (k - l)%coq_nat) *m b^T.
  rewrite Ea Eb -!/(val i _) -(@val_steps i l (k - l)%coq_nat); last by rewrite -plusE; lia.
  by congr (val i _)^T; rewrite -plusE; lia.
by rewrite E mulmxA zpow_neg_nat mul1mx.
Qed.

End Power.

(** ** The data of gDMDFull *)

Definition params s acc sh : option fd_kwargs := Some (FdKwargs (Some s) None (Some acc) (Some sh)).

Lemma gdmd_data_pairs k s acc sh (F X G : frame) : gdmd_data unit table k (params s acc sh) F = Ok (X, G) ->
  derivative unit table k s 1 acc sh F = Ok G /\
  Forall2 (fun x g => [/\ List.In x F, rid x = rid g & rtime x = rtime g]) X G.
Proof.
rewrite /gdmd_data; case: check_const_time_delta => //= d0.
case: fit_attrs => //= d1.
rewrite first_derivativeE; case E: derivative => [G'|] //=.
case EL: loc_index => [X'|] //= [<- <-]; split=> //.
move/find_loc: EL; rewrite /index; elim: G' X' {E} => [|g G' IH] X' H; inversion H; subst => //.
by constructor; [case: H2 => Hin [-> ->]|apply: IH].
Qed.

Section Data.
Variables (k : tkind) (s : scheme) (acc : nat) (sh : bool) (F X G : frame) (d lo hi : Z).
Hypothesis HV : ValidRows F.
Hypothesis HR : forall i, Occurs F i -> Regular F i d.
Hypothesis HE : Extent (table s 1 acc) lo hi.
Hypothesis EG : derivative unit table k s 1 acc sh F = Ok G.
Hypothesis HXG : Forall2 (fun x g => [/\ List.In x F, rid x = rid g & rtime x = rtime g]) X G.
Notation m := (moved_by s sh hi).

Lemma used_derivative i t : Used (table s 1 acc) m d F i t <-> exists v, List.In (mkRow i t v) G.
Proof.
have [_ _ H] := C60_values HV HR HE EG; split.
  move=> HU.
  have Hx : exists x : Z -> 'rV[R]_n, forall p, List.In p (table s 1 acc) ->
      List.In (mkRow i (Z.add t (Z.mul (Z.sub p.1 m) d)) (x p.1)) F.
    pose x (o : Z) : 'rV[R]_n :=
      if List.find (fun r => (Z.eqb (rid r) i && Z.eqb (rtime r) (Z.add t (Z.mul (Z.sub o m) d)))) F is Some r then rval r else 0.
    exists x => p Hp; have [v Hv] := HU p Hp; rewrite /x; case Ef: List.find => [r|].
      have [Hr /andP[/Z.eqb_eq H1 /Z.eqb_eq H2]] := List.find_some _ _ Ef.
      by case: r Hr H1 H2 {Ef} => i' t' v' /= Hr H1 H2; rewrite -H1 -H2.
    by have := List.find_none _ _ Ef _ Hv; rewrite /= !Z.eqb_refl.
  have [x Hx'] := Hx.
  exists ((unit * number R d) ^- 1 *: \sum_(p <- table s 1 acc) p.2 *: x p.1).
  apply/H; exists (Z.sub t (Z.mul m d)); split=> /=; first by lia.
  exists x; split=> // p Hp; have := Hx' p Hp; congr (List.In (mkRow i _ _) F); lia.
case=> v /H [t' [/= Et [x [Hx _]]]] p Hp; exists (x p.1); have := Hx p Hp.
by congr (List.In (mkRow i _ _) F); rewrite Et; lia.
Qed.

Lemma data_length : length X = length G.
Proof. by elim: HXG => //= *; congr S. Qed.

Lemma values_row n' (l : list (row 'rV[R]_n')) (r0 : row 'rV[R]_n') i (Hi : (i < length l)%N) j :
  values_matrix (length l) l (Ordinal Hi) j = rval (List.nth i l r0) 0 j.
Proof.
rewrite !mxE -(List.map_nth rval) (List.nth_indep _ _ (rval r0)) ?List.map_length //.
exact/ssrnat.ltP.
Qed.

Lemma values_row' n' (l : list (row 'rV[R]_n')) (r0 : row 'rV[R]_n') N (i : 'I_N) j :
  length l = N -> values_matrix N l i j = rval (List.nth i l r0) 0 j.
Proof. by move=> E; subst N; case: i => i Hi; rewrite (values_row r0). Qed.

Let r0 : row 'rV[R]_n := mkRow Z0 Z0 0.

Lemma pair_at (i : 'I_(length G)) :
  [/\ List.In (List.nth i X r0) F, List.In (List.nth i G r0) G,
      rid (List.nth i X r0) = rid (List.nth i G r0) & rtime (List.nth i X r0) = rtime (List.nth i G r0)].
Proof.
have Hi : (i < length G)%coq_nat := elimT ssrnat.ltP (ltn_ord i).
have [H1 H2 H3] := forall2_nth r0 r0 HXG Hi; split=> //.
exact: List.nth_In.
Qed.

Lemma pairs_cover i t x : Used (table s 1 acc) m d F i t -> List.In (mkRow i t x) F ->
  exists j : 'I_(length G), List.nth j X r0 = mkRow i t x.
Proof.
move=> /used_derivative [v Hv] Hx.
have [j [Hj Ej]] := List.In_nth _ _ r0 Hv.
have Hj' : (j < length G)%N by apply/ssrnat.ltP.
exists (Ordinal Hj') => /=; have [H1 _ H3 H4] := pair_at (Ordinal Hj'); rewrite /= Ej /= in H3 H4.
exact: (valid_row_unique HV).
Qed.

Lemma data_spanning : SpanningSamples (table s 1 acc) m d F -> spanning (values_matrix (length G) X).
Proof.
move=> HS v Hv; apply: HS => i t x HU Hx.
have [j Ej] := pairs_cover HU Hx.
rewrite -[RHS](Hv j); apply: eq_bigr => c _; congr (_ * _).
by rewrite (values_row' r0 _ _ data_length) Ej.
Qed.

(** if all derivatives are given by a matrix, it is found *)
Lemma data_recovers (L : 'M[R]_n) : solves_consistent lstsq -> SpanningSamples (table s 1 acc) m d F ->
  (forall x g, List.In x F -> List.In g G -> rid x = rid g -> rtime x = rtime g ->
     forall j, rval g 0 j = \sum_c L j c * rval x 0 c) ->
  koopman_generator lstsq (values_matrix (length G) X) (values_matrix (length G) G) = L.
Proof.
move=> Hl HS HL; apply: C59_recovers_generator => //; first exact: data_spanning.
move=> i j; have [H1 H2 H3 H4] := pair_at i.
rewrite (values_row' r0) // (HL _ _ H1 H2 H3 H4); apply: eq_bigr => c _.
by rewrite (values_row' r0 _ _ data_length).
Qed.

End Data.

Lemma gdmd_fit_data k kw (F : frame) L : gdmd_fit unit table lstsq k kw F = Ok L ->
  exists X G, gdmd_data unit table k kw F = Ok (X, G) /\
              L = koopman_generator lstsq (values_matrix (length G) X) (values_matrix (length G) G).
Proof. by rewrite /gdmd_fit; case: gdmd_data => // -[X G] [<-]; exists X, G. Qed.

End P.

(** ** gDMDAffine *)

Section Affine.
Variables (R : realFieldType) (n q : nat) (unit : R).
Variable table : scheme -> nat -> nat -> seq (Z * R).
Variable lstsq : lstsq_t R.
Variables (k : tkind) (s : scheme) (acc : nat) (F G : list (row 'rV[R]_n)) (U : list (row 'rV[R]_q)) (d lo hi : Z).
Hypothesis HV : ValidRows F.
Hypothesis HR : forall i, Occurs F i -> Regular F i d.
Hypothesis HE : Extent (table s 1 acc) lo hi.
Hypothesis HS : IdsSorted F.
Hypothesis HA : Aligned F d.
Hypothesis HU : index U = index F.
Hypothesis EG : derivative unit table k s 1 acc false F = Ok G.

Lemma moved0 : moved_by s false hi = Z0.
Proof. by case: s. Qed.

Lemma used_iff i t : Used (table s 1 acc) Z0 d F i t <-> List.In (i, t) (index G).
Proof.
have := used_derivative HV HR HE EG i t; rewrite moved0 => ->; rewrite /index List.in_map_iff; split.
  by case=> v Hv; exists (mkRow i t v).
by case=> -[i' t' v] [[/= <- <-] Hv]; exists v.
Qed.

(** the derivative at a label needs the sample itself *)
Lemma used_sample i t : Used (table s 1 acc) Z0 d F i t -> exists v, List.In (mkRow i t v) F.
Proof.
have [[w1 H1] [w2 H2] _ [Hl Hh]] := HE; have Hd := step_pos F d HV HR => HUs.
have [a /(in_nth HV HR _ _ _ Hd) [ka [Hka [Ea _]]]] := HUs _ H1.
have [b /(in_nth HV HR _ _ _ Hd) [kb [Hkb [Eb _]]]] := HUs _ H2.
rewrite /= in Ea Eb.
exists (List.nth (Z.to_nat (Z.sub (Z.of_nat ka) lo)) (List.map snd (series F i)) 0).
apply/(in_nth HV HR _ _ _ Hd); exists (Z.to_nat (Z.sub (Z.of_nat ka) lo)).
have E : Z.sub (Z.of_nat kb) hi = Z.sub (Z.of_nat ka) lo by nia.
split; first by lia.
by split=> //; rewrite Z2Nat.id; nia.
Qed.

Lemma derivative_labels : List.incl (index G) (index F).
Proof.
move=> [i t] /used_iff /used_sample [v Hv]; rewrite /index List.in_map_iff.
by exists (mkRow i t v).
Qed.

Lemma f_sorted : Sorted.StronglySorted lab_lt (index F).
Proof. by apply: index_sorted => //; apply: vr_inc. Qed.

Lemma g_sorted : Sorted.StronglySorted lab_lt (index G).
Proof.
have [HVG HSG _] := C60_values HV HR HE EG.
by apply: index_sorted => //; apply: vr_inc.
Qed.

Lemma affine_dataE : affine_data unit table k s acc F U =
  let X := select_time_values F (time_values G) in
  let V := select_time_values U (time_values G) in
  if Nat.eqb (length X) (length G) && Nat.eqb (length V) (length X) then Ok (X, V, G) else Err ValueError.
Proof.
rewrite /affine_data /check_const_time_delta (delta_time_regular k F d HV HR) /=.
rewrite (fit_attrs_regular k true F (Some U) d HV HR HA) /=; last by move=> _ [<-].
rewrite first_derivativeE EG /= !select_times_sorted //.
  by rewrite (lexsorted_index F U HU); apply: sorted_lexsorted => //; apply: vr_inc.
by apply: sorted_lexsorted => //; apply: vr_inc.
Qed.

Lemma same_index_length V W (A : list (row V)) (B : list (row W)) : index A = index B -> length A = length B.
Proof. by rewrite /index => /(congr1 (@length _)); rewrite !List.map_length. Qed.

Lemma u_sorted : Sorted.StronglySorted lab_lt (index U). Proof. have H := f_sorted; rewrite -HU in H; exact H. Qed.

Lemma u_labels : List.incl (index G) (index U). Proof. have H := derivative_labels; rewrite -HU in H; exact H. Qed.

Lemma common_covered : CommonTimes (table s 1 acc) d F -> Covered F G.
Proof.
move=> HC r g Hr Hg E; apply/used_iff/(HC r (rid g) Hr)/used_iff; rewrite E.
by apply/List.in_map_iff; exists g.
Qed.

Lemma common_covered_u : CommonTimes (table s 1 acc) d F -> Covered U G.
Proof.
move=> HC u g Hu Hg E.
have : List.In (rid u, rtime u) (index F) by rewrite -HU; apply/List.in_map_iff; exists u.
case/List.in_map_iff => r [[<- Et] Hr]; rewrite -Et in E *.
exact: (common_covered HC Hr Hg E).
Qed.

Lemma affine_common : CommonTimes (table s 1 acc) d F ->
  affine_data unit table k s acc F U
  = Ok (select_time_values F (time_values G), select_time_values U (time_values G), G) /\
  index (select_time_values F (time_values G)) = index G /\ index (select_time_values U (time_values G)) = index G.
Proof.
move=> HC; rewrite affine_dataE.
have E1 := selected_covered F G f_sorted g_sorted derivative_labels (common_covered HC).
have E2 := selected_covered U G u_sorted g_sorted u_labels (common_covered_u HC).
by rewrite /= (same_index_length E1) (same_index_length E2) Nat.eqb_refl.
Qed.

Lemma affine_other : (exists r i, [/\ List.In r F, Used (table s 1 acc) Z0 d F i (rtime r) & ~ Used (table s 1 acc) Z0 d F (rid r) (rtime r)]) ->
  affine_data unit table k s acc F U = Err ValueError.
Proof.
case=> r [i [Hr /used_iff/List.in_map_iff [g [[_ Et] Hg]] /used_iff HN]]; rewrite affine_dataE /=.
have H := selected_more F G g_sorted derivative_labels.
have /H {}H : exists r g, List.In r F /\ List.In g G /\ rtime r = rtime g /\ ~ List.In (rid r, rtime r) (index G).
  by exists r, g.
by have -> : Nat.eqb (length (select_time_values F (time_values G))) (length G) = false by apply/Nat.eqb_neq; lia.
Qed.

(** rows with the labels of the derivatives *)
Lemma same_index_pairs V W (B : list (row V)) (C : list (row W)) : index B = index C ->
  Forall2 (fun x g => rid x = rid g /\ rtime x = rtime g) B C.
Proof.
elim: B C => [|b B IH] [|c C] E //.
by case: E => E1 E2 E3; constructor=> //; apply: IH.
Qed.

End Affine.

(** ** When gDMDFull is defined *)

Lemma loc_index_defined V (F : list (row V)) (idx : list (Z * Z)) :
  (forall p, List.In p idx -> exists r, List.In r F /\ (rid r, rtime r) = p) -> exists Y, loc_index F idx = Ok Y.
Proof.
rewrite /loc_index; elim: idx => [|p idx IH] H; first by exists [::].
have [|Y EY] := IH; first by move=> p' Hp'; apply: H; right.
have [r [Hr Er]] := H p (or_introl erefl).
rewrite /=; case Ef: List.find => [r'|]; last first.
  by have := List.find_none _ _ Ef r Hr; rewrite Er (proj2 (pair_eqb_eq _ _) erefl).
by rewrite EY; exists (r' :: Y).
Qed.

Section Defined.
Variables (R : realFieldType) (n : nat) (unit : R).
Variable table : scheme -> nat -> nat -> seq (Z * R).
Variable lstsq : lstsq_t R.
Variables (k : tkind) (s : scheme) (acc : nat) (sh : bool) (F : list (row 'rV[R]_n)) (d lo hi : Z).
Hypothesis HV : ValidRows F.
Hypothesis HR : forall i, Occurs F i -> Regular F i d.
Hypothesis HA : Aligned F d.
Hypothesis HE : Extent (table s 1 acc) lo hi.

Lemma moved_sample i t : Used (table s 1 acc) (moved_by s sh hi) d F i t -> exists v, List.In (mkRow i t v) F.
Proof.
have [E|E] : moved_by s sh hi = Z0 \/ moved_by s sh hi = hi by case: s; case: sh; auto.
  by rewrite E; apply: (used_sample HV HR HE).
rewrite E => HU; have [_ [w Hw] _ _] := HE; have [v Hv] := HU _ Hw; exists v.
by move: Hv; congr (List.In (mkRow i _ v) F) => /=; lia.
Qed.

Lemma gdmd_fit_bind kw p : generate_fd_kwargs kw = Ok p ->
  gdmd_fit unit table lstsq k kw F =
  bind (derivative unit table k p.1.1 1 p.1.2 p.2 F) (fun G =>
  bind (loc_index F (index G)) (fun X =>
  Ok (koopman_generator lstsq (values_matrix (length G) X) (values_matrix (length G) G)))).
Proof.
move=> Ep; rewrite /gdmd_fit /gdmd_data /check_const_time_delta (delta_time_regular k F d HV HR) /=.
rewrite (fit_attrs_regular k false F None d HV HR HA) //= Ep /= first_derivativeE.
by case: derivative => //= G; case: loc_index.
Qed.

Lemma fit_defined G : derivative unit table k s 1 acc sh F = Ok G -> exists L, gdmd_fit unit table lstsq k (params s acc sh) F = Ok L.
Proof.
move=> EG; rewrite (@gdmd_fit_bind _ (s, acc, sh)) //= EG /=.
have [|Y ->] := @loc_index_defined _ F (index G); last by eexists.
move=> [i t] /List.in_map_iff [g [[<- <-] Hg]].
have [|v Hv] := @moved_sample (rid g) (rtime g); last by exists (mkRow (rid g) (rtime g) v).
by apply/(used_derivative HV HR HE EG); exists (rval g); case: g Hg.
Qed.

End Defined.
