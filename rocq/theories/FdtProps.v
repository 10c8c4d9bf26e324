(** * Theorems about the finite difference transformation (C109). *)

From Coq Require Import String List ZArith Lia Arith DecimalNat.
From mathcomp Require Import all_ssreflect all_algebra.
From Verif Require Import Np TscModel TscSpec TscProofs TscDt TscRegular ChkModel ChkSpec ChkProofs
  DerModel DerSpec DerList DerProofs DerExample DerProps TrModel ScaModel ScaProofs FdtModel FdtSpec.
Import Order.Theory GRing.Theory Num.Theory.
Set Implicit Arguments.
Unset Strict Implicit.
Unset Printing Implicit Defensive.
Local Open Scope ring_scope.

Section Lemmas.
Variables (V : Type) (finite : V -> bool).
Notation coll := (collection (V := V)).

Lemma validate_none (X : coll) : GoodCollection finite X -> fd_validate finite X None = Ok tt.
Proof.
move=> [HV [_ [HL HF]]]; rewrite /fd_validate /check_tsc /=.
have -> : is_finite finite (samples X) = true by apply/List.forallb_forall.
have -> : (length (samples X) <? 1)%nat = false by move: (vr_nonempty _ HV); case: (samples X).
have -> : (length (labels X) <? 1)%nat = false by move: HL; case: (labels X).
by [].
Qed.

Lemma validate_delta (X : coll) d : GoodCollection finite X -> Z.lt (Z.abs d) 100000000000 ->
  fd_validate finite X (Some (DtScalar (Some d))) = Ok tt /\ AllRegular (samples X) d \/
  fd_validate finite X (Some (DtScalar (Some d))) = Err TSCException /\ ~ AllRegular (samples X) d.
Proof.
move=> [HV [HS [HL HF]]] Hd; rewrite /fd_validate /check_tsc /=.
have -> : is_finite finite (samples X) = true by apply/List.forallb_forall.
have -> : (length (samples X) <? 1)%nat = false by move: (vr_nonempty _ HV); case: (samples X).
have -> : (length (labels X) <? 1)%nat = false by move: HL; case: (labels X).
rewrite /=; by case: (delta_decides _ _ HV HS Hd) => [[H ->]|[H ->]]; [left|right].
Qed.

Lemma str_labels (X : coll) : StringLabels X -> List.forallb is_str (labels X) = true.
Proof. by move=> H; apply/List.forallb_forall => a Ha; have [s ->] := H a Ha. Qed.

Variables (W : Type) (zero : V) (axpy : V -> W -> V -> V) (scale : nat -> Z -> V -> V)
  (coefficients : scheme -> nat -> nat -> list (Z * W)) (sch : scheme) (order accuracy : nat).
Notation tr := (fd_transform zero axpy scale coefficients finite sch order accuracy).
Notation fit := (fd_fit finite Dt order accuracy).

Lemma fit_ok s (X : coll) d : GoodCollection finite X -> AllRegular (samples X) d -> (0 < order)%N -> (0 < accuracy)%N ->
  fit s X = (FdState (fd_n_in (fd_setup s X)) (fd_names_in (fd_setup s X)) (fd_n_out (fd_setup s X)) (Some (DtScalar (Some d))), Ok tt).
Proof.
move=> HG HR Ho Ha; have [HV [HS _]] := HG; rewrite /fd_fit (validate_none HG) (delta_time_regular KInt _ d HV HR).
have [H0 _] := regular_small _ _ HV HS HR.
have -> : Z.leb d Z0 = false by apply/Z.leb_gt.
by case: order Ho => // n _; case: accuracy Ha => // m _.
Qed.

Lemma fit_bad s (X : coll) : GoodCollection finite X -> (forall d, ~ AllRegular (samples X) d) -> (fit s X).2 = Err TSCException.
Proof.
move=> HG HR; have [HV [HS _]] := HG; rewrite /fd_fit (validate_none HG).
have [r Er] := delta_time_int_total _ HV; rewrite Er; case: r Er => [[d|]|l] // Er.
by case: (HR d); apply/(delta_time_scalar_some _ _ HV HS).
Qed.

Lemma transform_cases (a : list name) d (X : coll) : GoodCollection finite X -> StringLabels X -> labels X = a ->
  Z.lt (Z.abs d) 100000000000 ->
  tr (FdState (Some (length a)) (Some a) (Some (length a)) (Some (DtScalar (Some d)))) X =
  if fd_validate finite X (Some (DtScalar (Some d))) is Err e then Err e else
  bind (time_derivative zero axpy scale coefficients KInt sch order accuracy true (samples X)) (fun D =>
          Ok (Coll (List.map (fun a => Str (String.append (str_of_name a) (String.append "_dot" (str_of_nat order)))) (labels X)) D)).
Proof.
move=> HG HL <- Hd; rewrite /fd_transform /=; case: (fd_validate _ _ _) => // -[] /=.
by rewrite Nat.eqb_refl /= (str_labels HL) names_equal_refl.
Qed.

End Lemmas.

(** The object over vectors of [f] numbers; time values are multiples of [unit]. *)
Definition transform_of (R : realFieldType) f (unit : R) table finite sch order accuracy :=
  fd_transform (0 : 'rV[R]_f) (@vaxpy R f) (@vscale R f unit) table finite sch order accuracy.
Definition fit_of (R : realFieldType) f (finite : 'rV[R]_f -> bool) order accuracy :=
  fd_fit finite Dt order accuracy.

(** C109: [fit] accepts exactly the collections in which all series have one common sampling
    interval. *)
Theorem C109_fit :
  forall (R : realFieldType) f (finite : 'rV[R]_f -> bool) order accuracy s X,
  GoodCollection finite X -> (0 < order)%N -> (0 < accuracy)%N ->
  ((fit_of finite order accuracy s X).2 = Ok tt <-> exists d, AllRegular (samples X) d) /\
  ((fit_of finite order accuracy s X).2 = Err TSCException <-> forall d, ~ AllRegular (samples X) d).
Proof.
move=> R f finite order acc s X HG Ho Ha; have [HV [HS _]] := HG.
have [r Er] := delta_time_int_total _ HV.
have D : (exists d, AllRegular (samples X) d) \/ (forall d, ~ AllRegular (samples X) d).
{ case: r Er => [[d|]|l] Er.
  - by left; exists d; apply/(delta_time_scalar_some _ _ HV HS).
  - by right=> d /(delta_time_scalar_some _ _ HV HS); rewrite Er.
  - by right=> d /(delta_time_scalar_some _ _ HV HS); rewrite Er. }
case: D => [[d Hd]|Hn].
- have E := fit_ok s HG Hd Ho Ha; rewrite /fit_of E /=; split; split=> //; [by exists d|by move/(_ d)].
- rewrite /fit_of (fit_bad order acc s HG Hn) /=; split; split=> //; by case=> d /Hn.
Qed.
Print Assumptions C109_fit.

(** C109: after a fit on data with sampling interval [d], [transform] accepts exactly the
    collections with the same labels and interval in which every series has more samples than the
    stencil is wide; the result has one row for every sample at which the whole stencil lies in the
    series, stored at the latest time that is used, and labels with the suffix "_dot" and the
    order. *)
Theorem C109_transform :
  forall (R : realFieldType) f (unit : R) table finite sch order accuracy (F G : collection) d lo hi,
  GoodCollection finite F -> AllRegular (samples F) d -> (0 < order)%N -> (0 < accuracy)%N ->
  GoodCollection finite G -> StringLabels G -> labels G = labels F ->
  Extent (table sch order accuracy) lo hi ->
  let s := (fit_of finite order accuracy fd_init F).1 in
  let T := transform_of (f := f) unit table finite sch order accuracy s G in
  (~ AllRegular (samples G) d -> T = Err TSCException) /\
  (AllRegular (samples G) d ->
    ((exists H, T = Ok H) <->
       forall i, Occurs (samples G) i -> Z.lt (Z.sub hi lo) (Z.of_nat (length (rows_of (samples G) i)))) /\
    forall H, T = Ok H ->
      labels H = List.map (fun a => Str (String.append (str_of_name a) (String.append "_dot" (str_of_nat order)))) (labels G) /\
      ValidRows (samples H) /\
      forall r, List.In r (samples H) <->
        exists t, rtime r = Z.add t (Z.mul (moved_by sch true hi) d) /\
                  Derivative unit (table sch order accuracy) order d (samples G) t r).
Proof.
move=> R f unit table finite sch order acc F G d lo hi HF RF Ho Ha HG SG EL HE s T.
have [HVF [HSF _]] := HF; have [HVG [HSG _]] := HG.
have Hd : Z.lt (Z.abs d) 100000000000 by have := regular_small _ _ HVF HSF RF; lia.
have ET : T = if fd_validate finite G (Some (DtScalar (Some d))) is Err e then Err e else
  bind (derivative unit table KInt sch order acc true (samples G)) (fun D =>
          Ok (Coll (List.map (fun a => Str (String.append (str_of_name a) (String.append "_dot" (str_of_nat order)))) (labels G)) D)).
{ rewrite /T /s /fit_of (fit_ok _ HF RF Ho Ha) /= /fd_names_out List.map_length.
  exact: (transform_cases _ _ _ _ _ _ _ HG SG EL Hd). }
clearbody T; case: (validate_delta HG Hd) => [[Ev HR]|[Ev HR]]; rewrite Ev in ET.
2:{ split=> [_|RG]; [by rewrite ET|by case: (HR RG)]. }
split=> [N|RG]; first by case: (N HR).
split.
- rewrite -(C60_defined unit (k := KInt) true HVG RG HE) //; split.
  + by case=> H; rewrite ET; case E : (derivative _ _ _ _ _ _ _ _) => [D|e] // _; exists D.
  + by case=> D E; rewrite ET E /=; eexists.
- move=> H; rewrite ET; case E : (derivative _ _ _ _ _ _ _ _) => [D|e] //= [<-] /=; split=> //.
  by have [H1 _ H3] := C60_values HVG RG HE E; split.
Qed.
Print Assumptions C109_transform.

(** C109: the transformation is causal: the row at a time does not depend on later samples of the
    series, nor on other series. *)
Theorem C109_causal :
  forall (R : realFieldType) f (unit : R) table finite sch order accuracy (F G1 G2 H1 H2 : collection) d lo hi,
  GoodCollection finite F -> AllRegular (samples F) d -> (0 < order)%N -> (0 < accuracy)%N ->
  GoodCollection finite G1 -> StringLabels G1 -> labels G1 = labels F ->
  GoodCollection finite G2 -> StringLabels G2 -> labels G2 = labels F ->
  Extent (table sch order accuracy) lo hi -> (sch = backward -> hi = Z0) ->
  let s := (fit_of finite order accuracy fd_init F).1 in
  transform_of (f := f) unit table finite sch order accuracy s G1 = Ok H1 ->
  transform_of (f := f) unit table finite sch order accuracy s G2 = Ok H2 ->
  forall i t, SamePast (samples G1) (samples G2) i t -> SamePast (samples H1) (samples H2) i t.
Proof.
move=> R f unit table finite sch order acc F G1 G2 H1 H2 d lo hi HF RF Ho Ha HG1 SG1 EL1 HG2 SG2 EL2 HE Hb s E1 E2 i t HP.
have [N1 Y1] := C109_transform unit HF RF Ho Ha HG1 SG1 EL1 HE.
have [N2 Y2] := C109_transform unit HF RF Ho Ha HG2 SG2 EL2 HE.
have Hd : Z.lt 0 d by have [HVF [HSF _]] := HF; have [] := regular_small _ _ HVF HSF RF.
have [HV1 [HS1 _]] := HG1; have [HV2 [HS2 _]] := HG2.
have Hd' : Z.lt (Z.abs d) 100000000000 by have [HVF [HSF _]] := HF; have := regular_small _ _ HVF HSF RF; lia.
have R1 : AllRegular (samples G1) d.
{ by case: (validate_delta HG1 Hd') => [[_]|[_ H]] //; move: E1; rewrite (N1 H). }
have R2 : AllRegular (samples G2) d.
{ by case: (validate_delta HG2 Hd') => [[_]|[_ H]] //; move: E2; rewrite (N2 H). }
have [_ /(_ _ E1) [_ [_ P1]]] := Y1 R1; have [_ /(_ _ E2) [_ [_ P2]]] := Y2 R2.
have Em : moved_by sch true hi = hi by case: sch Hb {HE N1 Y1 N2 Y2 E1 E2 s P1 P2} => // /(_ erefl) ->.
have [_ _ HB _] := HE.
have sub (A B : list (row 'rV[R]_f)) : SamePast A B i t -> forall u v t', Z.le u t -> rtime (mkRow i u v) = Z.add t' (Z.mul (moved_by sch true hi) d) ->
  Derivative unit (table sch order acc) order d A t' (mkRow i u v) -> Derivative unit (table sch order acc) order d B t' (mkRow i u v).
{ move=> HAB u v t' Hu Et [x [Hx Hv]]; exists x; split=> // p Hp.
  apply/HAB; last exact: Hx.
  have [_ Hhi] := HB p Hp; rewrite Em /= in Et.
  have := Z.mul_le_mono_nonneg_r _ _ d (Z.lt_le_incl _ _ Hd) Hhi; lia. }
have HP' : SamePast (samples G2) (samples G1) i t by move=> u v Hu; rewrite HP.
move=> u v Hu; rewrite P1 P2; split=> -[t' [Et HD]]; exists t'; split=> //.
- exact: sub HP _ _ _ Hu Et HD.
- exact: sub HP' _ _ _ Hu Et HD.
Qed.
Print Assumptions C109_causal.

(** C109: data with other string labels is refused. *)
Theorem C109_labels :
  forall (R : realFieldType) f (unit : R) table finite sch order accuracy (F G : collection) d,
  GoodCollection finite F -> AllRegular (samples F) d -> (0 < order)%N -> (0 < accuracy)%N ->
  GoodCollection finite G -> AllRegular (samples G) d -> StringLabels G -> labels G <> labels F ->
  transform_of (f := f) unit table finite sch order accuracy (fit_of finite order accuracy fd_init F).1 G = Err ValueError.
Proof.
move=> R f unit table finite sch order acc F G d HF RF Ho Ha HG RG SG NE.
have [HVF [HSF _]] := HF.
have Hd : Z.lt (Z.abs d) 100000000000 by have := regular_small _ _ HVF HSF RF; lia.
rewrite /transform_of /fit_of (fit_ok _ HF RF Ho Ha) /fd_transform /=.
case: (validate_delta HG Hd) => [[-> _]|[_]] //=; case: (_ =? _)%nat => //=.
rewrite (str_labels SG); case E : (names_equal _ _) => //.
by case: NE; rewrite (names_equal_eq E).
Qed.
Print Assumptions C109_labels.

(** C109 (refuted): labels that are numbers are not compared: data with the columns in another order
    is treated like data with the right labels. *)
Theorem C109_number_labels_refuted :
  forall (R : realFieldType) f (unit : R) table finite sch order accuracy (F G : collection) d,
  GoodCollection finite F -> AllRegular (samples F) d -> (0 < order)%N -> (0 < accuracy)%N ->
  GoodCollection finite G -> AllRegular (samples G) d ->
  (forall a, List.In a (labels G) -> exists z, a = Num z) -> length (labels G) = length (labels F) ->
  transform_of (f := f) unit table finite sch order accuracy (fit_of finite order accuracy fd_init F).1 G =
  transform_of unit table finite sch order accuracy (fit_of finite order accuracy fd_init G).1 G.
Proof.
move=> R f unit table finite sch order acc F G d HF RF Ho Ha HG RG NG EL.
rewrite /transform_of /fit_of (fit_ok _ HF RF Ho Ha) (fit_ok _ HG RG Ho Ha) /fd_transform /= EL.
have E : (if List.forallb is_str (labels G) then (if names_equal (labels F) (labels G) then Ok tt else Err ValueError)
          else if List.existsb is_str (labels G) then Err TypeError else Ok tt) =
         (if List.forallb is_str (labels G) then (if names_equal (labels G) (labels G) then Ok tt else Err ValueError)
          else if List.existsb is_str (labels G) then Err TypeError else Ok tt).
{ have [_ [_ [NE _]]] := HG; case: (labels G) NE NG => // a l _ NG.
  by have [z ->] := NG a (or_introl erefl). }
by rewrite /fd_check_names E.
Qed.
Print Assumptions C109_number_labels_refuted.

(** C109 (refuted): the names that are announced are never those of the result. *)
Theorem C109_names_refuted :
  forall (R : realFieldType) f (unit : R) table finite sch order accuracy s (G H : collection),
  GoodCollection finite G ->
  transform_of (f := f) unit table finite sch order accuracy s G = Ok H ->
  fd_names_out (labels G) <> labels H.
Proof.
move=> R f unit table finite sch order acc s G H [_ [_ [HL _]]]; rewrite /transform_of /fd_transform.
case: (fd_spacing s) => // dt; case: (fd_validate _ _ _) => //= _.
case: (fd_n_in s) => // n; case: (fd_n_out s) => // _; case: (_ =? _)%nat => //=.
case: (fd_check_names _ _) => //= _; case: (time_derivative _ _ _ _ _ _ _ _ _ _) => //= D [<-] /=.
case: (labels G) HL => // a l _ /= [E _].
have L (x y : string) : String.length (String.append x y) = (String.length x + String.length y)%N.
{ by elim: x => //= c x ->. }
have := congr1 String.length E; rewrite !L /= => /eqP; rewrite eqn_add2l.
have -> : String.length (str_of_nat order) = (String.length (str_of_nat order)).-1.+1; last by [].
rewrite prednK // /str_of_nat.
have : Nat.to_uint order <> Decimal.Nil by move=> E0; have := DecimalNat.Unsigned.of_to order; rewrite E0 => E1; move: E0; rewrite -E1.
by case: (Nat.to_uint order) => // _.
Qed.
Print Assumptions C109_names_refuted.

(** C109 (refuted): with a number as spacing no data can be fitted. *)
Theorem C109_spacing_refuted :
  forall (R : realFieldType) f (finite : 'rV[R]_f -> bool) spacing order accuracy s (F : collection),
  spacing <> Dt -> exists e, (fd_fit finite spacing order accuracy s F).2 = Err e.
Proof.
move=> R f finite spacing order acc s F; rewrite /fd_fit; case: (fd_validate _ _ _) => [[]|e]; last by exists e.
by case: spacing => // *; exists TypeError.
Qed.
Print Assumptions C109_spacing_refuted.

(** C109 (refuted): after a second fit on data with other labels the object refuses this data. With
    the same labels the second fit gives the object of a single fit. *)
Theorem C109_refit_refuted :
  forall (R : realFieldType) f (unit : R) table finite sch order accuracy (F G : collection) d e,
  GoodCollection finite F -> AllRegular (samples F) d -> (0 < order)%N -> (0 < accuracy)%N ->
  GoodCollection finite G -> AllRegular (samples G) e -> StringLabels G -> labels G <> labels F ->
  let r := fit_of (f := f) finite order accuracy (fit_of finite order accuracy fd_init F).1 G in
  r.2 = Ok tt /\ transform_of unit table finite sch order accuracy r.1 G = Err ValueError.
Proof.
move=> R f unit table finite sch order acc F G d e HF RF Ho Ha HG RG SG NE.
have [HVG [HSG _]] := HG.
have He : Z.lt (Z.abs e) 100000000000 by have := regular_small _ _ HVG HSG RG; lia.
rewrite /fit_of (fit_ok _ HF RF Ho Ha) (fit_ok _ HG RG Ho Ha); split=> //.
rewrite /transform_of /fd_transform /=.
case: (validate_delta HG He) => [[-> _]|[_]] //=; case: (_ =? _)%nat => //=.
rewrite (str_labels SG); case E : (names_equal _ _) => //.
by case: NE; rewrite (names_equal_eq E).
Qed.
Print Assumptions C109_refit_refuted.

Theorem C109_refit :
  forall (R : realFieldType) f (finite : 'rV[R]_f -> bool) order accuracy (F G : collection) d e,
  GoodCollection finite F -> AllRegular (samples F) d -> (0 < order)%N -> (0 < accuracy)%N ->
  GoodCollection finite G -> AllRegular (samples G) e -> labels G = labels F ->
  fit_of (f := f) finite order accuracy (fit_of finite order accuracy fd_init F).1 G = fit_of finite order accuracy fd_init G.
Proof.
move=> R f finite order acc F G d e HF RF Ho Ha HG RG EL.
by rewrite /fit_of (fit_ok _ HF RF Ho Ha) !(fit_ok _ HG RG Ho Ha) /fd_setup /= /fd_names_out !List.map_length EL.
Qed.
Print Assumptions C109_refit.

(** C109: [partial_fit] is [fit] for a new object; later calls look at nothing and change nothing,
    whatever the data. *)
Theorem C109_partial_fit :
  forall (R : realFieldType) f (finite : 'rV[R]_f -> bool) order accuracy (F G : collection) d,
  GoodCollection finite F -> AllRegular (samples F) d -> (0 < order)%N -> (0 < accuracy)%N ->
  fd_partial_fit finite Dt order accuracy fd_init F = fit_of finite order accuracy fd_init F /\
  let s := (fit_of finite order accuracy fd_init F).1 in
  fd_partial_fit finite Dt order accuracy s G = (s, Ok tt).
Proof.
by move=> R f finite order acc F G d HF RF Ho Ha; split=> //; rewrite /fit_of (fit_ok _ HF RF Ho Ha).
Qed.
Print Assumptions C109_partial_fit.

(** Two series of the squares of their time values, fitted and transformed: the values are the
    derivatives at the previous sample. *)
Example C109_example :
  let F := Coll [:: Str "x"] ex_F in
  GoodCollection xpredT F /\ AllRegular (samples F) 2 /\ StringLabels F /\
  exists H, transform_of 1 ex_table xpredT center 1 2 (fit_of xpredT 1 2 fd_init F).1 F = Ok H /\
    labels H = [:: Str "x_dot1"] /\
    List.In (mkRow (Zpos 3) (Zpos 4) (const_mx 4%:R)) (samples H).
Proof.
move=> F.
have HG : GoodCollection xpredT F by split; [exact: ex_valid|split; [exact: ex_small|split]].
have HR : AllRegular (samples F) 2 by exact: ex_regular.
have HS : StringLabels F by move=> a /= [<-|[]]; eexists.
split=> //; split=> //; split=> //.
have [_ /(_ HR) [HO HH]] := C109_transform (1 : rat) HG HR (isT : (0 < 1)%N) (isT : (0 < 2)%N) HG HS erefl (ex_extent center 1 2).
have [H EH] : exists H, transform_of 1 ex_table xpredT center 1 2 (fit_of xpredT 1 2 fd_init F).1 F = Ok H.
{ apply/HO => i [r [Hr <-]]; move: Hr; rewrite /= /ex_F /=; by do !case=> [<- //|]. }
have [HL [_ HI]] := HH H EH; exists H; split=> //; split; first by rewrite HL.
apply/HI; exists (Zpos 2); split=> //; exists (fun z => const_mx (number rat_realFieldType (Z.add (Zpos 2) (Z.mul z 2)) ^+ 2)); split.
- move=> p; rewrite /= => -[<-|[<-|[<-|[]]]] /=; [left|right; left|right; right; left]; by [].
- apply/rowP => j; rewrite /ex_table !big_cons big_nil !mxE /=; by [].
Qed.
