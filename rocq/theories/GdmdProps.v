(** * Theorems about generators identified from sampled time series (C105). *)

From Coq Require Import List ZArith Lia.
From mathcomp Require Import all_ssreflect all_algebra.
From Verif Require Import Np TscModel TscSpec TscProofs TscDt TscRegular ChkModel ChkSpec
  LinModel LinSpec LinProofs DerModel DerSpec DerList DerProofs DerProps DerExample
  GdmdModel GdmdSpec GdmdAlign GdmdProofs GdmdMain GdmdExample.
Import Order.Theory GRing.Theory Num.Theory.
Set Implicit Arguments.
Unset Strict Implicit.
Unset Printing Implicit Defensive.
Local Open Scope ring_scope.

(** C105: without parameters the central scheme of accuracy 2 without shifted index is used, and
    every missing parameter has this value; derivatives of another order than one are refused. *)
Theorem C105_parameters :
  forall (R : realFieldType) (n : nat) (unit : R) table lstsq k (F : list (row 'rV[R]_n)) d,
  ValidRows F -> (forall i, Occurs F i -> Regular F i d) -> Aligned F d ->
  gdmd_fit unit table lstsq k None F
  = gdmd_fit unit table lstsq k (Some (FdKwargs (Some center) (Some 1%N) (Some 2%N) (Some false))) F /\
  forall s o acc sh,
    gdmd_fit unit table lstsq k (Some (FdKwargs s o acc sh)) F
    = if o is Some (S (S _)) then Err ValueError else
      if o is Some 0%N then Err ValueError else
      gdmd_fit unit table lstsq k
        (Some (FdKwargs (Some (if s is Some s' then s' else center)) (Some 1%N)
                        (Some (if acc is Some acc' then acc' else 2%N))
                        (Some (if sh is Some sh' then sh' else false)))) F.
Proof.
move=> R n unit table lstsq k F d HV HR HA; split=> // s o acc sh.
rewrite /gdmd_fit /gdmd_data /check_const_time_delta (delta_time_regular k F d HV HR) /=.
rewrite (fit_attrs_regular k false F None d HV HR HA) //=.
by case: o => [[|[|o]]|]; case: s => [s|]; case: acc => [acc|]; case: sh => [sh|].
Qed.
Print Assumptions C105_parameters.

(** C105: for collections with a constant sampling interval and integer or float time values a
    generator is identified exactly if every series is longer than the stencil. *)
Theorem C105_defined :
  forall (R : realFieldType) (n : nat) (unit : R) table lstsq k s acc sh (F : list (row 'rV[R]_n)) d lo hi,
  ValidRows F -> (forall i, Occurs F i -> Regular F i d) -> Aligned F d ->
  Extent (table s 1%N acc) lo hi -> k <> KDatetime ->
  ((exists L, gdmd_fit unit table lstsq k (Some (FdKwargs (Some s) None (Some acc) (Some sh))) F = Ok L) <->
   (forall i, Occurs F i -> Z.lt (Z.sub hi lo) (Z.of_nat (length (rows_of F i))))).
Proof.
move=> R n unit table lstsq k s acc sh F d lo hi HV HR HA HE Hk; split.
  case=> L /gdmd_fit_data [X [G [/gdmd_data_pairs [EG _] _]]].
  by apply/(C60_defined unit sh HV HR HE Hk); exists G.
move=> /(C60_defined unit sh HV HR HE Hk) [G EG].
exact: (fit_defined lstsq HV HR HA HE EG).
Qed.
Print Assumptions C105_defined.

(** C105: refuted for datetime indices: no parameters lead to a generator. *)
Theorem C105_datetime_refuted :
  forall (R : realFieldType) (n : nat) (unit : R) table lstsq s acc sh (F : list (row 'rV[R]_n)) d,
  ValidRows F -> (forall i, Occurs F i -> Regular F i d) -> Aligned F d ->
  gdmd_fit unit table lstsq KDatetime (Some (FdKwargs (Some s) None (Some acc) (Some sh))) F = Err TypeError.
Proof.
move=> R n unit table lstsq s acc sh F d HV HR HA.
by rewrite (@gdmd_fit_bind _ _ _ _ _ _ _ _ HV HR HA _ (s, acc, sh)) //= (C60_datetime_refuted _ _ _ _ _ _ HV HR).
Qed.
Print Assumptions C105_datetime_refuted.

(** C105: whatever the data, the generator is a least squares solution over the pairs of state and
    finite difference stored under the same ID and time: every label for which both exist occurs
    once. *)
Theorem C105_least_squares :
  forall (R : realFieldType) (n : nat) (unit : R) table lstsq k s acc sh (F : list (row 'rV[R]_n)) L d lo hi,
  ValidRows F -> (forall i, Occurs F i -> Regular F i d) ->
  Extent (table s 1%N acc) lo hi -> solves_consistent lstsq ->
  gdmd_fit unit table lstsq k (Some (FdKwargs (Some s) None (Some acc) (Some sh))) F = Ok L ->
  exists rows : list (row ('rV[R]_n * 'rV[R]_n)),
    [/\ List.NoDup (index rows),
        (forall i t x g, List.In (mkRow i t (x, g)) rows <->
           List.In (mkRow i t x) F /\
           exists t0, t = Z.add t0 (Z.mul (moved_by s sh hi) d) /\
                      Derivative unit (table s 1%N acc) 1 d F t0 (mkRow i t g)) &
        forall L', derivative_error (List.map rval rows) L <= derivative_error (List.map rval rows) L'].
Proof. by move=> R n unit table lstsq k s acc sh F L d lo hi HV HR HE Hl HL; apply: (least_squares HV HR HE Hl HL). Qed.
Print Assumptions C105_least_squares.

(** C105: solutions of a linear system x' = A x that are polynomials of a degree the scheme
    differentiates exactly: the generator is A. *)
Theorem C105_exact_for_polynomials :
  forall (R : realFieldType) (n : nat) (unit : R) table lstsq k s acc (F : list (row 'rV[R]_n)) A L d lo hi,
  ValidRows F -> (forall i, Occurs F i -> Regular F i d) ->
  Extent (table s 1%N acc) lo hi -> OrderConditions (table s 1%N acc) 1 acc -> unit != 0 ->
  solves_consistent lstsq ->
  PolynomialSolutions unit acc A F -> SpanningSamples (table s 1%N acc) Z0 d F ->
  gdmd_fit unit table lstsq k (Some (FdKwargs (Some s) None (Some acc) (Some false))) F = Ok L -> L = A.
Proof.
move=> R n unit table lstsq k s acc F A L d lo hi HV HR HE HO Hu Hl HP HS HL.
have Hm : moved_by s false hi = Z0 by case: (s).
by apply: (polynomial_generator HV HR HE Hl HL Hm HO Hu HP); rewrite Hm.
Qed.
Print Assumptions C105_exact_for_polynomials.

(** C105: samples of any invertible linear system x(t + d) = M x(t): the generator applied to a
    state is the finite difference of the system's trajectory through this state (at the moved
    time, if the index is shifted). *)
Theorem C105_sampled_system :
  forall (R : realFieldType) (n : nat) (unit : R) table lstsq k s acc sh (F : list (row 'rV[R]_n)) M L d lo hi,
  ValidRows F -> (forall i, Occurs F i -> Regular F i d) ->
  Extent (table s 1%N acc) lo hi -> solves_consistent lstsq ->
  M \in unitmx -> SampledSystem d M F -> SpanningSamples (table s 1%N acc) (moved_by s sh hi) d F ->
  gdmd_fit unit table lstsq k (Some (FdKwargs (Some s) None (Some acc) (Some sh))) F = Ok L ->
  forall x, TwoSided M x ->
    L *m x Z0 = (unit * number R d)^-1 *: \sum_(p <- table s 1%N acc) p.2 *: x (Z.sub p.1 (moved_by s sh hi)).
Proof.
move=> R n unit table lstsq k s acc sh F M L d lo hi HV HR HE Hl HM HS Hsp HL x Hx.
rewrite (sampled_matrix HV HR HE Hl HL HM HS Hsp) -scalemxAl mulmx_suml; congr (_ *: _).
by apply: eq_big_listM => p _; rewrite -scalemxAl -(two_sided_zpow table HM Hx).
Qed.
Print Assumptions C105_sampled_system.

(** C105: with the default scheme the generator is (M - M^-1) / 2h, so a mode with the factor mu
    per step has the generator eigenvalue (mu - 1/mu) / 2h. *)
Theorem C105_central_generator :
  forall (R : realFieldType) (n : nat) (unit : R) table lstsq k (F : list (row 'rV[R]_n)) M L d,
  ValidRows F -> (forall i, Occurs F i -> Regular F i d) ->
  table center 1%N 2%N = [:: (Zneg 1, - 2%:R^-1); (Z0, 0); (Zpos 1, 2%:R^-1)] -> solves_consistent lstsq ->
  M \in unitmx -> SampledSystem d M F -> SpanningSamples (table center 1%N 2%N) Z0 d F ->
  gdmd_fit unit table lstsq k None F = Ok L ->
  L = (2%:R * (unit * number R d))^-1 *: (M - invmx M) /\
  forall (v : 'cV[R]_n) mu, M *m v = mu *: v -> mu != 0 ->
    L *m v = ((mu - mu^-1) / (2%:R * (unit * number R d))) *: v.
Proof.
move=> R n unit table lstsq k F M L d HV HR Ht Hl HM HS Hsp HL.
have HE : Extent (table center 1%N 2%N) (Zneg 1) (Zpos 1) by rewrite Ht; apply: central_extent.
have E : L = (2%:R * (unit * number R d))^-1 *: (M - invmx M).
  rewrite (sampled_matrix (sh := false) HV HR HE Hl HL HM HS Hsp) Ht !big_cons big_nil /=.
  by rewrite !mulmx1 scale0r add0r addr0 scaleNr -scalerN -scalerDr scalerA mulrC -invfM addrC.
split=> // v mu Hv Hmu.
have Hi : invmx M *m v = mu^-1 *: v.
  by rewrite -[LHS]scale1r -(mulVf Hmu) -scalerA scalemxAr -Hv mulmxA mulVmx // mul1mx.
by rewrite E -scalemxAl mulmxBl Hv Hi -scalerBl scalerA mulrC.
Qed.
Print Assumptions C105_central_generator.

(** C105: refuted for a shifted index: the derivative at a sample is paired with the state of the
    next sample, so the result is the generator above multiplied with M^-1. *)
Theorem C105_shift_index_refuted :
  forall (R : realFieldType) (n : nat) (unit : R) table lstsq k (F : list (row 'rV[R]_n)) M L d,
  ValidRows F -> (forall i, Occurs F i -> Regular F i d) ->
  table center 1%N 2%N = [:: (Zneg 1, - 2%:R^-1); (Z0, 0); (Zpos 1, 2%:R^-1)] -> solves_consistent lstsq ->
  M \in unitmx -> SampledSystem d M F -> SpanningSamples (table center 1%N 2%N) (Zpos 1) d F ->
  gdmd_fit unit table lstsq k (Some (FdKwargs None None None (Some true))) F = Ok L ->
  L = (2%:R * (unit * number R d))^-1 *: (M - invmx M) *m invmx M /\
  (unit != 0 -> (M *m M - 1%:M) *m (M - 1%:M) != 0 -> L <> (2%:R * (unit * number R d))^-1 *: (M - invmx M)).
Proof.
move=> R n unit table lstsq k F M L d HV HR Ht Hl HM HS Hsp HL.
have HE : Extent (table center 1%N 2%N) (Zneg 1) (Zpos 1) by rewrite Ht; apply: central_extent.
have E : L = (2%:R * (unit * number R d))^-1 *: (M - invmx M) *m invmx M.
  rewrite (sampled_matrix (sh := true) HV HR HE Hl HL HM HS Hsp) Ht !big_cons big_nil /=.
  rewrite !mulmx1 scale0r add0r addr0 scaleNr -scalerN -scalerDr scalerA [_^-1 * _]mulrC -invfM addrC -scalemxAl.
  by rewrite mulmxBl mulmxV.
split=> // Hu Hne; rewrite E -scalemxAl => /(congr1 (fun A => (2%:R * (unit * number R d)) *: A)).
have Hd : 2%:R * (unit * number R d) != 0.
  have Hp := step_pos _ _ HV HR.
  by rewrite !mulf_neq0 ?pnatr_eq0 //; case: d Hp {HR HS Hsp E} => // p _; rewrite gt_eqF // number_pos.
rewrite !scalerA divff // !scale1r => H; move/eqP: Hne; apply.
have {}H : M - invmx M = (M - invmx M) *m M by rewrite -{2}H -mulmxA mulVmx // mulmx1.
have {}H : M *m M - 1%:M = (M *m M - 1%:M) *m M.
  by move/(congr1 (mulmx M)): H; rewrite mulmxBr mulmxV // mulmxA mulmxBr mulmxV.
by rewrite mulmxBr -H mulmx1 subrr.
Qed.
Print Assumptions C105_shift_index_refuted.

(** C105: gDMDAffine with IDs stored in increasing order and states whose derivatives are stored at
    the same times in all series: a control-affine system with polynomial solutions is identified
    exactly. *)
Theorem C105_affine_exact :
  forall (R : realFieldType) (n q : nat) (unit : R) table lstsq k s acc
         (F : list (row 'rV[R]_n)) (U : list (row 'rV[R]_q)) A B d lo hi,
  ValidRows F -> (forall i, Occurs F i -> Regular F i d) -> Aligned F d -> IdsSorted F -> index U = index F ->
  Extent (table s 1%N acc) lo hi -> OrderConditions (table s 1%N acc) 1 acc -> unit != 0 ->
  solves_consistent lstsq -> k <> KDatetime ->
  (forall i, Occurs F i -> Z.lt (Z.sub hi lo) (Z.of_nat (length (rows_of F i)))) ->
  CommonTimes (table s 1%N acc) d F ->
  PolynomialControlled unit acc A B F U -> SpanningControlled (table s 1%N acc) d F U ->
  exists T, affine_fit unit table lstsq k s acc F U = Ok (A, T) /\ forall c, T c = B c.
Proof.
move=> R n q unit table lstsq k s acc F U A B d lo hi HV HR HA HS HU HE HO Hu Hl Hk Hlong HC HP Hsp.
have [G EG] := proj2 (C60_defined unit false HV HR HE Hk) Hlong.
have [Ed _] := affine_common HV HR HE HS HA HU EG HC.
case Ef: (affine_fit unit table lstsq k s acc F U) => [[A' T]|e]; last by move: Ef; rewrite /affine_fit Ed.
have [-> HT] := affine_recovers HV HR HE HS HA HU Hl HC HO Hu HP Hsp Ef.
by exists T.
Qed.
Print Assumptions C105_affine_exact.

(** C105: refuted if a time for which one series has a derivative is too close to the start or end
    of another series: the fit fails, although every series is long enough. *)
Theorem C105_affine_times_refuted :
  forall (R : realFieldType) (n q : nat) (unit : R) table lstsq k s acc
         (F : list (row 'rV[R]_n)) (U : list (row 'rV[R]_q)) d lo hi,
  ValidRows F -> (forall i, Occurs F i -> Regular F i d) -> Aligned F d -> IdsSorted F -> index U = index F ->
  Extent (table s 1%N acc) lo hi -> k <> KDatetime ->
  (forall i, Occurs F i -> Z.lt (Z.sub hi lo) (Z.of_nat (length (rows_of F i)))) ->
  (exists r i, [/\ List.In r F, Used (table s 1%N acc) Z0 d F i (rtime r) &
                   ~ Used (table s 1%N acc) Z0 d F (rid r) (rtime r)]) ->
  affine_fit unit table lstsq k s acc F U = Err ValueError.
Proof.
move=> R n q unit table lstsq k s acc F U d lo hi HV HR HA HS HU HE Hk Hlong HX.
have [G EG] := proj2 (C60_defined unit false HV HR HE Hk) Hlong.
by rewrite /affine_fit (affine_other HV HR HE HS HA HU EG HX).
Qed.
Print Assumptions C105_affine_times_refuted.

(** C105: refuted if the IDs are not stored in increasing order: the states and controls are taken
    in the order of time, the derivatives in the order of the IDs.  A collection with all other
    hypotheses of [C105_affine_exact] for which another system is identified, without an error. *)
Theorem C105_affine_order_refuted :
  exists (table : scheme -> nat -> nat -> seq (Z * rat_realFieldType)) (F U : list (row 'rV[rat_realFieldType]_1))
         (A : 'M[rat_realFieldType]_1) (B : 'I_1 -> 'M[rat_realFieldType]_1),
  [/\ [/\ ValidRows F, (forall i, Occurs F i -> Regular F i (Zpos 1)), Aligned F (Zpos 1) & index U = index F],
      [/\ Extent (table center 1%N 2%N) (Zneg 1) (Zpos 1), OrderConditions (table center 1%N 2%N) 1 2,
          forall i, Occurs F i -> Z.lt (Z.sub (Zpos 1) (Zneg 1)) (Z.of_nat (length (rows_of F i))) &
          CommonTimes (table center 1%N 2%N) (Zpos 1) F],
      PolynomialControlled 1 2 A B F U, SpanningControlled (table center 1%N 2%N) (Zpos 1) F U &
      forall lstsq : lstsq_t rat_realFieldType, solves_consistent lstsq ->
        exists A' T, affine_fit 1 table lstsq KInt center 2 F U = Ok (A', T) /\ ~ (A' = A /\ T 0 = B 0)].
Proof.
exists ex_table, un_F, un_U, 0, (fun _ => 1%:M); split.
- by split=> //; [exact: un_valid|exact: un_regular|exact: un_aligned].
- split; [exact: ex_extent|exact: ex_order| |exact: un_common].
  by move=> i /in_ids; rewrite [ids _]/=; do !case=> [<-|] //=.
- exact: un_controlled.
- exact: un_spanning.
- by move=> lstsq; apply: un_fit.
Qed.
Print Assumptions C105_affine_order_refuted.

(** ** Cases that meet the hypotheses *)

(** Two decoupled processes that grow by the factors 2 and 3 every two time units: the generator is
    defined, and its eigenvalues are 3/8 and 2/3. *)
Example C105_growth_example (lstsq := @pinv_lstsq rat_realFieldType) :
  [/\ ValidRows gr_F, (forall i, Occurs gr_F i -> Regular gr_F i (Zpos 2)), gr_M \in unitmx,
      SampledSystem (Zpos 2) gr_M gr_F &
      SpanningSamples (ex_table center 1 2) Z0 (Zpos 2) gr_F] /\
  exists L, gdmd_fit 1 ex_table lstsq KInt None gr_F = Ok L /\
            L = diag_mx (two (3%:R / 8%:R) (2%:R / 3%:R)).
Proof.
split; first by split; [exact: gr_valid|exact: gr_regular|exact: gr_unit|exact: gr_sampled|exact: gr_spanning].
have Hk : KInt <> KDatetime by [].
have [L HL] : exists L, gdmd_fit 1 ex_table lstsq KInt None gr_F = Ok L.
  apply/(C105_defined 1 lstsq false gr_valid gr_regular gr_aligned (ex_extent center 1 2) Hk).
  by move=> i /in_ids; rewrite [ids _]/=; do !case=> [<-|] //=.
exists L; split=> //.
have [-> _] := C105_central_generator gr_valid gr_regular erefl (@pinv_lstsq_ok rat_realFieldType) gr_unit gr_sampled gr_spanning HL.
have -> : invmx gr_M = diag_mx (two 2%:R^-1 3%:R^-1).
  apply: (can_inj (mulKmx gr_unit)); rewrite mulmxV ?gr_unit // mulmx_diag.
  apply/matrixP => i j; rewrite !mxE; case: i => -[|[|//]] Hi; rewrite /= ?mulfV //.
apply/matrixP => i j; rewrite !mxE; case: i => -[|[|//]] Hi; case: j => -[|[|//]] Hj /=; by apply/eqP.
Qed.

(** A double integrator in one series of four samples. *)
Example C105_integrator_example (lstsq := @pinv_lstsq rat_realFieldType) :
  [/\ ValidRows di_F, (forall i, Occurs di_F i -> Regular di_F i (Zpos 1)), PolynomialSolutions 1 2 di_A di_F &
      SpanningSamples (ex_table center 1 2) Z0 (Zpos 1) di_F] /\
  gdmd_fit 1 ex_table lstsq KInt None di_F = Ok di_A.
Proof.
split; first by split; [exact: di_valid|exact: di_regular|exact: di_solutions|exact: di_spanning].
have Hk : KInt <> KDatetime by [].
have [L HL] : exists L, gdmd_fit 1 ex_table lstsq KInt None di_F = Ok L.
  apply/(C105_defined 1 lstsq false di_valid di_regular di_aligned (ex_extent center 1 2) Hk).
  by move=> i /in_ids; rewrite [ids _]/=; do !case=> [<-|] //=.
rewrite HL; congr Ok.
exact: (C105_exact_for_polynomials di_valid di_regular (ex_extent center 1 2) (ex_order center) (oner_neq0 _)
  (@pinv_lstsq_ok rat_realFieldType) di_solutions di_spanning HL).
Qed.

(** The bilinear system x' = u x in two series stored in the order of the IDs, and two series with
    different time ranges. *)
Example C105_affine_example (lstsq := @pinv_lstsq rat_realFieldType) :
  (exists T, affine_fit 1 ex_table lstsq KInt center 2 so_F so_U = Ok (0, T) /\ forall c : 'I_1, T c = 1%:M) /\
  affine_fit 1 ex_table lstsq KInt center 2 tr_F tr_F = Err ValueError.
Proof.
have Hk : KInt <> KDatetime by [].
split.
  have HU : index so_U = index so_F by [].
  apply: (C105_affine_exact so_valid so_regular so_aligned so_sorted HU (ex_extent center 1 2) (ex_order center)
    (oner_neq0 _) (@pinv_lstsq_ok rat_realFieldType) Hk _ so_common so_controlled so_spanning).
  by move=> i /in_ids; rewrite [ids _]/=; do !case=> [<-|] //=.
apply: (C105_affine_times_refuted _ _ tr_valid tr_regular tr_aligned tr_sorted erefl (ex_extent center 1 2) Hk _ tr_times).
by move=> i /in_ids; rewrite [ids _]/=; do !case=> [<-|] //=.
Qed.
