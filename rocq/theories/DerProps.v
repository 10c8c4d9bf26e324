(** * Theorems about finite differences in time (C60). *)

From Coq Require Import List ZArith Lia.
From mathcomp Require Import all_ssreflect all_algebra.
From Verif Require Import Np TscModel TscSpec TscProofs TscDt TscRegular DerModel DerSpec DerList DerProofs DerExample.
Import Order.Theory GRing.Theory Num.Theory.
Set Implicit Arguments.
Unset Strict Implicit.
Unset Printing Implicit Defensive.
Local Open Scope ring_scope.

(** The model for collections with [f] real features; time values are multiples of [unit]. *)
Definition derivative (R : realFieldType) (f : nat) (unit : R) (table : scheme -> nat -> nat -> seq (Z * R))
  (k : tkind) (s : scheme) (order accuracy : nat) (shift_index : bool) (F : list (row 'rV[R]_f)) :=
  time_derivative 0 (@vaxpy R f) (@vscale R f unit) table k s order accuracy shift_index F.

(** By how many offsets the index is moved: to the latest sample that is used, if asked for
    and if the scheme is not "backward". *)
Definition moved_by (s : scheme) (shift_index : bool) (hi : Z) : Z :=
  match s, shift_index with
  | backward, _ => Z0
  | _, true => hi
  | _, false => Z0
  end.

Lemma moved_by_shifts s shift_index hi : (if shifts s shift_index then hi else Z0) = moved_by s shift_index hi.
Proof. by case: s; case: shift_index. Qed.

(** C60: the rows are exactly the finite differences at all samples of all series for which the
    stencil lies in the series, none across series, stored under their own time (or, if the index
    is shifted, under the latest time that is used). *)
Theorem C60_values :
  forall (R : realFieldType) (f : nat) (unit : R) table k s order accuracy shift_index
         (F G : list (row 'rV[R]_f)) d lo hi,
  ValidRows F -> (forall i, Occurs F i -> Regular F i d) ->
  Extent (table s order accuracy) lo hi ->
  derivative unit table k s order accuracy shift_index F = Ok G ->
  [/\ ValidRows G, IdsSorted G &
      forall r, List.In r G <->
        exists t, rtime r = Z.add t (Z.mul (moved_by s shift_index hi) d) /\
                  Derivative unit (table s order accuracy) order d F t r].
Proof.
move=> R f unit table k s order acc sh F G d lo hi HV HR /extent_in [H1 H2 H3 H4] E.
have [G0 Hlong] := derivative_ok HV HR H1 H2 H3 H4 E.
rewrite {}G0; split.
- by apply: assembled_valid => // i Hi; apply: (diff_good _ _ _ _ _ HV HR _ _ _ H1 H2 H3 H4); apply: Hlong.
- exact (assembled_sorted F _).
- move=> r; rewrite -moved_by_shifts (in_assembled _ _ _ _ _ HV HR _ _ _ H1 H2 H3 H4); split.
    by case=> t [x [Hx [Ht Hv]]]; exists t; split=> //; exists x; split=> //; rewrite Hv /wsum /vscale fold_sum add0r.
  by case=> t [Ht [x [Hx Hv]]]; exists t, x; do !split=> //; rewrite Hv /wsum /vscale fold_sum add0r.
Qed.
Print Assumptions C60_values.

(** C60: it is defined exactly if every series has more samples than the stencil is wide. *)
Theorem C60_defined :
  forall (R : realFieldType) (f : nat) (unit : R) table k s order accuracy shift_index
         (F : list (row 'rV[R]_f)) d lo hi,
  ValidRows F -> (forall i, Occurs F i -> Regular F i d) ->
  Extent (table s order accuracy) lo hi -> k <> KDatetime ->
  ((exists G, derivative unit table k s order accuracy shift_index F = Ok G) <->
   (forall i, Occurs F i -> Z.lt (Z.sub hi lo) (Z.of_nat (length (rows_of F i))))).
Proof.
move=> R f unit table k s order acc sh F d lo hi HV HR /extent_in [H1 H2 H3 H4] Hk; split.
  case=> G E i Hi; have [_ Hlong] := derivative_ok HV HR H1 H2 H3 H4 E.
  by move: (Hlong i Hi); rewrite /width; lia.
move=> Hlong; exists (assembled F (diff 0 (@vaxpy R f) (@vscale R f unit) (table s order acc) order d (shifts s sh))).
rewrite /derivative /time_derivative /check_const_time_delta (delta_time_regular k F d HV HR).
have Hg i : Occurs F i -> GoodSeries (diff 0 (@vaxpy R f) (@vscale R f unit) (table s order acc) order d (shifts s sh) (series F i)).
  by move=> Hi; apply: (diff_good _ _ _ _ _ HV HR _ _ _ H1 H2 H3 H4); move: (Hlong i Hi); rewrite /width; lia.
by case: k Hk => // _; apply: (frames_ok F _ HV Hg).
Qed.
Print Assumptions C60_defined.

(** C60 refuted for datetime indices, for which it always fails. *)
Theorem C60_datetime_refuted :
  forall (R : realFieldType) (f : nat) (unit : R) table s order accuracy shift_index
         (F : list (row 'rV[R]_f)) d,
  ValidRows F -> (forall i, Occurs F i -> Regular F i d) ->
  derivative unit table KDatetime s order accuracy shift_index F = Err TypeError.
Proof.
move=> R f unit table s order acc sh F d HV HR.
by rewrite /derivative /time_derivative /check_const_time_delta (delta_time_regular KDatetime F d HV HR).
Qed.
Print Assumptions C60_datetime_refuted.

(** C60: with the order conditions of the scheme the derivatives of polynomials in time of degree
    below order + accuracy are exact, at every row. *)
Theorem C60_exact_for_polynomials :
  forall (R : realFieldType) (f : nat) (unit : R) table k s order accuracy shift_index
         (F G : list (row 'rV[R]_f)) d lo hi,
  ValidRows F -> (forall i, Occurs F i -> Regular F i d) ->
  Extent (table s order accuracy) lo hi -> OrderConditions (table s order accuracy) order accuracy ->
  unit != 0 ->
  derivative unit table k s order accuracy shift_index F = Ok G ->
  forall (i : Z) (P : 'I_f -> {poly R}),
  (forall j, (size (P j) <= order + accuracy)%N) ->
  (forall t v, List.In (mkRow i t v) F -> forall j, v ord0 j = (P j).[unit * number R t]) ->
  forall t v, List.In (mkRow i t v) G -> forall j,
    v ord0 j = ((P j)^`(order)).[unit * number R (Z.sub t (Z.mul (moved_by s shift_index hi) d))].
Proof.
move=> R f unit table k s order acc sh F G d lo hi HV HR HE HC Hu E i P HP HF t v HG j.
have [_ _ /(_ (mkRow i t v)) [/(_ HG) [t' [/= Et [x [Hx Ev]]]] _]] := C60_values HV HR HE E.
have -> : Z.sub t (Z.mul (moved_by s sh hi) d) = t' by lia.
have Hd := step_pos _ _ HV HR.
rewrite /= in Ev; rewrite Ev mxE summxE.
have Hnd : unit * number R d != 0.
  by rewrite mulf_neq0 //; case: d Hd {HR Ev Hx Et} => // p _; rewrite gt_eqF // number_pos.
have -> : \sum_(p <- table s order acc) (p.2 *: x p.1) 0 j
        = \sum_(p <- table s order acc) p.2 * (P j).[unit * number R t' + (unit * number R d) * number R p.1].
  apply: eq_big_list => p Hp; rewrite mxE (HF _ _ (Hx p Hp)) number_add number_mul mulrDr.
  by rewrite [number R p.1 * _]mulrC !mulrA.
rewrite (taylor_sum _ _ HC (HP j)) mulrA mulVf ?mul1r // expf_neq0 //.
Qed.
Print Assumptions C60_exact_for_polynomials.

(** The hypotheses are met by the squares of the time values in two series of four and three
    samples; the derivative at time 4 of series 3 is 8, and there are three rows. *)
Example C60_example :
  [/\ ValidRows ex_F, (forall i, Occurs ex_F i -> Regular ex_F i (Zpos 2)),
      Extent (ex_table center 1 2) (Zneg 1) (Zpos 1), OrderConditions (ex_table center 1 2) 1 2 &
      exists G, [/\ derivative 1 ex_table KInt center 1 2 false ex_F = Ok G,
                    length G = 3%N & List.In (mkRow (Zpos 3) (Zpos 4) (const_mx 8%:R)) G]].
Proof.
split; [exact: ex_valid|exact: ex_regular|exact: ex_extent|exact: ex_order|].
have Hk : KInt <> KDatetime by [].
have [_ Hd] := C60_defined 1 false ex_valid ex_regular (ex_extent center 1 2) Hk.
have [|G E] := Hd.
  by move=> i /in_ids; rewrite [ids _]/=; do !case=> [<-|] //=.
exists G; split=> //.
  by move: E; rewrite /derivative /=; case=> <-.
have [_ _ /(_ (mkRow (Zpos 3) (Zpos 4) (const_mx 8%:R))) [_ H]] := C60_values ex_valid ex_regular (ex_extent center 1 2) E.
apply: H; exists (Zpos 4); split=> //; exists (fun o => const_mx (number rat_realFieldType (Z.add (Zpos 4) (Z.mul o (Zpos 2))) ^+ 2)).
split.
  by move=> p; rewrite /ex_table /=; do !case=> [<- /=|] //; rewrite /ex_F /=; auto 10.
by apply/matrixP => a b; rewrite !mxE summxE !big_cons big_nil !mxE.
Qed.
