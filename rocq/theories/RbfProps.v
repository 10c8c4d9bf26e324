(** * C71: TSCRadialBasis. *)

From mathcomp Require Import all_ssreflect all_algebra.
From Verif Require Import LinModel LinSpec LinProofs RbfModel RbfSpec RbfProofs.
Import GRing.Theory.
Set Implicit Arguments.
Unset Strict Implicit.
Unset Printing Implicit Defensive.
Local Open Scope ring_scope.

Section Props.
Variable R : realFieldType.
Variable d : nat.
Variable dist : 'rV[R]_d -> 'rV[R]_d -> R.
Variable phi : R -> R.
Variable lstsq : lstsq_t R.
Variable choice : forall n k : nat, (k <= n)%N -> 'I_k -> 'I_n.

(** [transform] of a fitted object evaluates the function around centre [j] at point [i]. *)
Theorem C71_coefficients ct st (X : data R d) centers st' m (Y : 'M[R]_(m, d)) :
  fit choice ct st X centers = Some st' ->
  exists n (C : 'M[R]_(n, d)), centers_ st' = Some (Tagged (fun n => 'M[R]_(n, d)) C) /\
    (forall j, (ct <> FitParams) -> exists i, row j C = row i (points X)) /\
    exists W : 'M[R]_(m, n), transform dist phi st' Y = Some (Tagged (fun n => 'M[R]_(m, n)) W) /\
      forall i j, W i j = phi (dist (row i Y) (row j C)).
Proof.
have Hc : forall C, fit_centers choice ct X centers = Some C ->
    forall j, ct <> FitParams -> exists i, row j (tagged C) = row i (points X).
  rewrite /fit_centers; case: ct => [|k||].
  - by case: centers=> // C [<-] j _; exists j.
  - case: {-}_ / idP => // H C [<-] j _; exists (choice H j); exact: rowK.
  - by [].
  - case: initial=> // s C [<-] j _; exists (tnth (in_tuple s) j); exact: rowK.
rewrite /fit; case E: fit_centers => [[n C]|//] [<-]; exists n, C; split=> //; split; first exact: (Hc _ E).
by eexists; split; [reflexivity | move=> i j; rewrite mxE].
Qed.

(** [fit_transform] agrees with [fit] followed by [transform] of the same data. *)
Theorem C71_fit_transform ct st (X : data R d) centers : is_distance dist ->
  fit_transform dist phi choice ct st X centers =
  (if fit choice ct st X centers is Some st' then
     if transform dist phi st' (points X) is Some W then Some (st', W) else None
   else None).
Proof.
move=> Hd; rewrite /fit_transform; case E: fit => [st'|//]; case: ct E => // E.
move: E; rewrite /fit /=; case: centers=> // [] [<-]; rewrite /transform /=.
by rewrite kernel_x_interpolation // kernel_xy_interpolation.
Qed.

(** For a new object [inverse_transform] recovers all points that are centres, provided the centres can
    be interpolated, e.g. if the matrix of the basis functions is invertible. *)
Theorem C71_roundtrip ct (X : data R d) centers st' n (C : 'M[R]_(n, d)) m (Y : 'M[R]_(m, d)) Z :
  is_distance dist -> solves_consistent lstsq ->
  fit choice ct (new_rbf R d) X centers = Some st' -> centers_ st' = Some (Tagged (fun n => 'M[R]_(n, d)) C) ->
  interpolation dist phi C *m Z = C -> among C Y ->
  exists W st'', transform dist phi st' Y = Some W /\ inverse_transform dist phi lstsq st' W = Some (st'', Y) /\
    centers_ st'' = centers_ st'.
Proof.
move=> Hd Hl; rewrite /fit; case: fit_centers=> // C' [<-] /= [->] HZ HY; rewrite /transform /=.
eexists; eexists; split; [reflexivity|]; rewrite /inverse_transform /= eqxx.
case: eqP=> // H; split; [congr (Some (_, _))|]; last by [].
rewrite (eq_axiomK H) castmx_id kernel_x_interpolation //.
by apply: kernel_xy_among=> //; exact: (Hl _ _ _ _ _ _ HZ).
Qed.

Corollary C71_invertible ct (X : data R d) centers st' n (C : 'M[R]_(n, d)) :
  is_distance dist -> solves_consistent lstsq ->
  fit choice ct (new_rbf R d) X centers = Some st' -> centers_ st' = Some (Tagged (fun n => 'M[R]_(n, d)) C) ->
  interpolation dist phi C \in unitmx ->
  exists W st'', transform dist phi st' C = Some W /\ inverse_transform dist phi lstsq st' W = Some (st'', C).
Proof.
move=> Hd Hl H1 H2 HU.
have [] := @C71_roundtrip ct X centers st' n C n C (invmx (interpolation dist phi C) *m C) Hd Hl H1 H2.
- by rewrite mulKVmx.
- by move=> i; exists i.
by move=> W [st'' [? [? _]]]; exists W, st''.
Qed.

(** The matrix computed in the first call of [inverse_transform] is kept when the object is fitted
    again.  With a single centre [a] and then [b], the point [b] is mapped back to [a]; if the number
    of centres changes, [inverse_transform] always fails. *)
Theorem C71_refit_refuted (a b : 'rV[R]_d) :
  is_distance dist -> solves_consistent lstsq -> phi 0 != 0 ->
  let one x := @Data R d 1 x None in
  exists st1 st2 st3 W1 W2 st4,
    fit choice AllData (new_rbf R d) (one a) None = Some st1 /\
    transform dist phi st1 a = Some W1 /\ inverse_transform dist phi lstsq st1 W1 = Some (st2, a) /\
    fit choice AllData st2 (one b) None = Some st3 /\
    transform dist phi st3 b = Some W2 /\ inverse_transform dist phi lstsq st3 W2 = Some (st4, a).
Proof.
move=> Hd Hl Hp one.
have HK x : interpolation dist phi x = (phi 0)%:M :> 'M[R]_1.
  by apply/matrixP=> i j; rewrite !mxE !ord1 (proj2 Hd) eqxx mulr1n.
have HZ : interpolation dist phi a *m ((phi 0)^-1 *: a) = a.
  by rewrite HK mul_scalar_mx scalerA mulfV ?scale1r.
have Hs := Hl _ _ _ _ _ _ HZ.
have HW x : kernel_xy dist phi x x = interpolation dist phi a :> 'M[R]_1.
  by rewrite kernel_xy_interpolation !HK.
rewrite /fit /=; do 6 eexists; split; [reflexivity|]; split; [reflexivity|]; split.
  rewrite /inverse_transform /=; case: eqP=> // H; congr (Some (_, _)).
  by rewrite (eq_axiomK H) castmx_id kernel_x_interpolation // kernel_xy_interpolation.
split; [reflexivity|]; split; [reflexivity|].
rewrite /inverse_transform /=; case: eqP=> // H; congr (Some (_, _)).
by rewrite (eq_axiomK H) castmx_id (HW b) kernel_x_interpolation.
Qed.

Theorem C71_refit_size_refuted (A B : data R d) st1 st2 st3 m m' (W1 : {k : nat & 'M[R]_(m, k)}) (W2 : {k : nat & 'M[R]_(m', k)}) Y :
  nrows A <> nrows B ->
  fit choice AllData (new_rbf R d) A None = Some st1 ->
  inverse_transform dist phi lstsq st1 W1 = Some (st2, Y) ->
  fit choice AllData st2 B None = Some st3 ->
  inverse_transform dist phi lstsq st3 W2 = None.
Proof.
move=> Hn; rewrite /fit /= => [] [<-]; rewrite /inverse_transform /=.
case: ifP=> // _; case: {-}_ / eqP=> // H [<- _] /= [<-] /=.
case: ifP=> // /eqP E2; case: {-}_ / eqP=> // E3; case: Hn; rewrite -E2; exact/esym.
Qed.
End Props.

Print Assumptions C71_coefficients.
Print Assumptions C71_fit_transform.
Print Assumptions C71_roundtrip.
Print Assumptions C71_invertible.
Print Assumptions C71_refit_refuted.
Print Assumptions C71_refit_size_refuted.

(** ** A concrete case: two centres 0 and 1, distance |x - y|, function 1 + r *)

Section Example.
Let R := rat_realFieldType.
Definition ex_dist (x y : 'rV[R]_1) : R := `|x 0 0 - y 0 0|.
Definition ex_phi (r : R) : R := 1 + r.
Definition ex_choice n k (H : (k <= n)%N) : 'I_k -> 'I_n := widen_ord H.
Definition ex_points : 'M[R]_(2, 1) := \col_i (if i == 0 then 0 else 1).

Example ex_is_distance : is_distance ex_dist.
Proof. by split=> [x y|x]; rewrite /ex_dist; [exact: Num.Theory.distrC | rewrite subrr Num.Theory.normr0]. Qed.

Example ex_invertible : interpolation ex_dist ex_phi ex_points \in unitmx.
Proof.
rewrite unitmxE (expand_det_row _ ord0) !big_ord_recl big_ord0 /cofactor !det_mx11 /interpolation !mxE.
by rewrite /ex_dist /ex_phi /ex_points !mxE.
Qed.

Example ex_roundtrip (lstsq : lstsq_t R) : solves_consistent lstsq ->
  exists st W st', fit ex_choice AllData (new_rbf R 1) (Data ex_points None) None = Some st /\
    transform ex_dist ex_phi st ex_points = Some W /\
    inverse_transform ex_dist ex_phi lstsq st W = Some (st', ex_points).
Proof.
move=> Hl; eexists.
have [] := @C71_invertible R 1 ex_dist ex_phi lstsq ex_choice AllData (Data ex_points None) None _ 2 ex_points
  ex_is_distance Hl erefl erefl ex_invertible.
by move=> W [st' [H1 H2]]; exists W, st'; split; [reflexivity|].
Qed.

Example ex_solver : exists lstsq : lstsq_t R, solves_consistent lstsq.
Proof. by exists (@pinv_lstsq R); exact: pinv_lstsq_ok. Qed.

Example ex_refit : (0 : 'rV[R]_1) <> const_mx 1 /\ ex_phi 0 != 0.
Proof. by split=> // /rowP /(_ 0) /eqP; rewrite !mxE. Qed.
End Example.
