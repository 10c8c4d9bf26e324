(** * C44: scale and cut-off estimates. *)

From Coq Require Import Reals Lra.
From Verif Require Import EstModel.
Local Open Scope R_scope.

(** At the cut-off distance the kernel has the value sqrt(tol) ... *)
Theorem C44_kernel_at_cut_off : forall tol cut_off : R, 0 < tol < 1 -> 0 < cut_off ->
  gaussian (estimate_scale tol cut_off) (cut_off ^ 2) = sqrt tol.
Proof.
  intros tol c [Ht0 Ht1] Hc. unfold gaussian, estimate_scale.
  assert (Hl : ln tol < 0) by (rewrite <- ln_1; apply ln_increasing; lra).
  replace (- 1 / (2 * (c ^ 2 / - ln tol)) * c ^ 2) with (ln tol / 2)
    by (field; repeat split; lra).
  rewrite <- (sqrt_square (exp (ln tol / 2))) by (left; apply exp_pos).
  rewrite <- exp_plus. replace (ln tol / 2 + ln tol / 2) with (ln tol) by lra.
  now rewrite exp_ln.
Qed.
Print Assumptions C44_kernel_at_cut_off.

(** ... which is larger than tol: the derivation in the code comment (tol >= kernel value at
    the cut-off) fails for every tolerance. *)
Theorem C44_tolerance_refuted : forall tol cut_off : R, 0 < tol < 1 -> 0 < cut_off ->
  tol < gaussian (estimate_scale tol cut_off) (cut_off ^ 2).
Proof.
  intros tol c Ht Hc. rewrite (C44_kernel_at_cut_off tol c Ht Hc). destruct Ht as [H0 H1].
  rewrite <- (sqrt_square tol) at 1 by lra. apply sqrt_lt_1_alt.
  split; [apply Rmult_le_pos; lra|]. rewrite <- (Rmult_1_r tol) at 3. apply Rmult_lt_compat_l; lra.
Qed.
Print Assumptions C44_tolerance_refuted.

(** Weights beyond the cut-off are at most sqrt(tol); with the squared tolerance the promise is
    kept. *)
Theorem C44_beyond_cut_off : forall tol cut_off d : R, 0 < tol < 1 -> 0 < cut_off -> cut_off <= d ->
  gaussian (estimate_scale tol cut_off) (d ^ 2) <= sqrt tol /\
  gaussian (estimate_scale (tol ^ 2) cut_off) (d ^ 2) <= tol.
Proof.
  assert (Mono : forall tol c d, 0 < tol < 1 -> 0 < c -> c <= d ->
    gaussian (estimate_scale tol c) (d ^ 2) <= gaussian (estimate_scale tol c) (c ^ 2)).
  { intros tol c d [Ht0 Ht1] Hc Hd. unfold gaussian, estimate_scale.
    assert (Hl : ln tol < 0) by (rewrite <- ln_1; apply ln_increasing; lra).
    assert (Hcd : c ^ 2 <= d ^ 2) by (apply pow_incr; lra).
    assert (Hc2 : 0 < c ^ 2) by (apply pow_lt; lra).
    assert (He : 0 < c ^ 2 / - ln tol) by (apply Rdiv_lt_0_compat; lra).
    set (e := c ^ 2 / - ln tol) in *.
    assert (Hneg : -1 / (2 * e) <= 0).
    { unfold Rdiv. replace (-1 * / (2 * e)) with (- / (2 * e)) by ring.
      assert (0 < / (2 * e)) by (apply Rinv_0_lt_compat; lra). lra. }
    destruct (Rle_lt_or_eq_dec _ _ Hcd) as [H|H]; [|rewrite H; lra].
    destruct (Rle_lt_or_eq_dec _ _ Hneg) as [Hn|Hn]; [|rewrite Hn, !Rmult_0_l; lra].
    left. apply exp_increasing. now apply Rmult_lt_gt_compat_neg_l. }
  intros tol c d [Ht0 Ht1] Hc Hd. split.
  - rewrite <- (C44_kernel_at_cut_off tol c) by lra. apply Mono; lra.
  - assert (H2 : 0 < tol ^ 2 < 1).
    { split; [now apply pow_lt|]. simpl. rewrite Rmult_1_r.
      apply Rlt_trans with tol; [|lra]. rewrite <- (Rmult_1_r tol) at 3. apply Rmult_lt_compat_l; lra. }
    replace tol with (sqrt (tol ^ 2)) at 2 by (apply sqrt_pow2; lra).
    rewrite <- (C44_kernel_at_cut_off (tol ^ 2) c H2 Hc). now apply Mono.
Qed.
Print Assumptions C44_beyond_cut_off.

Example C44_example : gaussian (estimate_scale (1 / 4) 3) (3 ^ 2) = 1 / 2.
Proof.
  rewrite C44_kernel_at_cut_off by lra.
  replace (1 / 4) with ((1 / 2) * (1 / 2)) by lra. apply sqrt_square. lra.
Qed.
