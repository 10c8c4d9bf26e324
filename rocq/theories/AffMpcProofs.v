(** * Proofs about AffineKgMPC *)

Require Import Reals List Lra Lia Psatz.
From Verif Require Import AffMpcModel AffMpcSpec.
Import ListNotations.
Open Scope R_scope.

Lemma rsum_S n f : rsum (S n) f = rsum n f + f n.
Proof.
  unfold rsum. rewrite seq_S, map_app, fold_right_app; simpl.
  generalize (map f (seq 0 n)); intro l.
  assert (H : forall a, fold_right Rplus a l = fold_right Rplus 0 l + a)
    by (induction l; intro a'; simpl; [lra|rewrite IHl; lra]).
  rewrite H; lra.
Qed.

Lemma rsum_ext n f g : (forall k, (k < n)%nat -> f k = g k) -> rsum n f = rsum n g.
Proof.
  induction n; intro H; [reflexivity|].
  rewrite !rsum_S, (H n), IHn by (auto with arith); reflexivity.
Qed.

Lemma rsum_0 n f : (forall k, (k < n)%nat -> f k = 0) -> rsum n f = 0.
Proof.
  induction n; intro H; [reflexivity|].
  rewrite rsum_S, (H n), IHn by (auto with arith); lra.
Qed.

(** only the summand at [k0] changes *)
Lemma rsum_change n f g k0 : (k0 < n)%nat -> (forall k, k <> k0 -> f k = g k) ->
  rsum n f = rsum n g + (f k0 - g k0).
Proof.
  induction n; intros Hk H; [lia|].
  rewrite !rsum_S. destruct (Nat.eq_dec k0 n) as [->|Hn].
  - rewrite (rsum_ext n f g) by (intros; apply H; lia). lra.
  - rewrite IHn by (auto; lia). rewrite (H n) by lia. lra.
Qed.

Section Proofs.
Variables ns nu nt : nat.
Variables cost_state cost_input : nat -> R.

Lemma set_same a i k v : set_entry a i k v i k = v.
Proof. unfold set_entry; now rewrite !Nat.eqb_refl. Qed.

Lemma set_other a i k v i' k' : i' <> i \/ k' <> k -> set_entry a i k v i' k' = a i' k'.
Proof.
  unfold set_entry; intros [H|H].
  - apply Nat.eqb_neq in H; now rewrite H.
  - apply Nat.eqb_neq in H; rewrite H; now rewrite Bool.andb_false_r.
Qed.

Lemma cost_input_entry x xref u i k v : (i < nu)%nat -> (k < nt)%nat ->
  cost ns nu nt cost_state cost_input x xref (set_entry u i k v)
  = cost ns nu nt cost_state cost_input x xref u
    + ((cost_input i * v) * (cost_input i * v) - (cost_input i * u i k) * (cost_input i * u i k)).
Proof.
  intros Hi Hk; unfold cost.
  rewrite (rsum_change nt _ (fun k => rsum ns (fun j => (cost_state j * (x j k - xref j k)) * (cost_state j * (x j k - xref j k)))
                    + rsum nu (fun i => (cost_input i * u i k) * (cost_input i * u i k))) k Hk).
  - rewrite (rsum_change nu (fun i0 => cost_input i0 * set_entry u i k v i0 k * (cost_input i0 * set_entry u i k v i0 k))
                            (fun i => (cost_input i * u i k) * (cost_input i * u i k)) i Hi).
    + rewrite set_same. lra.
    + intros i' Hne. rewrite set_other by auto. reflexivity.
  - intros k' Hne. f_equal. apply rsum_ext; intros i' _. rewrite set_other by auto. reflexivity.
Qed.

Lemma cost_state_entry x xref u j k v : (j < ns)%nat -> (k < nt)%nat ->
  cost ns nu nt cost_state cost_input (set_entry x j k v) xref u
  = cost ns nu nt cost_state cost_input x xref u
    + ((cost_state j * (v - xref j k)) * (cost_state j * (v - xref j k))
       - (cost_state j * (x j k - xref j k)) * (cost_state j * (x j k - xref j k))).
Proof.
  intros Hi Hk; unfold cost.
  rewrite (rsum_change nt _ (fun k => rsum ns (fun j => (cost_state j * (x j k - xref j k)) * (cost_state j * (x j k - xref j k)))
                    + rsum nu (fun i => (cost_input i * u i k) * (cost_input i * u i k))) k Hk).
  - rewrite (rsum_change ns (fun j0 => cost_state j0 * (set_entry x j k v j0 k - xref j0 k) * (cost_state j0 * (set_entry x j k v j0 k - xref j0 k)))
                            (fun j => (cost_state j * (x j k - xref j k)) * (cost_state j * (x j k - xref j k))) j Hi).
    + rewrite set_same. lra.
    + intros i' Hne. rewrite set_other by auto. reflexivity.
  - intros k' Hne. f_equal. apply rsum_ext; intros i' _. rewrite set_other by auto. reflexivity.
Qed.

Lemma deriv_quad (f : R -> R) c w r v0 :
  (forall v, f v = c + (w * (v - r)) * (w * (v - r))) ->
  derivable_pt_lim f v0 (2 * (w * w) * (v0 - r)).
Proof.
  intro Hf. intros eps Heps.
  assert (Hd : 0 < eps / (w * w + 1)) by (apply Rdiv_lt_0_compat; nra).
  exists (mkposreal _ Hd); simpl; intros h Hh Hlt.
  rewrite !Hf.
  replace ((c + w * (v0 + h - r) * (w * (v0 + h - r)) - (c + w * (v0 - r) * (w * (v0 - r)))) / h - 2 * (w * w) * (v0 - r))
    with (w * w * h) by (field; assumption).
  rewrite Rabs_mult, (Rabs_right (w * w)) by nra.
  apply Rle_lt_trans with (w * w * (eps / (w * w + 1))).
  - apply Rmult_le_compat_l; [nra|lra].
  - replace eps with ((w * w + 1) * (eps / (w * w + 1))) at 2 by (field; nra).
    assert (0 < eps / (w * w + 1)) by assumption. nra.
Qed.

Lemma deriv_input x xref u i k : (i < nu)%nat -> (k < nt)%nat ->
  derivable_pt_lim (fun v => cost ns nu nt cost_state cost_input x xref (set_entry u i k v)) (u i k)
    (2 * (cost_input i * cost_input i) * u i k).
Proof.
  intros Hi Hk.
  replace (u i k) with (u i k - 0) at 2 by lra.
  apply (deriv_quad _ (cost ns nu nt cost_state cost_input x xref u - (cost_input i * u i k) * (cost_input i * u i k))).
  intro v. rewrite cost_input_entry by assumption. ring_simplify. lra.
Qed.

Lemma deriv_state x xref u j k : (j < ns)%nat -> (k < nt)%nat ->
  derivable_pt_lim (fun v => cost ns nu nt cost_state cost_input (set_entry x j k v) xref u) (x j k)
    (2 * (cost_state j * cost_state j) * (x j k - xref j k)).
Proof.
  intros Hi Hk.
  apply (deriv_quad _ (cost ns nu nt cost_state cost_input x xref u - (cost_state j * (x j k - xref j k)) * (cost_state j * (x j k - xref j k)))).
  intro v. rewrite cost_state_entry by assumption. lra.
Qed.

Lemma jacobian_no_control nl B adjoint x xref u i k :
  (forall a b, B a b i = 0) ->
  jacobian ns nl cost_state cost_input B adjoint x xref u i k = 2 * cost_input i * u i k.
Proof.
  intro HB; unfold jacobian, dcost_du. rewrite rsum_0; [lra|].
  intros b _. rewrite rsum_0; [lra|]. intros a _. rewrite HB; lra.
Qed.

Lemma weights_agree (w v : R) : 2 * w * v = 2 * (w * w) * v <-> w = 0 \/ w = 1 \/ v = 0.
Proof.
  split.
  - intro H. assert (E : w * ((w - 1) * v) = 0) by lra.
    apply Rmult_integral in E as [E|E]; [auto|].
    apply Rmult_integral in E as [E|E]; [right; left; lra|auto].
  - intros [->|[->| ->]]; lra.
Qed.
End Proofs.
