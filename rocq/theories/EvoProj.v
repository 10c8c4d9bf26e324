(** * Proofs about overwriting the system matrix. *)

From Coq Require Import List ZArith Bool Arith Lia Ring_theory.
From Verif Require Import Np TscModel TscSpec SysModel EvoModel EvoSpec EvoProofs.
Import ListNotations.

Section Proj.
Context {R : Type}.
Variables (zero one : R) (add mul : R -> R -> R).
Hypothesis RT : semi_ring_theory zero one add mul (@eq R).

Notation mv := (mv zero add mul).

Definition fsum (l : list R) : R := fold_left add l zero.

Lemma fsum_acc l : forall a, fold_left add l a = add a (fsum l).
Proof.
  unfold fsum. induction l as [|b l IH]; intros a; cbn.
  - rewrite (SRadd_comm RT). now rewrite (SRadd_0_l RT).
  - rewrite IH, (IH (add zero b)), (SRadd_0_l RT), (SRadd_assoc RT). reflexivity.
Qed.

Lemma fsum_cons a l : fsum (a :: l) = add a (fsum l).
Proof. unfold fsum at 1. cbn. rewrite (SRadd_0_l RT). apply fsum_acc. Qed.

Lemma fsum_scale {A} c (f : A -> R) l : fsum (map (fun k => mul c (f k)) l) = mul c (fsum (map f l)).
Proof.
  induction l as [|b l IH]; [cbn; rewrite (SRmul_comm RT); symmetry; apply (SRmul_0_l RT)|].
  cbn [map]. rewrite !fsum_cons, IH. rewrite !(SRmul_comm RT c). symmetry. apply (SRdistr_l RT).
Qed.

Lemma fsum_add {A} (f g : A -> R) l : fsum (map (fun k => add (f k) (g k)) l) = add (fsum (map f l)) (fsum (map g l)).
Proof.
  induction l as [|b l IH]; [cbn; symmetry; apply (SRadd_0_l RT)|].
  cbn [map]. rewrite !fsum_cons, IH. rewrite !(SRadd_assoc RT). f_equal. rewrite <- !(SRadd_assoc RT). f_equal. apply (SRadd_comm RT).
Qed.

Lemma fsum_swap {A B} (f : A -> B -> R) (l : list A) (m : list B) :
  fsum (map (fun a => fsum (map (f a) m)) l) = fsum (map (fun b => fsum (map (fun a => f a b) l)) m).
Proof.
  induction l as [|a l IH].
  - cbn. clear - RT. induction m as [|b m IH]; [reflexivity|]. cbn [map]. rewrite fsum_cons, <- IH. cbn.
    symmetry. apply (SRadd_0_l RT).
  - cbn [map]. rewrite fsum_cons, IH, <- fsum_add. f_equal. apply map_ext. intros b. now rewrite fsum_cons.
Qed.

(** (P V) y = P (V y) *)
Lemma mv_assoc (P V : arr2 R) y i : ncol P = nrow V ->
  mv (Arr2 (nrow P) (ncol V) (fun i j => mv P (fun k => at2 V k j) i)) y i = mv P (mv V y) i.
Proof.
  intros _. unfold EvoSpec.mv. cbn [at2 ncol].
  change (fsum (map (fun k => mul (fsum (map (fun k0 => mul (at2 P i k0) (at2 V k0 k)) (seq 0 (ncol P)))) (y k)) (seq 0 (ncol V)))
    = fsum (map (fun k => mul (at2 P i k) (fsum (map (fun k0 => mul (at2 V k k0) (y k0)) (seq 0 (ncol V))))) (seq 0 (ncol P)))).
  transitivity (fsum (map (fun k => fsum (map (fun k0 => mul (mul (at2 P i k0) (at2 V k0 k)) (y k)) (seq 0 (ncol P)))) (seq 0 (ncol V)))).
  - f_equal. apply map_ext. intros k. rewrite (SRmul_comm RT), <- fsum_scale. f_equal. apply map_ext. intros k0.
    apply (SRmul_comm RT).
  - rewrite fsum_swap. f_equal. apply map_ext. intros k. rewrite <- fsum_scale. f_equal. apply map_ext. intros k0.
    symmetry. apply (SRmul_assoc RT).
Qed.

End Proj.

Section Reject.
Context {R : Type}.
Variables (zero : R) (add mul : R -> R -> R).
Variables (mexp : arr2 R -> Z -> arr2 R) (mpow : arr2 R -> Z -> Z -> arr2 R)
          (sexp : R -> Z -> R) (spow : R -> Z -> Z -> R)
          (affine : (nat -> R) -> (nat -> nat -> R) -> list Z -> result (list (list R))).

Lemma rectangular_rejected c rl D x tv u M d oi names :
  c_mode c = MMatrix -> c_affine c = false -> nrow M <> ncol M ->
  forall F, evolve zero add mul mexp mpow sexp spow affine c rl D x tv u (OvMat M) d oi names <> Ok F.
Proof.
  intros Hm Ha HM F. unfold evolve.
  destruct (new_system c) as [s|e] eqn:Es; [|discriminate]. cbn [bind set_sys_matrix].
  destruct (check_initial_condition zero x (ncol M)) as [X|] eqn:EX; [|discriminate]. cbn [bind].
  destruct (check_time_values tv) as [ts|] eqn:Et; [|discriminate]. cbn [bind].
  destruct (if c_controlled c then _ else _) as [T|] eqn:EC; [|discriminate]. cbn [bind].
  destruct (check_time_delta c d) as [dt|] eqn:Ed; [|discriminate]. cbn [bind].
  destruct (negb _); [discriminate|].
  assert (Hsq : square M = false) by (unfold square; now apply Nat.eqb_neq).
  assert (NE : forall m (ids : list Z), from_tensor (map (series_of (nrow M) (@nil (arr2 R))) (seq 0 m)) 0 (Some ids) (Some []) <> Ok F).
  { intros m i E. assert (Z0 : forall (rr : list Z) n (l : list (list R)), zip_rows (np_repeat rr 0) (np_tile [] n) l = []).
    { intros rr n l. assert (E0 : np_repeat rr 0 = []) by (unfold np_repeat; induction rr as [|a rr IH]; [reflexivity|exact IH]).
      rewrite E0. reflexivity. }
    unfold from_tensor in E. rewrite map_length, seq_length in E.
    destruct (negb _) in E; [discriminate|]. destruct (negb _) in E; [discriminate|].
    cbn [length Nat.eqb negb] in E. rewrite Z0 in E. discriminate. }
  assert (Hs : s = differential_matrix \/ s = flowmap_matrix \/ s = flowmap_matrix_controlled).
  { destruct c as [ty md ct af iv]; cbn in Hm, Ha; subst; unfold new_system, select_strategy in Es; cbn in Es;
    destruct ty, ct, iv; cbn in Es; try discriminate; injection Es as <-; auto. }
  destruct Hs as [->|[->| ->]]; cbn [evolve_states].
  - unfold solve_matrix. destruct ts as [|t ts]; [apply NE|]. rewrite Hsq. discriminate.
  - unfold solve_matrix. destruct ts as [|t ts]; [apply NE|]. rewrite Hsq. discriminate.
  - destruct T as [T|]; [|discriminate]. destruct (y_control D) as [B|]; [|discriminate].
    unfold solve_matrix_controlled. destruct ts as [|t ts]; [discriminate|]. rewrite Hsq. discriminate.
Qed.

Lemma default_names_rejected c rl D x tv u M d oi :
  nrow M <> ncol M ->
  forall F, evolve zero add mul mexp mpow sexp spow affine c rl D x tv u (OvMat M) d oi None <> Ok F.
Proof.
  intros HM F E. apply evolve_accepts in E. destruct E as (_ & A & ts & EA & _ & _ & En & _). cbn in EA, En. congruence.
Qed.

End Reject.
