(** * AffineKgMPC: the theorems of C27. *)

Require Import Reals List Lra Lia.
From Verif Require Import AffMpcModel AffMpcSpec AffMpcProofs.
Open Scope R_scope.

(** Systems whose state does not react to the control ([B] = 0): the array handed to the
    optimizer is the gradient of the cost exactly if every input weight is 0 or 1 (or the
    input entry is 0). *)
Theorem C27_gradient_iff_unit_weights :
  forall ns nl nu nt cost_state cost_input x xref adjoint u,
  let predict := fun _ => x in
  let cj := cost_and_jacobian ns nl nu nt cost_state cost_input (fun _ _ _ => 0) predict adjoint xref in
  gradient nu nt (fun u => fst (cj u)) u (snd (cj u))
  <-> (forall i k, (i < nu)%nat -> (k < nt)%nat -> cost_input i = 0 \/ cost_input i = 1 \/ u i k = 0).
Proof.
  intros; unfold cj, predict, cost_and_jacobian, gradient; simpl; split.
  - intros H i k Hi Hk. specialize (H i k Hi Hk).
    rewrite jacobian_no_control in H by reflexivity.
    apply weights_agree.
    exact (uniqueness_limite _ _ _ _ H (deriv_input ns nu nt cost_state cost_input x xref u i k Hi Hk)).
  - intros H i k Hi Hk. rewrite jacobian_no_control by reflexivity.
    rewrite (proj2 (weights_agree _ _) (H i k Hi Hk)).
    apply deriv_input; assumption.
Qed.
Print Assumptions C27_gradient_iff_unit_weights.

(** The same for the term that drives the adjoint equation: it is the derivative of the
    cost with respect to the trajectory exactly if every state weight is 0 or 1 (or the
    trajectory agrees with the reference). *)
Theorem C27_state_term_iff_unit_weights :
  forall ns nu nt cost_state cost_input x xref u,
  gradient ns nt (fun x => cost ns nu nt cost_state cost_input x xref u) x (dcost_dx ns cost_state x xref)
  <-> (forall j k, (j < ns)%nat -> (k < nt)%nat -> cost_state j = 0 \/ cost_state j = 1 \/ x j k = xref j k).
Proof.
  intros; unfold gradient; split.
  - intros H j k Hj Hk. specialize (H j k Hj Hk). unfold dcost_dx in H.
    rewrite (proj2 (Nat.ltb_lt j ns) Hj) in H.
    pose proof (uniqueness_limite _ _ _ _ H (deriv_state ns nu nt cost_state cost_input x xref u j k Hj Hk)) as E.
    apply weights_agree in E as [E|[E|E]]; auto. right; right; lra.
  - intros H j k Hj Hk. unfold dcost_dx. rewrite (proj2 (Nat.ltb_lt j ns) Hj).
    assert (E : cost_state j = 0 \/ cost_state j = 1 \/ x j k - xref j k = 0)
      by (destruct (H j k Hj Hk) as [E|[E|E]]; auto; right; right; lra).
    rewrite (proj2 (weights_agree _ _) E). apply deriv_state; assumption.
Qed.
Print Assumptions C27_state_term_iff_unit_weights.

(** Hence the property fails: one input with weight 2 at a single time value. *)
Theorem C27_gradient_refuted :
  exists ns nl nu nt cost_state cost_input B predict adjoint xref u,
  let cj := cost_and_jacobian ns nl nu nt cost_state cost_input B predict adjoint xref in
  ~ gradient nu nt (fun u => fst (cj u)) u (snd (cj u)).
Proof.
  exists 1%nat, 1%nat, 1%nat, 1%nat, (fun _ => 1), (fun _ => 2), (fun _ _ _ => 0), (fun _ _ _ => 0),
    (fun _ _ _ _ => 0), (fun _ _ => 0), (fun _ _ => 1).
  intros cj H.
  pose proof (proj1 (C27_gradient_iff_unit_weights 1 1 1 1 (fun _ => 1) (fun _ => 2) (fun _ _ => 0)
    (fun _ _ => 0) (fun _ _ _ _ => 0) (fun _ _ => 1)) H) as H'.
  destruct (H' 0%nat 0%nat) as [E|[E|E]]; [lia|lia|lra|lra|lra].
Qed.
Print Assumptions C27_gradient_refuted.

(** Unit weights with non-zero input meet the condition of the first theorem. *)
Example C27_unit_weights :
  gradient 2 3 (fun u => cost 1 2 3 (fun _ => 1) (fun i => INR i) (fun _ _ => 5) (fun _ _ => 0) u)
    (fun _ _ => 7) (fun i k => 2 * INR i * 7).
Proof.
  intros i k Hi Hk.
  pose proof (proj2 (C27_gradient_iff_unit_weights 1 1 2 3 (fun _ => 1) (fun i => INR i) (fun _ _ => 5)
    (fun _ _ => 0) (fun _ _ _ _ => 0) (fun _ _ => 7))) as H.
  assert (H' : derivable_pt_lim (fun v => cost 1 2 3 (fun _ => 1) (fun i => INR i) (fun _ _ => 5) (fun _ _ => 0)
                 (set_entry (fun _ _ => 7) i k v)) 7
               (jacobian 1 1 (fun _ => 1) (fun i => INR i) (fun _ _ _ => 0) (fun _ _ _ _ => 0) (fun _ _ => 5)
                 (fun _ _ => 0) (fun _ _ => 7) i k)).
  { apply H; [|assumption|assumption].
    clear; intros i k Hi Hk; destruct i as [|[|i]]; [left|right; left|lia]; simpl; lra. }
  rewrite jacobian_no_control in H' by reflexivity. exact H'.
Qed.
