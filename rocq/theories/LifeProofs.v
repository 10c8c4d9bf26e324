(** * Proofs: life cycle of an EDMD object. *)

From Coq Require Import List ZArith Bool Arith Lia.
Import ListNotations.
From Verif Require Import Np LifeModel LifeSpec.

Lemma run_snoc h c : run (h ++ [c]) = fst (call_method (run h) c).
Proof. unfold run. rewrite fold_left_app. reflexivity. Qed.

Lemma finish_mode o s : is_partial (fst (finish o s)) = is_partial o.
Proof. destruct s; reflexivity. Qed.

Lemma finish_controlled o s : is_controlled (fst (finish o s)) = is_controlled o.
Proof. destruct s; reflexivity. Qed.

Lemma finish_transition o s : is_transition (fst (finish o s)) = is_transition o.
Proof. destruct s; reflexivity. Qed.

Lemma call_mode o c : is_partial (fst (call_method o c)) =
  match is_partial o with
  | Some b => Some b
  | None => if dmd_fitted o && partial c then None else if accepted c then Some (partial c) else None
  end.
Proof.
  destruct o as [p f k t], c as [pa de u y r]. unfold call_method, accepted, fit, partial_fit. cbn.
  destruct pa, de; cbn; try (destruct p, f; reflexivity).
  - destruct y; cbn; [destruct p, f; reflexivity|]. destruct u; cbn; [destruct p, f; reflexivity|].
    destruct f, p as [[|]|]; cbn; rewrite ?finish_mode; reflexivity.
  - destruct p as [[|]|]; cbn; rewrite ?finish_mode; try reflexivity. destruct f; reflexivity.
Qed.

Lemma call_fitted o c : (is_partial o = None -> dmd_fitted o = false) ->
  is_partial (fst (call_method o c)) = None -> dmd_fitted (fst (call_method o c)) = false.
Proof.
  destruct o as [p f k t], c as [pa de u y r]. unfold call_method, fit, partial_fit. cbn. intros H.
  destruct pa, de, y, u, f, p as [[|]|]; cbn; try (specialize (H eq_refl)); try discriminate; auto;
    rewrite ?finish_mode; cbn; discriminate.
Qed.

Lemma run_unfitted h : is_partial (run h) = None -> dmd_fitted (run h) = false.
Proof.
  induction h as [|c h IH] using rev_ind; [reflexivity|]. rewrite run_snoc. apply call_fitted. exact IH.
Qed.

Lemma first_kind_snoc h c : first_kind (h ++ [c]) =
  match first_kind h with Some b => Some b | None => if accepted c then Some (partial c) else None end.
Proof. induction h as [|d h IH]; cbn; [destruct (accepted c); reflexivity|]. destruct (accepted d); [reflexivity|exact IH]. Qed.

Lemma run_mode h : is_partial (run h) = first_kind h.
Proof.
  induction h as [|c h IH] using rev_ind; [reflexivity|]. rewrite run_snoc, call_mode, first_kind_snoc, <- IH.
  destruct (is_partial (run h)) as [b|] eqn:E; [reflexivity|]. rewrite (run_unfitted h E). reflexivity.
Qed.

Lemma call_transition_partial o c : partial c = true -> is_transition (fst (call_method o c)) = is_transition o.
Proof.
  destruct o as [p f k t], c as [pa de u y r]. cbn. intros ->. unfold call_method, partial_fit. cbn.
  destruct de, y, u, f, p as [[|]|]; cbn; rewrite ?finish_transition; reflexivity.
Qed.
