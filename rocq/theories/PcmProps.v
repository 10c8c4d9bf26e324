(** * C47: the parameters of PCManifold objects. *)

From Coq Require Import List ZArith Bool Lia PeanoNat.
From Verif Require Import Np PcmModel PcmSpec PcmProofs.
Import ListNotations.
Local Open Scope nat_scope.

(** After any history of calls every object reports the cut-off set last on it or on any other
    view of the same constructed (or unpickled) object. *)
Theorem C47_cut_off : forall (h : list op) (p : nat),
  get_cut_off (run h) p = if p <? n_objs (rev h) then Some (expected_cut_off (rev h) p) else None.
Proof. exact cut_off_expected. Qed.
Print Assumptions C47_cut_off.

(** The same for the parameter of the kernel. *)
Theorem C47_epsilon : forall (h : list op) (p : nat),
  get_epsilon (run h) p =
  if p <? n_objs (rev h) then Some (expected_epsilon (rev h) (kernel_of (rev h) p)) else None.
Proof. exact epsilon_expected. Qed.
Print Assumptions C47_epsilon.

(** Separately constructed objects do not influence each other's cut-off. *)
Theorem C47_separate_objects : forall (h : list op) (p q : nat) (v e : num) (b : bool),
  owner (rev h) q <> owner (rev h) p ->
  get_cut_off (run (h ++ [SetCutOff q v])) p = get_cut_off (run h) p /\
  get_cut_off (run (h ++ [Optimize q v e b])) p = get_cut_off (run h) p.
Proof.
  intros h p q v e b H. rewrite !cut_off_expected, !rev_unit.
  apply Nat.eqb_neq in H. split; cbn -[Nat.ltb]; [|destruct b]; rewrite ?H, ?andb_false_r; reflexivity.
Qed.
Print Assumptions C47_separate_objects.

(** Whatever distance parameters are passed to the constructor, the new object has the
    default parameters. *)
Theorem C47_constructor_refuted : forall (h : list op) (kw : dict),
  let p := n_objs (rev h) in
  get_params (run (h ++ [New true None (Some kw)])) p = Some (set_defaults empty_dict) /\
  get_cut_off (run (h ++ [New true None (Some kw)])) p = Some PInf.
Proof.
  intros h kw p. split.
  - rewrite run_snoc. cbn. unfold get_params. cbn.
    subst p. rewrite <- (inv_objs _ _ (inv_run h)).
    rewrite nth_error_app2, Nat.sub_diag by lia. cbn. now rewrite app_nth2, Nat.sub_diag by lia.
  - rewrite cut_off_expected, rev_unit. cbn -[Nat.ltb Nat.eqb]. fold p.
    now rewrite Nat.eqb_refl, (proj2 (Nat.ltb_lt _ _) (Nat.lt_succ_diag_r p)).
Qed.
Print Assumptions C47_constructor_refuted.

(** Changing the cut-off of a view changes that of the viewed object. *)
Theorem C47_view_refuted : forall (h : list op) (p : nat) (v : num),
  p < n_objs (rev h) -> nonpositive v = false ->
  get_cut_off (run (h ++ [View p; SetCutOff (n_objs (rev h)) v])) p = Some v.
Proof.
  intros h p v Hp Hv. rewrite cut_off_expected. rewrite rev_app_distr. cbn -[Nat.ltb Nat.eqb].
  rewrite (proj2 (Nat.ltb_lt _ _) Hp). rewrite Nat.eqb_refl.
  replace (p =? n_objs (rev h)) with false by (symmetry; apply Nat.eqb_neq; lia). cbn -[Nat.ltb Nat.eqb].
  rewrite Nat.eqb_refl, Hv. rewrite !(proj2 (Nat.ltb_lt _ _)) by lia. reflexivity.
Qed.
Print Assumptions C47_view_refuted.

(** Two objects, a view of the first, a pickled copy; a cut-off passed to the constructor. *)
Example C47_example :
  let kw := Dict (Some (Fin 7)) None None in
  let h := [New true None (Some kw); New true None None; View 0; SetCutOff 2 (Fin 5); Pickle 0;
            SetCutOff 0 (Fin 3); SetCutOff 1 (Fin 0); SetEpsilon 2 (Fin 9)] in
  map (get_cut_off (run h)) [0; 1; 2; 3; 4] = [Some (Fin 3); Some PInf; Some (Fin 3); Some (Fin 5); None] /\
  map (get_epsilon (run h)) [0; 1; 2; 3] = [Some (Fin 9); Some (Fin 1); Some (Fin 9); Some (Fin 1)].
Proof. split; reflexivity. Qed.
