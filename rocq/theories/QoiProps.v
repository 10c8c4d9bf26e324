(** * The theorems of C30 (selection of features by name) and C31 (sorting of eigenpairs). *)

From Coq Require Import List ZArith Lia Sorting Permutation.
From Verif Require Import Np QoiModel QoiSpec QoiProofs.
Import ListNotations.
Open Scope Z_scope.

(** Prediction without Koopman modes (matrix mode, or pipeline inverse): every request of
    known names is answered with the right data in the requested order. *)
Theorem C30_by_name_correct :
  forall (D : Type) (all q : list Z) (cols : list D),
    length cols = length all -> (forall x, In x q -> In x all) ->
    exists out, predict_loc all (Some q) cols = Ok out /\ CorrectSelection all cols q out.
Proof. exact @loc_correct. Qed.
Print Assumptions C30_by_name_correct.

(** Prediction with Koopman modes: correct for all data exactly if the names are
    requested in the order in which the model stores them. *)
Theorem C30_spectral_correct_iff_storage_order :
  forall (all q : list Z), NoDup all -> NoDup q -> (forall x, In x q -> In x all) ->
    ((forall (D : Type) (rows : list D) out, length rows = length all ->
        predict_modes all (Some q) rows = Ok out -> CorrectSelection all rows q out)
     <-> StorageOrder all q).
Proof. exact modes_correct_iff. Qed.
Print Assumptions C30_spectral_correct_iff_storage_order.

(** ... and it never fails for such requests. *)
Theorem C30_spectral_succeeds :
  forall (D : Type) (all q : list Z) (rows : list D),
    NoDup all -> NoDup q -> (forall x, In x q -> In x all) -> length rows = length all ->
    exists out, predict_modes all (Some q) rows = Ok out /\ map fst out = q.
Proof.
  intros D all q rows Na Nq Hs HL. eexists. split; [apply predict_modes_ok; assumption|].
  assert (H : length q = length (map snd (filter (fun p => zmem (fst p) q) (combine all rows)))).
  { rewrite map_length, <- (map_length fst), filter_map_fst by exact HL.
    symmetry. apply perm_length_filter; assumption. }
  revert H. generalize (map snd (filter (fun p => zmem (fst p) q) (combine all rows))).
  clear. induction q as [|x q IH]; intros [|d l] H; try discriminate H; [reflexivity|].
  cbn. f_equal. apply IH. cbn in H. congruence.
Qed.
Print Assumptions C30_spectral_succeeds.

Example C30_example :
  StorageOrder [5; 6; 7] [5; 7]
  /\ predict_modes [5; 6; 7] (Some [5; 7]) [50; 60; 70] = Ok [(5, 50); (7, 70)]
  /\ predict_loc [5; 6; 7] (Some [7; 5]) [50; 60; 70] = Ok [(7, 70); (5, 50)].
Proof. split; [|split; reflexivity]. exists [true; false; true]. split; reflexivity. Qed.

(** Requesting the features 7, 5 of a model with features 5, 6, 7: the data of 5 is
    returned under the name 7. *)
Theorem C30_spectral_refuted :
  exists (all q : list Z) (rows : list Z) out,
    NoDup all /\ NoDup q /\ (forall x, In x q -> In x all) /\ length rows = length all
    /\ predict_modes all (Some q) rows = Ok out /\ In (7, 50) out
    /\ In (7, 70) (combine all rows) /\ ~ CorrectSelection all rows q out.
Proof.
  exists [5; 6; 7], [7; 5], [50; 60; 70]. eexists.
  split; [repeat constructor; cbn; intuition discriminate|].
  split; [repeat constructor; cbn; intuition discriminate|].
  split; [cbn; intuition|]. split; [reflexivity|]. split; [reflexivity|].
  split; [cbn; auto|]. split; [cbn; auto|].
  intros [_ H]. specialize (H 7 50 (or_introl eq_refl)). cbn in H. intuition discriminate.
Qed.
Print Assumptions C30_spectral_refuted.

(** ** C31 *)

(** The sorted pairs (triples) are those given, in decreasing or increasing order of the
    eigenvalues. *)
Theorem C31_sorted_pairs :
  forall (K D E : Type) (le : K -> K -> Prop) argsort, IsArgsort le argsort ->
  forall values (right : list D) (left : option (list E)) asc v r l,
    sort_eigenpairs argsort values right left asc = Ok (v, r, l) ->
    Permutation (combine v r) (combine values right)
    /\ match left, l with
       | None, None => True
       | Some l0, Some l1 => Permutation (combine (combine v r) l1) (combine (combine values right) l0)
       | _, _ => False
       end
    /\ (if asc then StronglySorted le v else StronglySorted (fun x y => le y x) v).
Proof. intros K D E. exact (@sort_ok K D E). Qed.
Print Assumptions C31_sorted_pairs.

(** Success exactly for matching numbers. *)
Theorem C31_succeeds_iff :
  forall (K D E : Type) argsort (values : list K) (right : list D) (left : option (list E)) asc,
    (exists x, sort_eigenpairs argsort values right left asc = Ok x)
    <-> length right = length values /\ (forall l, left = Some l -> length l = length values).
Proof.
  intros K D E argsort values right left asc. unfold sort_eigenpairs.
  destruct (Nat.eqb_spec (length values) (length right)) as [H1|H1]; cbn.
  - destruct left as [l|].
    + destruct (Nat.eqb_spec (length values) (length l)) as [H2|H2]; cbn.
      * split; [|eauto]. intros _. split; [congruence|]. intros l' E'. injection E' as <-. congruence.
      * split; [intros [x Hx]; discriminate|]. intros [_ H]. specialize (H l eq_refl). congruence.
    + split; [|eauto]. intros _. split; [congruence|discriminate].
  - split; [intros [x Hx]; discriminate|]. intros [H _]. congruence.
Qed.
Print Assumptions C31_succeeds_iff.

(** Complex eigenvalues, numpy's order.  If all eigenvalues are real and non-negative the
    order is that of the absolute values. *)
Theorem C31_magnitude_if_nonnegative :
  forall (D E : Type) argsort, IsArgsort complex_le argsort ->
  forall values (right : list D) (left : option (list E)) v r l,
    (forall x, In x values -> 0 <= fst x /\ snd x = 0) ->
    sort_eigenpairs argsort values right left false = Ok (v, r, l) ->
    StronglySorted (fun x y => abs2 y <= abs2 x) v.
Proof.
  intros D E argsort HA values right left v r l HN H.
  assert (HL : length right = length values).
  { apply (C31_succeeds_iff (Z * Z) D E argsort values right left false). eauto. }
  destruct (sort_ok complex_le argsort HA _ _ _ _ _ _ _ H) as (HP & _ & HS).
  refine (sorted_impl _ _ v _ HS). intros x y Hx Hy Hle.
  assert (Hin : forall z, In z v -> In z values).
  { intros z Hz. unfold sort_eigenpairs in H. rewrite HL, PeanoNat.Nat.eqb_refl in H. cbn in H.
    destruct (match left with Some l => _ | None => _ end); [discriminate|]. injection H as <- _ _.
    eapply take_idx_sub. exact Hz. }
  apply nonneg_magnitude; [apply HN, Hin, Hy|apply HN, Hin, Hy|apply HN, Hin, Hx|apply HN, Hin, Hx|exact Hle].
Qed.
Print Assumptions C31_magnitude_if_nonnegative.

Example C31_example :
  IsArgsort complex_le (ins_argsort complex_leb)
  /\ sort_eigenpairs (ins_argsort complex_leb) [(1, 2); (3, 0); (1, -2)] [10; 11; 12] (Some [20; 21; 22]) false
     = Ok ([(3, 0); (1, 2); (1, -2)], [11; 10; 12], Some [21; 20; 22]).
Proof. split; [exact complex_argsort|reflexivity]. Qed.

(** The documentation promises decreasing magnitude: wrong for -2 and 1. *)
Theorem C31_magnitude_refuted :
  exists argsort values (right : list Z) v r (l : option (list Z)),
    IsArgsort complex_le argsort
    /\ sort_eigenpairs argsort values right None false = Ok (v, r, l)
    /\ ~ StronglySorted (fun x y => abs2 y <= abs2 x) v.
Proof.
  exists (ins_argsort complex_leb), [(-2, 0); (1, 0)], [10; 11]. eexists. eexists. eexists.
  split; [exact complex_argsort|]. split; [reflexivity|].
  intros H. apply StronglySorted_inv in H. destruct H as [_ H]. inversion H as [|? ? H1]; subst.
  vm_compute in H1. apply H1. reflexivity.
Qed.
Print Assumptions C31_magnitude_refuted.
