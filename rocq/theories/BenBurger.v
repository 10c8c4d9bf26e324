(** * Proofs about Burgers' equation on a ring. *)

From Coq Require Import Reals List Arith Lia Lra Psatz.
From Coquelicot Require Import Coquelicot.
From Verif Require Import BenModel BenSpec.
Import ListNotations.
Local Open Scope R_scope.

(** The triples (left neighbour, entry, right neighbour) of [l] between [a] and [b]. *)
Fixpoint tri (a : R) (l : list R) (b : R) : list (R * R * R) :=
  match l with
  | [] => []
  | x :: r => (a, x, hd b r) :: tri x r b
  end.

Lemma tri_pad l : forall a b,
  combine (combine (firstn (length l) (a :: l ++ [b])) (firstn (length l) (l ++ [b]))) (skipn 1 (l ++ [b])) = tri a l b.
Proof.
  induction l as [|x l IH]; intros a b; [reflexivity|]. cbn [length app firstn skipn combine tri].
  destruct l as [|z l].
  - reflexivity.
  - specialize (IH x b). cbn [length app firstn skipn combine tri hd] in IH |- *. cbn [length app firstn skipn combine tri hd] in IH.
    f_equal. exact IH.
Qed.

Lemma tri_pad2 l : forall a b,
  combine (firstn (length l) (a :: l ++ [b])) (skipn 1 (l ++ [b])) = map (fun p => (fst (fst p), snd p)) (tri a l b).
Proof.
  induction l as [|x l IH]; intros a b; [reflexivity|]. cbn [length app firstn skipn combine tri map].
  destruct l as [|z l].
  - reflexivity.
  - specialize (IH x b). cbn [length app firstn skipn combine tri hd map fst snd] in IH |- *. f_equal. exact IH.
Qed.

Definition ring (l : list R) : list (R * R * R) := tri (last l 0) l (hd 0 l).

Lemma advection_tri dx y : advection dx y = map (fun p => (- fst (fst p) + snd p) / (2 * dx)) (ring y).
Proof.
  unfold advection, pad, ring. cbn [skipn]. change (skipn 2 (last y 0 :: y ++ [hd 0 y])) with (skipn 1 (y ++ [hd 0 y])).
  rewrite tri_pad2, map_map. reflexivity.
Qed.

Lemma convection_tri dx y : convection dx y = map (fun p => (fst (fst p) - 2 * snd (fst p) + snd p) / (dx * dx)) (ring y).
Proof.
  unfold convection, pad, ring. change (skipn 2 (last y 0 :: y ++ [hd 0 y])) with (skipn 1 (y ++ [hd 0 y])).
  change (skipn 1 (last y 0 :: y ++ [hd 0 y])) with (y ++ [hd 0 y]).
  rewrite tri_pad. reflexivity.
Qed.

Lemma tri_mid l : forall a b, map (fun p => snd (fst p)) (tri a l b) = l.
Proof. induction l as [|x l IH]; intros a b; cbn; [reflexivity|]. now rewrite IH. Qed.

Lemma tri_length l : forall a b, length (tri a l b) = length l.
Proof. induction l as [|x l IH]; intros a b; cbn; [reflexivity|]. now rewrite IH. Qed.

Lemma combine_maps {A B C} (f : A -> B) (g : A -> C) l : combine (map f l) (map g l) = map (fun a => (f a, g a)) l.
Proof. induction l; cbn; congruence. Qed.

Definition rhs (dx nu : R) (p : R * R * R) : R :=
  - ((- fst (fst p) + snd p) / (2 * dx) * snd (fst p)) + nu * ((fst (fst p) - 2 * snd (fst p) + snd p) / (dx * dx)).

Lemma burger_tri dx nu y u :
  burger_f dx nu y u = map (fun p => rhs dx nu (fst p) + snd p) (combine (ring y) u).
Proof.
  unfold burger_f. rewrite advection_tri, convection_tri.
  rewrite <- (tri_mid y (last y 0) (hd 0 y)) at 2. fold (ring y).
  rewrite !combine_maps.
  assert (E : forall (l : list (R * R * R)) v,
    map (fun p => - (fst (fst (fst p)) * snd (fst (fst p))) + nu * snd (fst p) + snd p)
      (combine (map (fun a : R * R * R => ((- fst (fst a) + snd a) / (2 * dx), snd (fst a),
          (fst (fst a) - 2 * snd (fst a) + snd a) / (dx * dx))) l) v)
    = map (fun p => rhs dx nu (fst p) + snd p) (combine l v)).
  { induction l as [|t l IH]; intros [|w v]; cbn; try reflexivity. f_equal. apply IH. }
  apply E.
Qed.

Lemma total_rhs dx nu : dx <> 0 -> forall l a b, l <> [] ->
  fold_right Rplus 0 (map (rhs dx nu) (tri a l b)) =
  - ((last l 0 * b - a * hd 0 l) / (2 * dx)) + nu * ((a - hd 0 l + (b - last l 0)) / (dx * dx)).
Proof.
  intros Hd. induction l as [|x l IH]; intros a b Hne; [congruence|].
  destruct l as [|z l].
  - cbn. unfold rhs. cbn. field. exact Hd.
  - specialize (IH x b ltac:(discriminate)). change (tri a (x :: z :: l) b) with ((a, x, z) :: tri x (z :: l) b).
    cbn [map fold_right]. rewrite IH. change (last (x :: z :: l) 0) with (last (z :: l) 0). cbn [hd]. unfold rhs. cbn [fst snd].
    field. exact Hd.
Qed.

Lemma total_combine dx nu (l : list (R * R * R)) : forall u, length u = length l ->
  total (map (fun p => rhs dx nu (fst p) + snd p) (combine l u)) = fold_right Rplus 0 (map (rhs dx nu) l) + total u.
Proof.
  induction l as [|t l IH]; intros [|w u] H; try discriminate; cbn; [lra|]. cbn in H. fold (total u).
  change (fold_right Rplus 0 (map (fun p => rhs dx nu (fst p) + snd p) (combine l u)))
    with (total (map (fun p => rhs dx nu (fst p) + snd p) (combine l u))). rewrite IH by lia. lra.
Qed.

Lemma burger_total dx nu y u : dx <> 0 -> length u = length y -> total (burger_f dx nu y u) = total u.
Proof.
  intros Hd Hl. rewrite burger_tri, total_combine by (unfold ring; rewrite tri_length; exact Hl).
  destruct y as [|x y]; [cbn; lra|]. unfold ring. rewrite total_rhs by (assumption || discriminate). cbn [hd]. field. exact Hd.
Qed.

Lemma tri_nth l : forall a b i d, (i < length l)%nat ->
  nth i (tri a l b) d = (nth i (a :: l) 0, nth i l 0, nth (S i) (l ++ [b]) 0).
Proof.
  induction l as [|x l IH]; intros a b i d Hi; [cbn in Hi; lia|]. destruct i as [|i].
  - cbn. destruct l; reflexivity.
  - cbn [tri nth app]. rewrite IH by (cbn in Hi; lia). reflexivity.
Qed.

Lemma last_nth (l : list R) : last l 0 = nth (length l - 1) l 0.
Proof.
  induction l as [|x l IH]; [reflexivity|]. destruct l as [|z l]; [reflexivity|].
  change (last (x :: z :: l) 0) with (last (z :: l) 0). rewrite IH. cbn [length]. replace (S (S (length l)) - 1)%nat with (S (S (length l) - 1)) by lia.
  reflexivity.
Qed.

Lemma ring_nth (y : list R) i d : (i < length y)%nat ->
  nth i (ring y) d = (nth (prev (length y) i) y 0, nth i y 0, nth (next (length y) i) y 0).
Proof.
  intros Hi. unfold ring. rewrite tri_nth by exact Hi. f_equal; [f_equal|].
  - destruct i; cbn [nth prev]; [apply last_nth|reflexivity].
  - unfold next. destruct (S i =? length y)%nat eqn:E.
    + apply Nat.eqb_eq in E. rewrite app_nth2 by lia. rewrite E, Nat.sub_diag. destruct y; reflexivity.
    + apply Nat.eqb_neq in E. rewrite app_nth1 by lia. reflexivity.
Qed.

Lemma burger_nth dx nu y u i : length u = length y -> (i < length y)%nat ->
  length (burger_f dx nu y u) = length y /\
  nth i (burger_f dx nu y u) 0 =
    - (nth (next (length y) i) y 0 - nth (prev (length y) i) y 0) / (2 * dx) * nth i y 0
    + nu * (nth (next (length y) i) y 0 - 2 * nth i y 0 + nth (prev (length y) i) y 0) / (dx * dx)
    + nth i u 0.
Proof.
  intros Hl Hi. rewrite burger_tri. assert (L : length (ring y) = length y) by (unfold ring; apply tri_length).
  split; [rewrite map_length, combine_length; lia|].
  set (f := fun p => rhs dx nu (fst p) + snd p).
  rewrite (nth_indep _ 0 (f ((0, 0, 0), 0))) by (rewrite map_length, combine_length; lia).
  rewrite map_nth, combine_nth by lia. unfold f. cbn [fst snd]. rewrite ring_nth by exact Hi. unfold rhs. cbn [fst snd].
  unfold Rdiv. ring.
Qed.

Lemma advection_nth dx y i : (i < length y)%nat ->
  nth i (advection dx y) 0 = (nth (next (length y) i) y 0 - nth (prev (length y) i) y 0) / (2 * dx).
Proof.
  intros Hi. rewrite advection_tri. assert (L : length (ring y) = length y) by (unfold ring; apply tri_length).
  set (f := fun p : R * R * R => (- fst (fst p) + snd p) / (2 * dx)).
  rewrite (nth_indep _ 0 (f (0, 0, 0))) by (rewrite map_length; lia). rewrite map_nth, ring_nth by exact Hi.
  unfold f. cbn [fst snd]. unfold Rdiv. ring.
Qed.

(** ** the seam of the grid *)

Notation sampled := samples.

Lemma dx_value n : burger_dx (S (S n)) = 2 * PI / INR (S n).
Proof.
  unfold burger_dx, burger_node, linspace. rewrite (S_INR (S n)). replace (INR (S n) + 1 - 1) with (INR (S n)) by ring.
  cbn [INR]. unfold Rdiv. ring.
Qed.

Lemma sampled_nth g n i : (i < n)%nat -> nth i (sampled g n) 0 = g (burger_node n i).
Proof.
  intros H. unfold samples. set (f := fun i => g (burger_node n i)).
  rewrite (nth_indep _ 0 (f O)) by (rewrite map_length, seq_length; exact H).
  rewrite (map_nth f), seq_nth by exact H. reflexivity.
Qed.

Lemma seam_value g n : g (2 * PI) = g 0 ->
  nth 0 (advection (burger_dx (S (S n))) (sampled g (S (S n)))) 0
  = (g (burger_dx (S (S n))) - g 0) / burger_dx (S (S n)) / 2.
Proof.
  intros Hg. assert (L : length (sampled g (S (S n))) = S (S n)) by (unfold samples; now rewrite map_length, seq_length).
  assert (HN : 0 < INR (S n)) by (apply lt_0_INR; lia).
  assert (HP := PI_RGT_0). assert (Hd : burger_dx (S (S n)) <> 0).
  { rewrite dx_value. apply Rgt_not_eq. apply Rdiv_lt_0_compat; lra. }
  rewrite advection_nth by lia. rewrite L. unfold next, prev. replace (1 =? S (S n))%nat with false by reflexivity.
  rewrite !sampled_nth by lia.
  assert (E1 : burger_node (S (S n)) 1 = burger_dx (S (S n))). { unfold burger_dx, burger_node, linspace. cbn [INR]. ring. }
  assert (E2 : burger_node (S (S n)) (S (S n) - 1) = 2 * PI).
  { unfold burger_node, linspace. replace (S (S n) - 1)%nat with (S n) by lia. rewrite (S_INR (S n)). field. lra. }
  rewrite E1, E2, Hg. field. exact Hd.
Qed.

Lemma seam_limit g d : g (2 * PI) = g 0 -> is_derive g 0 d ->
  is_lim_seq (fun n => nth 0 (advection (burger_dx (S (S n))) (sampled g (S (S n)))) 0) (d / 2).
Proof.
  intros Hg HD.
  apply (is_lim_seq_ext (fun n => (g (0 + burger_dx (S (S n))) - g 0) / burger_dx (S (S n)) / 2)).
  { intros n. rewrite seam_value by exact Hg. now rewrite Rplus_0_l. }
  apply (is_lim_seq_scal_r _ (/ 2) (Finite d)).
  apply is_derive_Reals in HD. unfold derivable_pt_lim in HD.
  apply is_lim_seq_spec. intros eps. destruct (HD eps (cond_pos eps)) as (del & H).
  assert (HP := PI_RGT_0).
  destruct (archimed_cor1 (del / (2 * PI))) as (N & HN1 & HN2). { apply Rdiv_lt_0_compat; [apply cond_pos|lra]. }
  exists N. intros n Hn. assert (HI : 0 < INR (S n)) by (apply lt_0_INR; lia).
  assert (Hdx : 0 < burger_dx (S (S n))) by (rewrite dx_value; apply Rdiv_lt_0_compat; lra).
  apply H; [lra|]. rewrite Rabs_right by lra. rewrite dx_value.
  assert (/ INR (S n) <= / INR N). { apply Rinv_le_contravar; [apply lt_0_INR; lia|]. apply le_INR. lia. }
  assert (H2 : / INR (S n) < del / (2 * PI)) by lra.
  apply Rmult_lt_compat_l with (r := 2 * PI) in H2; [|lra].
  replace (2 * PI * (del / (2 * PI))) with (pos del) in H2 by (field; lra). exact H2.
Qed.
