(** * Proofs for C38. *)

From Coq Require Import List ZArith Bool Lia Sorting.Permutation Sorting.Sorted.
From Verif Require Import Np RefitModel RefitSpec.
Import ListNotations.
Local Open Scope nat_scope.

Lemma insert_nat_perm a l : Permutation (a :: l) (insert_nat a l).
Proof.
  induction l as [|b l IH]; cbn [insert_nat]; [reflexivity|].
  destruct (a <=? b); [reflexivity|].
  rewrite perm_swap. now rewrite IH.
Qed.

Lemma sort_nat_perm l : Permutation l (np_sort_nat l).
Proof.
  induction l as [|a l IH]; cbn [np_sort_nat]; [reflexivity|].
  rewrite <- insert_nat_perm. now rewrite <- IH.
Qed.

Lemma insert_nat_hd b a l : HdRel le b l -> b <= a -> HdRel le b (insert_nat a l).
Proof.
  intros H Hba. destruct l as [|c l]; cbn [insert_nat]; [now constructor|].
  destruct (a <=? c); constructor; auto. now inversion H.
Qed.

Lemma insert_nat_sorted a l : Sorted le l -> Sorted le (insert_nat a l).
Proof.
  induction 1 as [|b l Hs IH Hh]; cbn [insert_nat]; [repeat constructor|].
  destruct (a <=? b) eqn:E.
  - apply Nat.leb_le in E. constructor; [now constructor|now constructor].
  - apply Nat.leb_gt in E. constructor; [exact IH|]. apply insert_nat_hd; [exact Hh|lia].
Qed.

Lemma sort_nat_sorted l : Sorted le (np_sort_nat l).
Proof. induction l; cbn [np_sort_nat]; [constructor|now apply insert_nat_sorted]. Qed.

Lemma last_max l d : Sorted le l -> l <> [] -> In (last l d) l /\ (forall i, In i l -> i <= last l d).
Proof.
  intros Hs. apply Sorted_StronglySorted in Hs; [|intros x y z; lia].
  induction Hs as [|a l Hs IH Hf]; [easy|]. intros _.
  destruct l as [|b l]; [cbn; split; [auto|intros i [<-|[]]; lia]|].
  destruct IH as [I1 I2]; [easy|].
  change (last (a :: b :: l) d) with (last (b :: l) d).
  split; [now right|]. intros i [<-|Hi]; [|now apply I2].
  rewrite Forall_forall in Hf. now apply Hf.
Qed.

Lemma last_guard n l a r : np_sort_nat l = a :: r ->
  (n <=? last (a :: r) a) = negb (forallb (fun i => Nat.ltb i n) l).
Proof.
  intros E.
  destruct (last_max (a :: r) a) as [H1 H2]; [rewrite <- E; apply sort_nat_sorted|easy|].
  destruct (forallb _ l) eqn:F; cbn [negb].
  - apply Nat.leb_gt. rewrite forallb_forall in F. apply Nat.ltb_lt, F.
    apply (Permutation_in _ (Permutation_sym (sort_nat_perm l))). now rewrite E.
  - apply Nat.leb_le. destruct (Nat.le_gt_cases n (last (a :: r) a)) as [?|G]; [easy|exfalso].
    assert (forallb (fun i => i <? n) l = true); [|congruence].
    apply forallb_forall. intros i Hi. apply Nat.ltb_lt.
    apply (Permutation_in _ (sort_nat_perm l)) in Hi. rewrite E in Hi. apply H2 in Hi. lia.
Qed.

Lemma last_fit_app D (h : list (op D)) o :
  last_fit D (h ++ [o]) = match o with Fit x => Some x | _ => last_fit D h end.
Proof.
  induction h as [|p h IH]; [destruct o; reflexivity|]. cbn [app last_fit]. rewrite IH.
  destruct o; reflexivity.
Qed.

Lemma last_fit_in D (h : list (op D)) x : last_fit D h = Some x -> In (Fit x) h.
Proof.
  induction h as [|o h IH]; [discriminate|]. cbn.
  destruct (last_fit D h); [intro; right; auto|]. destruct o; try discriminate.
  intros [= ->]; now left.
Qed.

Lemma last_fit_some D (h : list (op D)) x : In (Fit x) h -> exists y, last_fit D h = Some y.
Proof.
  induction h as [|o h IH]; [easy|]. cbn. intros [->|Hi].
  - destruct (last_fit D h); eauto.
  - destruct (IH Hi) as [y ->]. eauto.
Qed.

Lemma last_coords_app D n (h : list (op D)) o :
  last_coords D n (h ++ [o]) =
  match last_coords D n [o] with Some c => Some c | None => last_coords D n h end.
Proof.
  induction h as [|p h IH].
  - cbn [app]. destruct (last_coords D n [o]); reflexivity.
  - cbn [app]. cbn [last_coords] in *. rewrite IH.
    destruct (match o with SetTargetCoords c => _ | _ => _ end); reflexivity.
Qed.

Lemma option_map_asc o : ascending o (option_map np_sort_nat o).
Proof. destruct o; cbn; auto using sort_nat_perm, sort_nat_sorted. Qed.

Section Proofs.
Variables D M W Y : Type.
Variable width : D -> nat.
Variable n : nat.
Variable valid : D -> bool.
Variable eigs : D -> option M.
Variable embed : D -> M -> option (list nat) -> D -> Y.
Variable coeff : D -> M -> option (list nat) -> W.
Variable rows : W -> nat.
Variable pre : W -> D -> Y.

Notation state := (state D M W).
Notation step := (step D M W Y width n valid eigs embed coeff rows pre).
Notation run := (run D M W Y width n valid eigs embed coeff rows pre).

Lemma run_app s h h' :
  run s (h ++ h') = (fst (run (fst (run s h)) h'), snd (run s h) ++ snd (run (fst (run s h)) h')).
Proof.
  revert s; induction h as [|o h IH]; intro s; cbn [app].
  - cbn. now destruct (run s h').
  - cbn [RefitModel.run]. destruct (step s o) as [s1 r]. rewrite IH.
    destruct (run s1 h) as [s2 rs]. cbn [fst snd]. reflexivity.
Qed.

Lemma transform_keeps s z : fst (do_transform D M W Y width embed s z) = s.
Proof.
  unfold do_transform. destruct (X_fit s), (eigenpairs s), (n_features_in s); try reflexivity.
  destruct (negb _); [reflexivity|]. destruct (negb _); reflexivity.
Qed.

Lemma inverse_keeps s z : let s' := fst (do_inverse D M W Y width coeff rows pre s z) in
  X_fit s' = X_fit s /\ eigenpairs s' = eigenpairs s /\ target_coords s' = target_coords s /\
  n_features_in s' = n_features_in s /\ n_features_out s' = n_features_out s.
Proof.
  unfold do_inverse. destruct (X_fit s) eqn:E1, (eigenpairs s) eqn:E2, (n_features_out s) eqn:E3;
    try (cbn [fst]; now rewrite ?E1, ?E2, ?E3).
  destruct (negb _); [cbn [fst]; now rewrite ?E1, ?E2, ?E3|].
  destruct (_ =? _); cbn [fst X_fit eigenpairs target_coords n_features_in n_features_out]; auto.
Qed.

Definition good (w : nat) (x : D) : Prop :=
  valid x = true /\ width x = w /\ exists m, eigs x = Some m.

Definition inv (h : list (op D)) (s : state) : Prop :=
  X_fit s = last_fit D h /\
  eigenpairs s = match last_fit D h with Some x => eigs x | None => None end /\
  target_coords s = option_map np_sort_nat (last_coords D n h) /\
  n_features_in s = option_map width (last_fit D h) /\
  n_features_out s = match last_fit D h, last_coords D n h with
                     | None, None => None | _, _ => Some (n_coords D n h) end.

Lemma inv_step w h s o : fits D (good w) (h ++ [o]) -> inv h s -> inv (h ++ [o]) (fst (step s o)).
Proof.
  intros G (I1 & I2 & I3 & I4 & I5).
  unfold inv, n_coords. rewrite last_fit_app, last_coords_app.
  destruct o as [x|c|z|z]; cbn [RefitModel.step last_coords].
  - unfold do_fit.
    destruct (G x) as (V & Wx & m & E); [apply in_or_app; right; now left|].
    rewrite V, E. cbn [negb fst X_fit eigenpairs target_coords n_features_in n_features_out].
    rewrite I4, I5, I3. repeat split; auto.
    + destruct (last_fit D h) as [y|] eqn:Ey; [|reflexivity]. cbn. f_equal.
      destruct (G y) as (_ & Wy & _).
      { apply in_or_app; left. now apply last_fit_in. }
      congruence.
    + unfold len_names. rewrite I3. unfold n_coords.
      destruct (last_fit D h), (last_coords D n h); cbn; try reflexivity.
  - unfold do_set.
    assert (L : length (np_sort_nat c) = length c)
      by (symmetry; apply Permutation_length, sort_nat_perm).
    destruct (np_sort_nat c) as [|a r] eqn:E.
    + destruct c; [|discriminate L]. cbn [fst]. now repeat split.
    + rewrite (last_guard n c a r E).
      destruct c as [|b c']; [discriminate L|]. 
      destruct (forallb (fun i => i <? n) (b :: c')) eqn:F; cbn [negb];
        [|cbn [fst]; now repeat split].
      cbn [fst X_fit eigenpairs target_coords n_features_in n_features_out option_map].
      rewrite E. repeat split; auto. rewrite L. destruct (last_fit D h); reflexivity.
  - rewrite transform_keeps. now repeat split.
  - destruct (inverse_keeps s z) as (-> & -> & -> & -> & ->). now repeat split.
Qed.

Lemma run_snoc s h o : fst (run s (h ++ [o])) = fst (step (fst (run s h)) o).
Proof.
  rewrite run_app. cbn [fst]. cbn [RefitModel.run].
  destruct (step (fst (run s h)) o). reflexivity.
Qed.

Lemma out_snoc s h o : snd (run s (h ++ [o])) = snd (run s h) ++ [snd (step (fst (run s h)) o)].
Proof.
  rewrite run_app. cbn [snd]. cbn [RefitModel.run].
  destruct (step (fst (run s h)) o). reflexivity.
Qed.

Lemma inv_run w h : fits D (good w) h -> inv h (fst (run init h)).
Proof.
  induction h as [|o h IH] using rev_ind; intro G; [now repeat split|].
  rewrite run_snoc. apply inv_step with (w := w); [exact G|]. apply IH.
  intros x Hx. apply G, in_or_app; now left.
Qed.

Lemma cache_none h : Forall (no_inverse D) h -> inv_coeff_matrix (fst (run init h)) = None.
Proof.
  induction h as [|o h IH] using rev_ind; intro F; [reflexivity|].
  apply Forall_app in F. destruct F as [F1 F2]. inversion F2; subst.
  specialize (IH F1). rewrite run_snoc.
  destruct o as [x|c|z|z]; cbn [RefitModel.step no_inverse] in *; [| | |easy].
  - unfold do_fit. destruct (negb _); [exact IH|]. destruct (eigs x); exact IH.
  - unfold do_set. destruct (np_sort_nat c); [exact IH|]. destruct (_ <=? _); exact IH.
  - now rewrite transform_keeps.
Qed.

Lemma cache_stays s h w0 : inv_coeff_matrix s = Some w0 -> inv_coeff_matrix (fst (run s h)) = Some w0.
Proof.
  intro H. induction h as [|o h IH] using rev_ind; [exact H|].
  rewrite run_snoc. destruct o as [x|c|z|z]; cbn [RefitModel.step].
  - unfold do_fit. destruct (negb _); [exact IH|]. destruct (eigs x); exact IH.
  - unfold do_set. destruct (np_sort_nat c); [exact IH|]. destruct (_ <=? _); exact IH.
  - now rewrite transform_keeps.
  - unfold do_inverse. destruct (X_fit (fst (run s h))), (eigenpairs (fst (run s h))), (n_features_out (fst (run s h))); try exact IH.
    destruct (negb _); [exact IH|]. rewrite IH. destruct (_ =? _); reflexivity.
Qed.

(** States reached without selecting coordinates and without pre-images. *)
Definition plain (w : nat) (s : state) : Prop :=
  target_coords s = None /\ inv_coeff_matrix s = None /\
  (n_features_in s = None \/ n_features_in s = Some w) /\
  (n_features_out s = None \/ n_features_out s = Some n).

Lemma plain_run w h :
  Forall (fit_or_transform D) h -> fits D (fun x => width x = w) h -> plain w (fst (run init h)).
Proof.
  induction h as [|o h IH] using rev_ind; intros F G; [repeat split; now left|].
  apply Forall_app in F. destruct F as [F1 F2]. inversion F2; subst.
  assert (P : plain w (fst (run init h))).
  { apply IH; [exact F1|]. intros x Hx. apply G, in_or_app; now left. }
  rewrite run_snoc. destruct o as [x|c|z|z]; cbn [RefitModel.step fit_or_transform] in *; try easy.
  - assert (Wx : width x = w) by (apply G, in_or_app; right; now left).
    unfold do_fit. destruct (negb _); [exact P|].
    destruct P as (P1 & P2 & P3 & P4).
    destruct (eigs x); unfold plain; cbn [fst target_coords inv_coeff_matrix n_features_in n_features_out];
      (repeat split; [exact P1|exact P2| |]).
    1,3: right; destruct P3 as [-> | ->]; congruence.
    all: right; destruct P4 as [-> | ->]; [unfold len_names; now rewrite P1|reflexivity].
  - now rewrite transform_keeps.
Qed.

Lemma refit_like_new h x rest :
  Forall (fit_or_transform D) h -> fits D (fun x' => width x' = width x) h ->
  valid x = true -> (exists m, eigs x = Some m) ->
  run (fst (run init h)) (Fit x :: rest) = run init (Fit x :: rest).
Proof.
  intros F G V [m E]. cbn [RefitModel.run RefitModel.step].
  destruct (plain_run (width x) h F G) as (P1 & P2 & P3 & P4).
  unfold do_fit. rewrite V, E. cbn [negb].
  cbn [init target_coords inv_coeff_matrix n_features_in n_features_out].
  rewrite P1, P2.
  replace (match n_features_in (fst (run init h)) with None => Some (width x) | Some n0 => Some n0 end)
    with (Some (width x)) by (destruct P3 as [-> | ->]; reflexivity).
  replace (match n_features_out (fst (run init h)) with
           | None => Some (len_names D M W n (fst (run init h))) | Some n0 => Some n0 end)
    with (Some n) by (destruct P4 as [-> | ->]; unfold len_names; rewrite ?P1; reflexivity).
  reflexivity.
Qed.

Lemma transform_last_fit h x m z w :
  fits D (good w) h -> last_fit D h = Some x -> eigs x = Some m ->
  exists c, ascending (last_coords D n h) c /\
  snd (run init (h ++ [Transform z])) =
  snd (run init h) ++ [if width z =? width x then Ok (Some (embed x m c z)) else Err ValueError].
Proof.
  intros G L E. exists (option_map np_sort_nat (last_coords D n h)).
  split; [apply option_map_asc|].
  destruct (inv_run w h G) as (I1 & I2 & I3 & I4 & I5). rewrite L in I1, I2, I4. rewrite E in I2.
  rewrite out_snoc. cbn [RefitModel.step]. unfold do_transform. rewrite I1, I2, I4. cbn [option_map].
  destruct (width z =? width x); cbn [negb snd]; [|reflexivity]. now rewrite I3.
Qed.

Lemma inverse_first h z0 h' z x m w :
  fits D (good w) (h ++ [InverseTransform z0] ++ h') -> Forall (no_inverse D) h ->
  last_fit D h = Some x -> eigs x = Some m -> width z0 = n_coords D n h ->
  exists c, ascending (last_coords D n h) c /\
  snd (run init ((h ++ [InverseTransform z0] ++ h') ++ [InverseTransform z])) =
  snd (run init (h ++ [InverseTransform z0] ++ h')) ++
    [if (width z =? n_coords D n (h ++ [InverseTransform z0] ++ h')) && (width z =? rows (coeff x m c))
     then Ok (Some (pre (coeff x m c) z)) else Err ValueError].
Proof.
  intros G F L E Z0. exists (option_map np_sort_nat (last_coords D n h)).
  split; [apply option_map_asc|]. set (c := option_map _ _).
  assert (G1 : fits D (good w) h) by (intros y Hy; apply G, in_or_app; now left).
  destruct (inv_run w h G1) as (I1 & I2 & I3 & I4 & I5). rewrite L in I1, I2, I5. rewrite E in I2.
  pose proof (cache_none h F) as C0.
  assert (C1 : inv_coeff_matrix (fst (run init (h ++ [InverseTransform z0]))) = Some (coeff x m c)).
  { rewrite run_snoc. cbn [RefitModel.step]. unfold do_inverse. rewrite I1, I2, I5, Z0, Nat.eqb_refl.
    cbn [negb]. rewrite C0, I3. fold c. destruct (_ =? _); reflexivity. }
  assert (C2 : inv_coeff_matrix (fst (run init (h ++ [InverseTransform z0] ++ h'))) = Some (coeff x m c)).
  { rewrite app_assoc, run_app. cbn [fst]. now apply cache_stays. }
  destruct (inv_run w _ G) as (J1 & J2 & J3 & J4 & J5).
  set (hh := h ++ [InverseTransform z0] ++ h') in *.
  destruct (last_fit_some D hh x) as [y Ly].
  { unfold hh. apply in_or_app. left. now apply last_fit_in. }
  destruct (G y) as (_ & _ & my & Ey).
  { now apply last_fit_in. }
  rewrite Ly in J1, J2, J5. rewrite Ey in J2.
  rewrite out_snoc. cbn [RefitModel.step]. unfold do_inverse. rewrite J1, J2, J5, C2.
  destruct (width z =? n_coords D n hh); cbn [negb andb]; [|reflexivity].
  destruct (_ =? _); reflexivity.
Qed.

End Proofs.
