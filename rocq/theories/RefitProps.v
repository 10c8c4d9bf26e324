(** * C38: fitting a DiffusionMaps estimator again. *)

From Coq Require Import List ZArith Bool Lia.
From Verif Require Import Np RefitModel RefitSpec RefitProofs.
Import ListNotations.
Local Open Scope nat_scope.

(** After any history of fits (also failed ones) and transforms on data with the same number
    of features, a successful fit makes all later calls (of any kind) answer as those of a
    new instance. *)
Theorem C38_refit_like_new : forall (D M W Y : Type) (width : D -> nat) (n : nat) (valid : D -> bool)
  (eigs : D -> option M) (embed : D -> M -> option (list nat) -> D -> Y)
  (coeff : D -> M -> option (list nat) -> W) (rows : W -> nat) (pre : W -> D -> Y),
  let run := run D M W Y width n valid eigs embed coeff rows pre in
  forall (h : list (op D)) (x : D) (rest : list (op D)),
  Forall (fit_or_transform D) h ->
  fits D (fun x' => width x' = width x) h ->
  valid x = true -> (exists m, eigs x = Some m) ->
  snd (run (fst (run init h)) (Fit x :: rest)) = snd (run init (Fit x :: rest)).
Proof. intros. unfold run in *. f_equal. now apply refit_like_new. Qed.
Print Assumptions C38_refit_like_new.

(** After any history of calls whose fits succeed (data with [w] features), transform uses
    the data of the last fit and the coordinates selected last. *)
Theorem C38_transform_last_fit : forall (D M W Y : Type) (width : D -> nat) (n : nat) (valid : D -> bool)
  (eigs : D -> option M) (embed : D -> M -> option (list nat) -> D -> Y)
  (coeff : D -> M -> option (list nat) -> W) (rows : W -> nat) (pre : W -> D -> Y),
  let run := run D M W Y width n valid eigs embed coeff rows pre in
  forall (h : list (op D)) (x : D) (m : M) (z : D) (w : nat),
  fits D (fun y => valid y = true /\ width y = w /\ exists m, eigs y = Some m) h ->
  last_fit D h = Some x -> eigs x = Some m ->
  exists c, ascending (last_coords D n h) c /\
    snd (run init (h ++ [Transform z])) =
    snd (run init h) ++ [if width z =? width x then Ok (Some (embed x m c z)) else Err ValueError].
Proof. intros. now apply transform_last_fit with (w := w). Qed.
Print Assumptions C38_transform_last_fit.

(** inverse_transform keeps using the data and coordinates of the first accepted
    inverse_transform, whatever is called in between. *)
Theorem C38_inverse_transform_first_use : forall (D M W Y : Type) (width : D -> nat) (n : nat)
  (valid : D -> bool) (eigs : D -> option M) (embed : D -> M -> option (list nat) -> D -> Y)
  (coeff : D -> M -> option (list nat) -> W) (rows : W -> nat) (pre : W -> D -> Y),
  let run := run D M W Y width n valid eigs embed coeff rows pre in
  forall (h : list (op D)) (z0 : D) (h' : list (op D)) (z x : D) (m : M) (w : nat),
  let hist := h ++ [InverseTransform z0] ++ h' in
  fits D (fun y => valid y = true /\ width y = w /\ exists m, eigs y = Some m) hist ->
  Forall (no_inverse D) h ->
  last_fit D h = Some x -> eigs x = Some m -> width z0 = n_coords D n h ->
  exists c, ascending (last_coords D n h) c /\
    snd (run init (hist ++ [InverseTransform z])) =
    snd (run init hist) ++
      [if (width z =? n_coords D n hist) && (width z =? rows (coeff x m c))
       then Ok (Some (pre (coeff x m c) z)) else Err ValueError].
Proof. intros. now apply inverse_first with (w := w). Qed.
Print Assumptions C38_inverse_transform_first_use.

(** Fitting data with another number of features is accepted, but every later transform is
    rejected. *)
Theorem C38_other_number_of_features_refuted : forall (D M W Y : Type) (width : D -> nat) (n : nat)
  (valid : D -> bool) (eigs : D -> option M) (embed : D -> M -> option (list nat) -> D -> Y)
  (coeff : D -> M -> option (list nat) -> W) (rows : W -> nat) (pre : W -> D -> Y),
  let run := run D M W Y width n valid eigs embed coeff rows pre in
  forall (x x' z : D) (m m' : M),
  valid x = true -> valid x' = true -> eigs x = Some m -> eigs x' = Some m' -> width x <> width x' ->
  snd (run init [Fit x; Fit x'; Transform z]) = [Ok None; Ok None; Err ValueError] /\
  (width z = width x' -> exists y, snd (run init [Fit x'; Transform z]) = [Ok None; Ok (Some y)]).
Proof.
  intros D M W Y width n valid eigs embed coeff rows pre run x x' z m m' V V' E E' H. subst run. unfold run, step, do_fit.
  rewrite V, V', E, E'. cbn. unfold do_transform. cbn. split.
  - destruct (width z =? width x) eqn:A; cbn; [|reflexivity].
    destruct (width z =? width x') eqn:B; cbn; [|reflexivity].
    apply Nat.eqb_eq in A, B. congruence.
  - intros ->. rewrite Nat.eqb_refl. cbn. eauto.
Qed.
Print Assumptions C38_other_number_of_features_refuted.

(** A small instance: two-column data with a content; negative contents make the
    eigenproblem fail; results record what they were computed from. *)
Definition ex_run := run (nat * Z) Z (nat * Z) (Z * Z * option (list nat)) fst 2 (fun _ => true)
  (fun x => if (snd x <? 0)%Z then None else Some (10 * snd x)%Z)
  (fun x m c _ => (snd x, m, c)) (fun x m c => (match c with Some l => length l | None => 2 end, m))
  fst (fun w z => (snd w, snd z, None)).

Example C38_example :
  snd (ex_run (fst (ex_run init [Fit (2, 1%Z); Transform (2, 5%Z); Fit (2, (-1)%Z)]))
         [Fit (2, 7%Z); SetTargetCoords [1; 0]; Transform (2, 6%Z); InverseTransform (2, 3%Z)])
  = [Ok None; Ok None; Ok (Some (7%Z, 70%Z, Some [0; 1])); Ok (Some (70%Z, 3%Z, None))].
Proof. reflexivity. Qed.

(** Pre-images after a new fit come from the old data. *)
Theorem C38_inverse_transform_refuted : exists x x' z,
  snd (ex_run (fst (ex_run init [Fit x; InverseTransform z])) [Fit x'; InverseTransform z])
  <> snd (ex_run init [Fit x'; InverseTransform z]).
Proof. exists (2, 1%Z), (2, 7%Z), (2, 3%Z). intro H. discriminate H. Qed.
Print Assumptions C38_inverse_transform_refuted.

(** Selected coordinates survive a new fit. *)
Theorem C38_selected_coordinates_refuted : exists x x' c z,
  snd (ex_run (fst (ex_run init [Fit x; SetTargetCoords c])) [Fit x'; Transform z])
  <> snd (ex_run init [Fit x'; Transform z]).
Proof. exists (2, 1%Z), (2, 7%Z), [1], (2, 3%Z). intro H. discriminate H. Qed.
Print Assumptions C38_selected_coordinates_refuted.

(** After a failed fit, transform mixes the new data with the eigenvectors of the old ones. *)
Theorem C38_failed_fit_refuted : exists x x' z,
  snd (ex_run init [Fit x; Fit x'; Transform z])
  = [Ok None; Err RuntimeError; Ok (Some (snd x', (10 * snd x)%Z, None))] /\ snd x <> snd x'.
Proof. exists (2, 1%Z), (2, (-1)%Z), (2, 3%Z). split; [reflexivity|discriminate]. Qed.
Print Assumptions C38_failed_fit_refuted.
