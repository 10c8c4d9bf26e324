(** * Property C90: post observables of EDMD models. *)

From Coq Require Import List ZArith Bool Arith QArith Lia.
Import ListNotations.
From Verif Require Import Np TscModel TscSpec TscProofs BldModel WinModel SearchModel PostModel PostSpec PostProofs.
Close Scope Z_scope.
Close Scope Q_scope.
Open Scope nat_scope.

(** The errors are those of the reconstructed samples except the first row: same labels,
    same order, difference to the sample with the same ID and time. *)
Theorem C90_errors :
  forall (V M : Type) (reconstruct : M -> list (row V) -> result (list (row V) * list (row V)))
    (absdiff : V -> V -> V) m X X' R E,
  reconstruct m X = Ok (R, X') -> ValidRows R ->
  compute_err reconstruct absdiff m X = Ok (X', E) ->
  Forall2 (ErrorOf absdiff X') (tl R) E /\ ValidRows E.
Proof. exact (fun V M rec ad m X X' R E => compute_err_spec rec ad m X X' E R). Qed.
Print Assumptions C90_errors.

(** Cross-validation: the model is the first of those with the highest score on its test
    data, each fitted with the training data of its split. *)
Theorem C90_best :
  forall (V M : Type) (fit : list (row V) -> result M) (score : M -> list (row V) -> result Q)
    (reconstruct : M -> list (row V) -> result (list (row V) * list (row V)))
    (absdiff : V -> V -> V) F splits Xv E m,
  run_cv fit score reconstruct absdiff F splits = Ok (Xv, E, m) ->
  exists sp k split Tr Te s, splits = Ok sp /\ nth_error sp k = Some split /\
    split_X F (fst split) (snd split) = Ok (Tr, Te) /\ fit Tr = Ok m /\ score m Te = Ok s /\
    forall j split', nth_error sp j = Some split' ->
      exists Tr' Te' m' s', split_X F (fst split') (snd split') = Ok (Tr', Te') /\ fit Tr' = Ok m' /\
        score m' Te' = Ok s' /\ (s' <= s)%Q /\ (j < k -> (s' < s)%Q).
Proof.
  intros V M fit score rec ad F splits Xv E m H.
  destruct (run_cv_inv fit score rec ad _ _ _ _ _ H) as (sp & ret & k & best & -> & HF & Eb & -> & Hb & _).
  assert (HN : forall j p, nth_error ret j = Some p -> exists split, nth_error sp j = Some split /\ Contributed fit score rec ad F split p).
  { clear -HF. induction HF as [|s p ss ps H HF IH]; intros [|j] q Ej; try discriminate.
    - injection Ej as <-. exists s. split; [reflexivity|exact H].
    - apply IH. exact Ej. }
  destruct (HN _ _ Eb) as (split & Es & Tr & Te & R & H1 & H2 & H3 & _).
  exists sp, k, split, Tr, Te, (p_score best). repeat (split; [first [reflexivity|assumption]|]).
  intros j split' Ej.
  assert (exists p, nth_error ret j = Some p) as (p & Ep).
  { destruct (nth_error ret j) eqn:En; [eauto|]. exfalso. clear -HF En Ej. revert j En Ej.
    induction HF; intros [|j] En Ej; try discriminate. eapply IHHF; eassumption. }
  destruct (HN _ _ Ep) as (s2 & Es2 & Tr' & Te' & R' & G1 & G2 & G3 & _).
  assert (s2 = split') as -> by congruence.
  destruct (Hb _ _ Ep) as [Hle Hlt].
  exists Tr', Te', (p_model p), (p_score p). auto 7.
Qed.
Print Assumptions C90_best.

(** Alignment: the series of errors of all splits carry the labels of the series they
    were computed from, although both collections are numbered anew. *)
Theorem C90_aligned :
  forall (V M : Type) (fit : list (row V) -> result M) (score : M -> list (row V) -> result Q)
    (reconstruct : M -> list (row V) -> result (list (row V) * list (row V)))
    (absdiff : V -> V -> V) F splits Xv E m,
  (forall m X R X', reconstruct m X = Ok (R, X') -> Usable R X') ->
  run_cv fit score reconstruct absdiff F splits = Ok (Xv, E, m) ->
  forall e, In e E -> exists x sp split Tr Te m' R X' r x',
    In x Xv /\ rid x = rid e /\ rtime x = rtime e /\
    splits = Ok sp /\ In split sp /\ split_X F (fst split) (snd split) = Ok (Tr, Te) /\ fit Tr = Ok m' /\
    reconstruct m' Te = Ok (R, X') /\ In r R /\ In x' X' /\ rid x' = rid r /\ rtime x' = rtime r /\ rtime r = rtime e /\
    rval x = rval x' /\ rval e = absdiff (rval x') (rval r).
Proof. intros V M fit score rec ad F splits Xv E m. apply cv_aligned. Qed.
Print Assumptions C90_aligned.

(** "Remove initial states": only the first one is removed; those of all further series
    stay among the errors. *)
Theorem C90_initial_refuted :
  forall (V M : Type) (reconstruct : M -> list (row V) -> result (list (row V) * list (row V)))
    (absdiff : V -> V -> V) m X X' R E r,
  reconstruct m X = Ok (R, X') -> ValidRows R ->
  compute_err reconstruct absdiff m X = Ok (X', E) ->
  InitialState R r -> (exists r0, In r0 (firstn 1 R) /\ rid r0 <> rid r) ->
  exists e, In e E /\ rid e = rid r /\ rtime e = rtime r.
Proof.
  intros V M rec ad m X X' R E r ER HR HC (l & Hl) (r0 & H0 & Hn).
  apply (initial_kept rec ad m X X' E R r ER HR HC).
  assert (Hr : In r (rows_of R (rid r))) by (rewrite Hl; left; reflexivity).
  apply filter_In in Hr. destruct Hr as [Hr _]. destruct R as [|r1 R]; [destruct Hr|].
  destruct H0 as [->|[]]. destruct Hr as [->|Hr]; [congruence|exact Hr].
Qed.
Print Assumptions C90_initial_refuted.

(** [fit_transform] never returns a model; when all steps before succeed, it raises
    TypeError and leaves the model without the additional observable behind. *)
Theorem C90_never_refuted :
  forall (V M D : Type) (fit : list (row V) -> result M) (score : M -> list (row V) -> result Q)
    (reconstruct : M -> list (row V) -> result (list (row V) * list (row V)))
    (transform : M -> list (row V) -> result D) (absdiff : V -> V -> V),
  (forall a b c F cv m, fst (fit_transform fit score reconstruct transform absdiff a b c F cv) <> Ok m) /\
  (forall F m X E d, fit F = Ok m -> compute_err reconstruct absdiff m F = Ok (X, E) -> transform m X = Ok d ->
     fit_transform fit score reconstruct transform absdiff true false true F None = (Err TypeError, Some m)).
Proof.
  intros V M D fit score rec tr ad. split; intros.
  - apply never.
  - eapply left_behind; eassumption.
Qed.
Print Assumptions C90_never_refuted.

(** ** Example: two series; the model is the first value of the training data and
    reconstructs every series by adding it to the data. *)

Notation rw i t v := (mkRow i%Z t%Z v%Z) (only parsing).

Definition ex_data : list (row Z) := [rw 2 0 1; rw 2 1 2; rw 5 0 3; rw 5 1 4; rw 9 0 5; rw 9 1 7].
Definition ex_fit (X : list (row Z)) : result Z := match X with r :: _ => Ok (rval r) | [] => Err ValueError end.
Definition ex_score (m : Z) (X : list (row Z)) : result Q :=
  Ok (inject_Z (- fold_right Z.add 0 (map (fun r => (rval r - m) ^ 2) X))%Z).
Definition ex_rec (m : Z) (X : list (row Z)) : result (list (row Z) * list (row Z)) :=
  Ok (map (fun r => mkRow (rid r) (rtime r) (rval r + m)%Z) X, X).
Definition ex_diff (x y : Z) : Z := Z.abs (x - y).

Example C90_example :
  ValidRows ex_data /\
  (exists E, compute_err ex_rec ex_diff 3%Z ex_data = Ok (ex_data, E) /\
     E = [rw 2 1 3; rw 5 0 3; rw 5 1 3; rw 9 0 3; rw 9 1 3]) /\
  run_cv ex_fit ex_score ex_rec ex_diff ex_data
    (Ok [([2;3;4;5], [0;1]); ([0;1], [2;3;4;5]); ([0;1;4;5],[2;3])]) =
    Ok ([rw 0 0 1; rw 0 1 2; rw 1 0 3; rw 1 1 4; rw 2 0 5; rw 2 1 7; rw 3 0 3; rw 3 1 4],
        [rw 0 1 3; rw 1 1 1; rw 2 0 1; rw 2 1 1; rw 3 1 1], 3%Z) /\
  fit_transform ex_fit ex_score ex_rec (fun _ X => Ok X) ex_diff true false true ex_data None = (Err TypeError, Some 1%Z).
Proof.
  split; [apply (proj1 (tsc_ok ex_data ex_data)); reflexivity|]. split; [eexists; split; vm_compute; reflexivity|].
  split; vm_compute; reflexivity.
Qed.

(** The hypothesis of [C90_aligned] holds for a model that reconstructs the series with at
    least two samples and rejects other data. *)
Definition ex_rec2 (m : Z) (X : list (row Z)) : result (list (row Z) * list (row Z)) :=
  bind (tsc X) (fun X =>
  if forallb (fun i => Nat.leb 2 (length (rows_of X i))) (ids_index X)
  then ex_rec m X else Err ValueError).

Example C90_usable :
  (forall m X R X', ex_rec2 m X = Ok (R, X') -> Usable R X') /\
  run_cv ex_fit ex_score ex_rec2 ex_diff ex_data (Ok [([2;3;4;5], [0;1]); ([0;1], [2;3;4;5])]) =
    Ok ([rw 0 0 1; rw 0 1 2; rw 1 0 3; rw 1 1 4; rw 2 0 5; rw 2 1 7], [rw 0 1 3; rw 1 1 1; rw 2 0 1; rw 2 1 1], 3%Z).
Proof.
  split; [|vm_compute; reflexivity].
  intros m X R X'. unfold ex_rec2. destruct (tsc X) as [Y|] eqn:E; [|discriminate]. cbn [bind].
  apply tsc_ok in E. destruct E as [HV ->].
  destruct (forallb _ _) eqn:HF; [|discriminate]. unfold ex_rec. intros H. injection H as <- <-.
  set (g := fun r : row Z => mkRow (rid r) (rtime r) (rval r + m)%Z).
  assert (Hi : ids_index (map g X) = ids_index X) by (unfold ids_index; rewrite map_map; reflexivity).
  assert (Ht : time_index (map g X) = time_index X) by (unfold time_index; rewrite map_map; reflexivity).
  assert (Hrows : forall i (l : list (row Z)), length (rows_of (map g l) i) = length (rows_of l i)).
  { intros i l. unfold rows_of. induction l as [|r l IH]; [reflexivity|]. cbn. destruct (rid r =? i)%Z; cbn; rewrite IH; reflexivity. }
  split; [|split; [exact HV|split]].
  - assert (E : tsc X = Ok X) by (apply tsc_ok; split; [exact HV|reflexivity]).
    apply (proj1 (tsc_ok (map g X) (map g X))). unfold tsc in *. rewrite Hi, Ht. destruct (validate_index _ _); [reflexivity|discriminate].
  - intros p Hp. unfold index in *. rewrite map_map in Hp. exact Hp.
  - intros i (r & Hr & <-). rewrite Hrows. rewrite forallb_forall in HF. apply Nat.leb_le. apply HF.
    unfold ids_index. apply in_map. exact Hr.
Qed.
