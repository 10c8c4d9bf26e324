(** * Theorems: the full state in the dictionary (C85) and the life cycle of an EDMD
    object (C86). *)

From Coq Require Import List ZArith Bool Arith Lia.
Import ListNotations.
From Verif Require Import Np TscModel QoiModel DictModel DictSpec DictProofs LifeModel LifeSpec LifeProofs.
Close Scope nat_scope.
Open Scope Z_scope.

(** ** C85: the full state in the dictionary *)

(** When [fit] finds the state: depending on the two settings, all features or none
    of them must be among the names of the dictionary; otherwise ValueError. *)
Theorem C85_fit :
  forall (V : Type) (dict : table -> result table) (lstsq : table -> table -> list V -> list V) (fin names : list Z)
         (cfg : config) (X D : table),
  Dictionary dict fin names -> WfTable X -> cols X = fin -> dict X = Ok D -> use_transform_inverse cfg = false ->
  ((exists m, edmd_fit dict lstsq cfg X = Ok m) <->
   match include_id_state cfg, preserves_setting cfg with
   | true, None => all_in fin names \/ none_in fin names
   | true, Some true => all_in fin names
   | true, Some false => none_in fin names
   | false, Some true => all_in fin names
   | false, _ => True
   end) /\
  (forall e, edmd_fit dict lstsq cfg X = Err e -> e = ValueError).
Proof. intros V dict lstsq fin names cfg X D HD. exact (fit_iff dict dict lstsq fin names HD cfg X D). Qed.
Print Assumptions C85_fit.

(** State attached to the dictionary: the inverse of the transformed data are the
    data, for all samples the dictionary keeps. *)
Theorem C85_attached :
  forall (V : Type) (dict undict : table -> result table) (lstsq : table -> table -> list V -> list V) (fin names : list Z)
         (cfg : config) (X0 X D : table) (m : model),
  Dictionary dict fin names -> WfTable X0 -> cols X0 = fin -> WfTable X -> cols X = fin ->
  use_transform_inverse cfg = false ->
  edmd_fit dict lstsq cfg X0 = Ok m -> include_id_state cfg = true -> preserves m = false -> dict X = Ok D ->
  exists T, edmd_transform dict cfg m X = Ok T /\ keys T = keys D /\ cols T = fin ++ names /\
  edmd_inverse_transform undict m T = Ok (restricted X D).
Proof.
  intros V dict undict lstsq fin names cfg X0 X D m HD. exact (attached_roundtrip dict undict lstsq fin names HD cfg X0 X m D).
Qed.
Print Assumptions C85_attached.

(** State preserved by the dictionary, in the order of the features. *)
Theorem C85_preserved :
  forall (V : Type) (dict undict : table -> result table) (lstsq : table -> table -> list V -> list V) (fin names : list Z)
         (cfg : config) (X0 X D : table) (m : model),
  Dictionary dict fin names -> KeepsValues dict fin ->
  WfTable X0 -> cols X0 = fin -> WfTable X -> cols X = fin -> use_transform_inverse cfg = false ->
  edmd_fit dict lstsq cfg X0 = Ok m -> preserves m = true -> dict X = Ok D -> kept fin names = fin ->
  edmd_transform dict cfg m X = Ok D /\ edmd_inverse_transform undict m D = Ok (restricted X D).
Proof.
  intros V dict undict lstsq fin names cfg X0 X D m HD HK W0 E0 WX EX HU.
  exact (preserved_roundtrip dict undict lstsq fin names HD cfg X0 X m D W0 E0 WX EX HU HK).
Qed.
Print Assumptions C85_preserved.

(** In any other order the columns are exchanged: the j-th column, which carries the
    name of the j-th feature, holds the feature that is the j-th in the dictionary. *)
Theorem C85_reordered_refuted :
  forall (V : Type) (dict undict : table -> result table) (lstsq : table -> table -> list V -> list V) (fin names : list Z)
         (cfg : config) (X0 X D : table) (m : model),
  Dictionary dict fin names -> KeepsValues dict fin ->
  WfTable X0 -> cols X0 = fin -> WfTable X -> cols X = fin -> use_transform_inverse cfg = false ->
  edmd_fit dict lstsq cfg X0 = Ok m -> preserves m = true -> dict X = Ok D ->
  exists R, edmd_inverse_transform undict m D = Ok (mkTable fin R) /\ map fst R = keys D /\
            (forall k r, In (k, r) R -> length r = length fin) /\
            length (kept fin names) = length fin /\
            forall k r j a v, In (k, r) R -> nth_error (kept fin names) j = Some a -> nth_error r j = Some v -> Value X k a v.
Proof.
  intros V dict undict lstsq fin names cfg X0 X D m HD HK W0 E0 WX EX HU EF EP ED.
  exact (proj2 (preserved_columns dict undict lstsq fin names HD cfg X0 X m D W0 E0 WX EX HU HK EF EP ED)).
Qed.
Print Assumptions C85_reordered_refuted.

(** The first call of [partial_fit] without [include_id_state] always fails, even if
    the dictionary preserves the state. *)
Theorem C85_partial_fit_exclude_refuted :
  forall (V : Type) (dict : table -> result table) (lstsq : table -> table -> list V -> list V) (cfg : config) (X D : table),
  dict X = Ok D -> include_id_state cfg = false -> edmd_partial_fit dict lstsq cfg X = Err NotImplementedError.
Proof. intros V dict lstsq cfg X D. exact (partial_fit_exclude dict lstsq cfg X D). Qed.
Print Assumptions C85_partial_fit_exclude_refuted.

(** With [include_id_state] the state is never attached: it succeeds exactly if the
    dictionary contains the state, whatever [dict_preserves_id_state] says. *)
Theorem C85_partial_fit_include_refuted :
  forall (V : Type) (dict : table -> result table) (lstsq : table -> table -> list V -> list V) (fin names : list Z)
         (cfg : config) (X D : table),
  Dictionary dict fin names -> WfTable X -> cols X = fin -> dict X = Ok D ->
  include_id_state cfg = true -> use_transform_inverse cfg = false ->
  ((exists m, edmd_partial_fit dict lstsq cfg X = Ok m) <-> all_in fin names) /\
  (~ all_in fin names -> edmd_partial_fit dict lstsq cfg X = Err ValueError).
Proof. intros V dict lstsq fin names cfg X D HD. exact (partial_fit_include dict lstsq fin names HD cfg X D). Qed.
Print Assumptions C85_partial_fit_include_refuted.

(** Examples: a dictionary that adds the sum of both features and drops the first
    sample; one that exchanges the two features. *)
Definition ex85_sum (X : table) : result (@table Z) :=
  Ok (mkTable [9] (map (fun r : Z * Z * list Z => (fst r, [fold_left Z.add (snd r) 0])) (tl (rows X)))).
Definition ex85_swap (X : table) : result (@table Z) :=
  Ok (mkTable [2; 1] (map (fun r : Z * Z * list Z => (fst r, rev (snd r))) (rows X))).
Definition ex85_X : @table Z := mkTable [1; 2] [((0, 0), [10; 20]); ((0, 1), [11; 21]); ((0, 2), [12; 22])].
Definition ex85_none : @table Z -> @table Z -> list Z -> list Z := fun _ _ l => l.
Definition ex85_undict (T : table) : result (@table Z) := Ok T.

Lemma ex85_tl (R : list ((Z * Z) * list Z)) : Selects (map fst R) (map fst (tl R)).
Proof.
  destruct R as [|r R]; [exists []; auto|]. cbn [tl map]. exists (false :: map (fun _ => true) R). cbn.
  split; [rewrite !map_length; reflexivity|]. induction R as [|q R IH]; [reflexivity|]. cbn. f_equal. exact IH.
Qed.

Lemma ex85_id (K : list (Z * Z)) : Selects K K.
Proof.
  exists (map (fun _ => true) K). split; [apply map_length|]. induction K as [|k K IH]; [reflexivity|]. cbn. f_equal. exact IH.
Qed.

Lemma ex85_sum_dictionary : Dictionary ex85_sum [1; 2] [9].
Proof.
  intros X D WX EX E. injection E as <-. split; [|split; [reflexivity|]].
  - split; cbn [cols].
    + repeat constructor. intros [].
    + unfold keys. cbn [rows]. rewrite map_map. cbn [fst]. assert (HN := wt_keys _ WX). unfold keys in HN.
      destruct (rows X); [constructor|]. cbn in *. inversion HN; assumption.
    + intros r Hr. cbn [rows] in Hr. apply in_map_iff in Hr. destruct Hr as (q & <- & _). reflexivity.
  - unfold keys. cbn [rows]. rewrite map_map. cbn [fst]. apply ex85_tl.
Qed.

Lemma ex85_swap_dictionary : Dictionary ex85_swap [1; 2] [2; 1].
Proof.
  intros X D WX EX E. injection E as <-. split; [|split; [reflexivity|]].
  - split; cbn [cols].
    + repeat constructor; cbn; intuition lia.
    + unfold keys. cbn [rows]. rewrite map_map. cbn [fst]. apply (wt_keys _ WX).
    + intros r Hr. cbn [rows] in Hr. apply in_map_iff in Hr. destruct Hr as (q & <- & Hq). cbn [snd].
      rewrite rev_length, (wt_rows _ WX q Hq), EX. reflexivity.
  - unfold keys. cbn [rows]. rewrite map_map. cbn [fst]. apply ex85_id.
Qed.

Lemma ex85_swap_keeps : KeepsValues ex85_swap [1; 2].
Proof.
  intros X D k f v WX EX E Hf (r & Hr & Hc). injection E as <-. cbn [rows cols] in *.
  apply in_map_iff in Hr. destruct Hr as ([k' q] & E & Hq). cbn [fst snd] in E. injection E as <- <-.
  exists q. split; [exact Hq|]. rewrite EX. assert (HL := wt_rows _ WX _ Hq). rewrite EX in HL. cbn in HL.
  destruct q as [|a [|b [|]]]; try discriminate HL. cbn in *. intuition.
Qed.

Lemma ex85_wf : WfTable ex85_X.
Proof.
  split.
  - repeat constructor; cbn; intuition lia.
  - unfold keys. cbn. repeat constructor; cbn; intuition congruence.
  - intros r Hr. cbn in Hr. repeat (destruct Hr as [<-|Hr]; [reflexivity|]). destruct Hr.
Qed.

Example C85_example_attached :
  let cfg := mkConfig true None false in
  exists m, edmd_fit ex85_sum ex85_none cfg ex85_X = Ok m /\ preserves m = false /\
  edmd_transform ex85_sum cfg m ex85_X = Ok (mkTable [1; 2; 9] [((0, 1), [11; 21; 32]); ((0, 2), [12; 22; 34])]) /\
  edmd_inverse_transform ex85_undict m (mkTable [1; 2; 9] [((0, 1), [11; 21; 32]); ((0, 2), [12; 22; 34])])
  = Ok (mkTable [1; 2] [((0, 1), [11; 21]); ((0, 2), [12; 22])]) /\
  edmd_partial_fit ex85_sum ex85_none cfg ex85_X = Err ValueError.
Proof. eexists. split; [reflexivity|]. repeat split. Qed.

(** The dictionary that exchanges the columns: the data come back under wrong names. *)
Example C85_example_reordered :
  let cfg := mkConfig true None false in
  exists m, edmd_fit ex85_swap ex85_none cfg ex85_X = Ok m /\ preserves m = true /\ kept [1; 2] [2; 1] = [2; 1] /\
  bind (edmd_transform ex85_swap cfg m ex85_X) (edmd_inverse_transform ex85_undict m)
  = Ok (mkTable [1; 2] [((0, 0), [20; 10]); ((0, 1), [21; 11]); ((0, 2), [22; 12])]).
Proof. eexists. split; [reflexivity|]. repeat split. Qed.

(** ** C86: fit and partial_fit *)

Close Scope Z_scope.

(** The mode of an object is decided by the first call with acceptable arguments,
    even if that call fails later, and never changes. *)
Theorem C86_mode : forall h : list call, is_partial (run h) = first_kind h.
Proof. exact run_mode. Qed.
Print Assumptions C86_mode.

(** After that, [fit] of an object in incremental mode and [partial_fit] of an object
    in batch mode are rejected, and mode and fitted model are left as they are. *)
Theorem C86_exclusive :
  forall (h : list call) (c : call), accepted c = true -> first_kind h = Some (negb (partial c)) ->
  let (o, r) := call_method (run h) c in
  (r = Err ValueError \/ r = Err AssertionError) /\
  is_partial o = is_partial (run h) /\ dmd_fitted o = dmd_fitted (run h).
Proof.
  intros h c HA HF. rewrite <- run_mode in HF. destruct (run h) as [p f k t]. cbn in HF. subst p.
  destruct c as [pa de u y r]. unfold accepted in HA. unfold call_method, fit, partial_fit. cbn in *.
  destruct de; [discriminate|]. destruct pa; cbn in *.
  - destruct y; [discriminate|]. destruct u; [discriminate|]. destruct f; cbn; auto.
  - auto.
Qed.
Print Assumptions C86_exclusive.

(** Calls of the same kind never meet these rejections: their outcome is that of the
    remaining steps. *)
Theorem C86_same_kind :
  forall (h : list call) (c : call), accepted c = true ->
  (first_kind h = None \/ first_kind h = Some (partial c)) ->
  snd (call_method (run h) c) = match rest c with Succeed => Ok tt | FailBefore e => Err e | FailAfter e => Err e end.
Proof.
  intros h c HA HF. assert (HN := run_unfitted h). rewrite <- run_mode in HF. destruct (run h) as [p f k t]. cbn in *.
  destruct c as [pa de u y r]. unfold accepted in HA. unfold call_method, fit, partial_fit. cbn in *.
  destruct de; [discriminate|]. destruct pa; cbn in *.
  - destruct y; [discriminate|]. destruct u; [discriminate|]. cbn.
    destruct HF as [->| ->]; [rewrite (HN eq_refl)|destruct f]; cbn; destruct r; reflexivity.
  - destruct HF as [->| ->]; destruct r; reflexivity.
Qed.
Print Assumptions C86_same_kind.

(** Rejected calls are not without effect. [partial_fit] of a fitted model with control
    input raises, and the model is no longer a controlled one. *)
Theorem C86_control_lost_refuted :
  forall (h : list call) (c : call), accepted c = true -> partial c = true -> first_kind h = Some false ->
  dmd_fitted (run h) = true ->
  snd (call_method (run h) c) = Err AssertionError /\
  is_controlled (fst (call_method (run h) c)) = Some false.
Proof.
  intros h c HA HP HF HD. rewrite <- run_mode in HF. destruct (run h) as [p f k t]. cbn in HF, HD. subst p f.
  destruct c as [pa de u y r]. unfold accepted in HA. unfold call_method, partial_fit. cbn in *. subst pa.
  destruct de; [discriminate|]. destruct y; [discriminate|]. destruct u; [discriminate|]. cbn. auto.
Qed.
Print Assumptions C86_control_lost_refuted.

(** A first [partial_fit] that fails in the dictionary: [fit] is then rejected for ever. *)
Theorem C86_failed_call_refuted :
  forall (c f : call) (e : err) (h : list call), accepted c = true -> partial c = true -> rest c = FailBefore e ->
  accepted f = true -> partial f = false ->
  snd (call_method new_object c) = Err e /\ dmd_fitted (run [c]) = false /\
  snd (call_method (run (c :: h)) f) = Err ValueError.
Proof.
  intros c f e h HA HP HR HF HB.
  assert (E : first_kind (c :: h) = Some true) by (cbn; rewrite HA, HP; reflexivity).
  rewrite <- run_mode in E. destruct c as [pa de u y r]. unfold accepted in HA. cbn in HP, HR. subst pa r. cbn in HA.
  destruct de; [discriminate|]. destruct y; [discriminate|]. destruct u; [discriminate|].
  split; [reflexivity|]. split; [reflexivity|].
  destruct (run _) as [p ft k t]. cbn in E. subst p. destruct f as [pa de u y r]. cbn in *. subst pa.
  unfold accepted in HF. cbn in HF. unfold call_method, fit. cbn. destruct de; [discriminate|]. reflexivity.
Qed.
Print Assumptions C86_failed_call_refuted.

(** Stepwise predictions fail for every model that was only set up with
    [partial_fit]. *)
Theorem C86_stepwise_refuted :
  forall h : list call, (forall c, In c h -> partial c = true) -> stepwise_guard (run h) = Err AttributeError.
Proof.
  intros h H. unfold stepwise_guard. assert (E : is_transition (run h) = None); [|rewrite E; reflexivity].
  induction h as [|c h IH] using rev_ind; [reflexivity|]. rewrite run_snoc, call_transition_partial.
  - apply IH. intros d Hd. apply H. apply in_or_app. left. exact Hd.
  - apply H. apply in_or_app. right. left. reflexivity.
Qed.
Print Assumptions C86_stepwise_refuted.

Definition ex86_fit : call := mkCall false None true false Succeed.
Definition ex86_pfit : call := mkCall true None false false Succeed.

Example C86_example :
  run [ex86_fit; ex86_fit] = mkObject (Some false) true (Some true) (Some false) /\
  call_method (run [ex86_fit]) ex86_pfit = (mkObject (Some false) true (Some false) (Some false), Err AssertionError) /\
  call_method (run [ex86_pfit]) ex86_fit = (mkObject (Some true) true (Some false) (Some false), Err ValueError) /\
  snd (call_method (run [ex86_pfit; ex86_pfit]) ex86_pfit) = Ok tt.
Proof. repeat split. Qed.
