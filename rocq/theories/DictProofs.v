(** * Proofs: the full state in the dictionary. *)

From Coq Require Import List ZArith Bool Arith Lia Permutation.
From Coq Require Import ZifyBool ZifyNat.
Import ListNotations.
From Verif Require Import Np NpFacts TscModel QoiModel QoiProofs WinProofs DictModel DictSpec.
Close Scope nat_scope.
Open Scope Z_scope.

Section Proofs.
Context {V : Type}.
Notation table := (@table V).
Notation record := ((Z * Z) * list V)%type.

Lemma dup_names_iff l : dup_names l = false <-> NoDup l.
Proof.
  induction l as [|x l IH]; cbn; [split; [constructor|reflexivity]|]. rewrite orb_false_iff, IH, NoDup_cons_iff.
  apply and_iff_compat_r. rewrite <- not_true_iff_false, existsb_exists. split; intros H.
  - intros Hx. apply H. exists x. split; [exact Hx|apply Z.eqb_refl].
  - intros (y & Hy & E). apply Z.eqb_eq in E. subst. contradiction.
Qed.

Lemma mem_pair k (l : list (Z * Z)) : existsb (pair_eqb k) l = true <-> In k l.
Proof.
  rewrite existsb_exists. split.
  - intros (x & Hx & E). apply pair_eqb_eq in E. congruence.
  - intros H. exists k. split; [exact H|apply pair_eqb_eq; reflexivity].
Qed.

(** ** selections of labels *)

Lemma selects_nil K : Selects [] K -> K = [].
Proof. intros (keep & HL & ->). destruct keep; [reflexivity|discriminate]. Qed.

Lemma selects_cons a K K' : Selects (a :: K) K' ->
  (exists K1, K' = a :: K1 /\ Selects K K1) \/ Selects K K'.
Proof.
  intros (keep & HL & ->). destruct keep as [|b keep]; [discriminate|]. cbn in HL. injection HL as HL.
  destruct b; cbn; [left; eexists; split; [reflexivity|]|right]; exists keep; auto.
Qed.

Lemma selects_in K : forall K' x, Selects K K' -> In x K' -> In x K.
Proof.
  intros K' x (keep & _ & ->) H. apply in_map_iff in H. destruct H as ([b y] & <- & H). apply filter_In in H.
  destruct H as [H _]. apply in_combine_r in H. exact H.
Qed.

Lemma selects_length K : forall K', Selects K K' -> (length K' <= length K)%nat.
Proof.
  induction K as [|a K IH]; intros K' H; [apply selects_nil in H; subst; cbn; lia|].
  apply selects_cons in H. destruct H as [(K1 & -> & H)|H]; apply IH in H; cbn; lia.
Qed.

Lemma selects_all K : forall K', Selects K K' -> length K' = length K -> K' = K.
Proof.
  induction K as [|a K IH]; intros K' H HL; [apply selects_nil in H; exact H|].
  apply selects_cons in H. destruct H as [(K1 & -> & H)|H].
  - cbn in HL. f_equal. apply IH; [exact H|lia].
  - apply selects_length in H. cbn in HL. lia.
Qed.

Lemma selects_filter (R : list record) : forall K', NoDup (map fst R) -> Selects (map fst R) K' ->
  map fst (filter (fun r => existsb (pair_eqb (fst r)) K') R) = K'.
Proof.
  induction R as [|r R IH]; intros K' HN HS; [apply selects_nil in HS; subst; reflexivity|].
  cbn in HN. apply NoDup_cons_iff in HN. destruct HN as [Hr HN]. cbn [map] in HS. apply selects_cons in HS.
  destruct HS as [(K1 & -> & HS)|HS].
  - cbn [filter existsb]. assert (E : pair_eqb (fst r) (fst r) = true) by (apply pair_eqb_eq; reflexivity).
    rewrite E. cbn [orb map]. f_equal. etransitivity; [|exact (IH K1 HN HS)]. f_equal. apply filter_ext_in. intros q Hq.
    destruct (pair_eqb (fst q) (fst r)) eqn:E2; [|reflexivity]. apply pair_eqb_eq in E2. exfalso. apply Hr.
    rewrite <- E2. apply in_map. exact Hq.
  - cbn [filter]. destruct (existsb (pair_eqb (fst r)) K') eqn:E.
    + exfalso. apply mem_pair in E. apply Hr. apply (selects_in _ _ _ HS E).
    + apply IH; assumption.
Qed.

Lemma find_key (R : list record) : NoDup (map fst R) -> forall r, In r R ->
  find (fun q => pair_eqb (fst q) (fst r)) R = Some r.
Proof.
  induction R as [|q R IH]; intros HN r Hr; [destruct Hr|]. cbn in HN. apply NoDup_cons_iff in HN. destruct HN as [Hq HN].
  cbn [find]. destruct Hr as [->|Hr].
  - assert (E : pair_eqb (fst r) (fst r) = true) by (apply pair_eqb_eq; reflexivity). rewrite E. reflexivity.
  - destruct (pair_eqb (fst q) (fst r)) eqn:E.
    + apply pair_eqb_eq in E. exfalso. apply Hq. rewrite E. apply in_map. exact Hr.
    + apply IH; assumption.
Qed.

Lemma loc_ok (T : table) (rs : list record) : NoDup (keys T) -> (forall r, In r rs -> In r (rows T)) ->
  loc_rows T (map fst rs) = Ok (mkTable (cols T) rs).
Proof.
  intros HN HR. unfold loc_rows.
  assert (E : map_result (fun k => match find (fun r => pair_eqb (fst r) k) (rows T) with Some r => Ok r | None => Err KeyError end)
                (map fst rs) = Ok rs).
  { induction rs as [|r rs IH]; [reflexivity|]. cbn [map map_result].
    rewrite (find_key _ HN r) by (apply HR; left; reflexivity). cbn [bind].
    rewrite IH by (intros q Hq; apply HR; right; exact Hq). reflexivity. }
  rewrite E. reflexivity.
Qed.

Lemma loc_restricted (X D : table) : NoDup (keys X) -> Selects (keys X) (keys D) ->
  loc_rows X (keys D) = Ok (restricted X D).
Proof.
  intros HN HS. rewrite <- (selects_filter (rows X) (keys D) HN HS). apply loc_ok; [exact HN|].
  intros r Hr. apply filter_In in Hr. apply Hr.
Qed.

Lemma keys_restricted (X D : table) : NoDup (keys X) -> Selects (keys X) (keys D) -> keys (restricted X D) = keys D.
Proof. intros HN HS. apply (selects_filter (rows X) (keys D) HN HS). Qed.

Lemma restricted_all (X D : table) : keys D = keys X -> restricted X D = X.
Proof.
  intros E. unfold restricted. destruct X as [c R]. cbn [cols rows]. f_equal. rewrite E. unfold keys. cbn [rows].
  assert (HA : forall (K : list (Z * Z)) (L : list record), (forall r, In r L -> existsb (pair_eqb (fst r)) K = true) ->
               filter (fun r => existsb (pair_eqb (fst r)) K) L = L).
  { intros K L. induction L as [|r L IH]; intros H; [reflexivity|]. cbn. rewrite (H r (or_introl eq_refl)). f_equal. apply IH.
    intros q Hq. apply H. right. exact Hq. }
  apply HA. intros r Hr. apply mem_pair, in_map. exact Hr.
Qed.

(** The table of [attach_id_state]. *)
Definition attached (X D : table) : table :=
  mkTable (cols X ++ cols D)
    (map (fun p => (fst (fst p), snd (fst p) ++ snd (snd p))) (combine (rows (restricted X D)) (rows D))).

Lemma attach_ok (X D : table) : WfTable X -> WfTable D -> Selects (keys X) (keys D) ->
  attach_id_state X D = if dup_names (cols X ++ cols D) then Err ValueError else Ok (attached X D).
Proof.
  intros WX WD HS. unfold attach_id_state.
  assert (HL := selects_length _ _ HS). unfold keys in HL. rewrite !map_length in HL.
  assert (E : (if (length (rows D) <? length (rows X))%nat then loc_rows X (keys D) else Ok X) = Ok (restricted X D)).
  { destruct (length (rows D) <? length (rows X))%nat eqn:EL.
    - apply loc_restricted; [exact (wt_keys _ WX)|exact HS].
    - f_equal. symmetry. apply restricted_all. apply (selects_all _ _ HS). unfold keys. rewrite !map_length. lia. }
  rewrite E. cbn [bind].
  assert (EK := keys_restricted X D (wt_keys _ WX) HS).
  assert (ELn : length (rows (restricted X D)) = length (rows D)).
  { unfold keys in EK. apply (f_equal (@length (Z * Z))) in EK. rewrite !map_length in EK. exact EK. }
  rewrite ELn, Nat.eqb_refl, EK. cbn [negb orb].
  assert (EF : forallb (fun p : Z * Z * (Z * Z) => pair_eqb (fst p) (snd p)) (combine (keys D) (keys D)) = true).
  { clear. induction (keys D) as [|k l IH]; [reflexivity|]. cbn.
    assert (E : pair_eqb k k = true) by (apply pair_eqb_eq; reflexivity). rewrite E, IH. reflexivity. }
  rewrite EF. cbn [negb]. reflexivity.
Qed.

Lemma project_front (fin dn : list Z) : NoDup (fin ++ dn) ->
  project_indices (fin ++ dn) fin = seq 0 (length fin).
Proof.
  assert (H : forall l m sel, (forall x, In x l -> In x sel) -> (forall x, In x m -> ~ In x sel) ->
            project_indices (l ++ m) sel = seq 0 (length l)).
  { induction l as [|x l IH]; intros m sel H1 H2.
    - cbn [app length seq]. clear H1. induction m as [|y m IHm]; [reflexivity|]. rewrite project_cons.
      destruct (zmem y sel) eqn:E; [apply zmem_In in E; exfalso; exact (H2 y (or_introl eq_refl) E)|].
      rewrite IHm by (intros z Hz; apply H2; right; exact Hz). reflexivity.
    - cbn [app length]. rewrite project_cons, (IH m sel).
      + assert (E : zmem x sel = true) by (apply zmem_In, H1; left; reflexivity). rewrite E. cbn [seq app]. f_equal.
        apply seq_shift.
      + intros y Hy. apply H1. right. exact Hy.
      + exact H2. }
  intros HN. apply H; [auto|]. intros x Hx Hf. clear H. induction fin as [|y fin IH]; [destruct Hf|].
  cbn in HN. apply NoDup_cons_iff in HN. destruct HN as [Hy HN]. destruct Hf as [->|Hf].
  - apply Hy. apply in_or_app. right. exact Hx.
  - apply IH; assumption.
Qed.

Lemma take_front {A} (l m : list A) : take_idx (seq 0 (length l)) (l ++ m) = l.
Proof.
  assert (E := take_idx_seq (l ++ m) (length l) []). cbn [length app] in E. rewrite E.
  rewrite firstn_app, Nat.sub_diag, firstn_O, app_nil_r. apply firstn_all.
Qed.

(** ** the projection: number of columns *)

Lemma project_count (names fin : list Z) : NoDup names -> NoDup fin ->
  (length (project_indices names fin) = length fin <-> forall f, In f fin -> In f names).
Proof.
  intros HN HF. rewrite project_length. set (k := filter (fun x => zmem x fin) names).
  assert (Nk : NoDup k) by (apply NoDup_filter; exact HN).
  assert (Hk : forall x, In x k -> In x fin).
  { intros x Hx. apply filter_In in Hx. destruct Hx as [_ Hx]. apply zmem_In in Hx. exact Hx. }
  split; intros H.
  - intros f Hf. assert (HI : incl fin k).
    { apply (NoDup_length_incl Nk); [lia|exact Hk]. }
    specialize (HI f Hf). apply filter_In in HI. apply HI.
  - assert (HP : Permutation k fin).
    { apply NoDup_Permutation; auto. intros x. split; [apply Hk|]. intros Hx. apply filter_In.
      split; [apply H; exact Hx|apply zmem_In; exact Hx]. }
    apply Permutation_length. exact HP.
Qed.

Lemma project_names (fin names : list Z) : forall row : list V, length row = length names ->
  take_idx (project_indices names fin) row = map snd (filter (fun p => zmem (fst p) fin) (combine names row)).
Proof. intros row HL. apply take_project. exact HL. Qed.

Lemma nth_ext_error {A} : forall (l m : list A), (forall j, nth_error l j = nth_error m j) -> l = m.
Proof.
  induction l as [|x l IH]; intros [|y m] H; [reflexivity|specialize (H 0%nat); discriminate|specialize (H 0%nat); discriminate|].
  assert (E := H 0%nat). cbn in E. injection E as ->. f_equal. apply IH. intros j. exact (H (S j)).
Qed.

Lemma map_nth_fst {A B} (l : list A) : forall (m : list B) i a b, length m = length l ->
  nth_error (combine l m) i = Some (a, b) -> nth_error l i = Some a.
Proof.
  induction l as [|x l IH]; intros [|y m] i a b HL H; try discriminate; [destruct i; discriminate|].
  destruct i as [|i]; cbn in *; [congruence|]. apply (IH m i a b); [lia|exact H].
Qed.

Lemma map_nth_snd {A B} (l : list A) : forall (m : list B) i a b, length m = length l ->
  nth_error (combine l m) i = Some (a, b) -> nth_error m i = Some b.
Proof.
  induction l as [|x l IH]; intros [|y m] i a b HL H; try discriminate; [destruct i; discriminate|].
  destruct i as [|i]; cbn in *; [congruence|]. apply (IH m i a b); [lia|exact H].
Qed.

(** ** fit *)

Variable dict : table -> result table.
Variable undict : table -> result table.
Variable lstsq : table -> table -> list V -> list V.

Lemma nodup_app_iff (l m : list Z) : NoDup l -> NoDup m -> (NoDup (l ++ m) <-> forall x, In x l -> ~ In x m).
Proof.
  intros Hl Hm. induction l as [|x l IH]; cbn; [split; [intros _ ? []|auto]|].
  apply NoDup_cons_iff in Hl. destruct Hl as [Hx Hl]. rewrite NoDup_cons_iff, (IH Hl), in_app_iff. split.
  - intros [H1 H2] y [<-|Hy]; [tauto|apply H2; exact Hy].
  - intros H. split; [intros [H1|H1]; [contradiction|apply (H x (or_introl eq_refl) H1)]|intros y Hy; apply H; right; exact Hy].
Qed.

Lemma set_preserves_true cfg fin (D : table) :
  set_preserves cfg fin D = true <-> preserves_setting cfg = Some true \/ (preserves_setting cfg = None /\ all_in fin (cols D)).
Proof.
  unfold set_preserves. destruct (preserves_setting cfg) as [b|].
  - destruct b; [tauto|]. split; [discriminate|]. intros [H|[H _]]; discriminate.
  - rewrite forallb_forall. unfold all_in. split.
    + intros H. right. split; [reflexivity|]. intros f Hf. apply zmem_In. apply H. exact Hf.
    + intros [H|[_ H]]; [discriminate|]. intros f Hf. apply zmem_In. apply H. exact Hf.
Qed.

Section Fit.
Variables (fin names : list Z).
Hypothesis HD : Dictionary dict fin names.

Lemma compute_inverse_project cfg pres (X D : table) : use_transform_inverse cfg = false ->
  include_id_state cfg || pres = true -> NoDup (cols D) -> NoDup fin ->
  (exists i, compute_inverse lstsq cfg fin pres X D = Ok i) <-> all_in fin (cols D).
Proof.
  intros HU HI HN HF. unfold compute_inverse. rewrite HU, HI.
  destruct (length (project_indices (cols D) fin) =? length fin)%nat eqn:E; cbn [negb].
  - apply Nat.eqb_eq in E. assert (Ha := proj1 (project_count _ _ HN HF) E). fold (all_in fin (cols D)) in Ha. split; [intros _; exact Ha|]. intros _. eexists. reflexivity.
  - split; [intros (i & Hi); discriminate|]. intros H. assert (H2 := proj2 (project_count _ _ HN HF) H). apply Nat.eqb_neq in E. contradiction.
Qed.

Lemma compute_inverse_err cfg pres (X D : table) : use_transform_inverse cfg = false ->
  include_id_state cfg || pres = true -> NoDup (cols D) -> NoDup fin -> ~ all_in fin (cols D) ->
  compute_inverse lstsq cfg fin pres X D = Err ValueError.
Proof.
  intros HU HI HN HF H. unfold compute_inverse. rewrite HU, HI.
  destruct (length (project_indices (cols D) fin) =? length fin)%nat eqn:E; cbn [negb]; [|reflexivity].
  apply Nat.eqb_eq in E. assert (Ha := proj1 (project_count _ _ HN HF) E). fold (all_in fin (cols D)) in Ha. contradiction.
Qed.

(** When fit succeeds. *)
Lemma fit_iff cfg (X D : table) : WfTable X -> cols X = fin -> dict X = Ok D ->
  use_transform_inverse cfg = false ->
  ((exists m, edmd_fit dict lstsq cfg X = Ok m) <->
   match include_id_state cfg, preserves_setting cfg with
   | true, None => all_in fin names \/ none_in fin names
   | true, Some true => all_in fin names
   | true, Some false => none_in fin names
   | false, Some true => all_in fin names
   | false, _ => True
   end) /\
  (forall e, edmd_fit dict lstsq cfg X = Err e -> e = ValueError).
Proof.
  intros WX EX ED HU. destruct (HD X D WX EX ED) as (WD & EN & HS).
  assert (NF : NoDup fin) by (rewrite <- EX; apply (wt_cols _ WX)).
  assert (NN : NoDup names) by (rewrite <- EN; apply (wt_cols _ WD)).
  unfold edmd_fit. rewrite ED. cbn [bind]. rewrite EX.
  destruct (set_preserves cfg fin D) eqn:EP.
  - rewrite andb_false_r. cbn [bind].
    assert (HI : include_id_state cfg || true = true) by apply orb_true_r.
    assert (EC := compute_inverse_project cfg true X D HU HI (wt_cols _ WD) NF). rewrite EN in EC.
    assert (HER : forall e, compute_inverse lstsq cfg fin true X D = Err e -> e = ValueError).
    { intros e He. destruct (compute_inverse lstsq cfg fin true X D) eqn:E1; [discriminate|]. injection He as <-.
      assert (Hn : ~ all_in fin (cols D)). { rewrite EN. intros Ha. apply EC in Ha. destruct Ha as (i & Hi). discriminate. }
      rewrite (compute_inverse_err cfg true X D HU HI (wt_cols _ WD) NF Hn) in E1. congruence. }
    split.
    + apply set_preserves_true in EP. rewrite EN in EP.
      transitivity (all_in fin names).
      * rewrite <- EC. split.
        -- intros (m & Hm). destruct (compute_inverse lstsq cfg fin true X D) as [i|] eqn:E1; [exists i; reflexivity|discriminate].
        -- intros (i & Hi). rewrite Hi. eexists. reflexivity.
      * destruct EP as [EP|[EP Ha]]; rewrite EP; destruct (include_id_state cfg); tauto.
    + intros e He. destruct (compute_inverse lstsq cfg fin true X D) eqn:E1; [discriminate|]. apply HER. cbn in He. congruence.
  - assert (Hnp : ~ (preserves_setting cfg = Some true \/ (preserves_setting cfg = None /\ all_in fin names))).
    { rewrite <- EN, <- set_preserves_true. congruence. }
    destruct (include_id_state cfg) eqn:EI; cbn [andb negb].
    + rewrite (attach_ok X D WX WD HS), EX, EN.
      destruct (dup_names (fin ++ names)) eqn:EDup.
      * cbn [bind]. assert (Hnn : ~ none_in fin names).
        { intros H. apply (nodup_app_iff fin names NF NN) in H. apply dup_names_iff in H. congruence. }
        split; [|intros e He; congruence]. split; [intros (m & Hm); discriminate|].
        destruct (preserves_setting cfg) as [[|]|] eqn:ES; [tauto|intros H; contradiction|].
        intros [H|H]; [exfalso; apply Hnp; right; split; [reflexivity|exact H]|contradiction].
      * cbn [bind]. apply dup_names_iff in EDup.
        assert (Hno : none_in fin names) by exact (proj1 (nodup_app_iff fin names NF NN) EDup).
        unfold compute_inverse. rewrite HU, EI. cbn [orb attached cols]. rewrite EX, EN, (project_front fin names EDup), seq_length, Nat.eqb_refl.
        cbn [negb bind]. split; [|intros e He; discriminate]. split; [intros _|intros _; eexists; reflexivity].
        destruct (preserves_setting cfg) as [[|]|]; [tauto|exact Hno|right; exact Hno].
    + cbn [bind]. unfold compute_inverse. rewrite HU, EI. cbn [orb].
      rewrite (loc_restricted X D (wt_keys _ WX) HS). cbn [bind].
      split; [|intros e He; discriminate]. split; [intros _|intros _; eexists; reflexivity].
      destruct (preserves_setting cfg) as [[|]|]; tauto.
Qed.

(** ** round trip *)

Lemma attached_roundtrip cfg (X0 X : table) m D : WfTable X0 -> cols X0 = fin -> WfTable X -> cols X = fin ->
  use_transform_inverse cfg = false ->
  edmd_fit dict lstsq cfg X0 = Ok m -> include_id_state cfg = true -> preserves m = false ->
  dict X = Ok D ->
  exists T, edmd_transform dict cfg m X = Ok T /\ keys T = keys D /\ cols T = fin ++ names /\
  edmd_inverse_transform undict m T = Ok (restricted X D).
Proof.
  intros W0 E0 WX EX HU EF EI EP ED. destruct (HD X D WX EX ED) as (WD & EN & HS).
  unfold edmd_fit in EF. destruct (dict X0) as [D0|] eqn:ED0; [|discriminate]. cbn [bind] in EF.
  destruct (HD X0 D0 W0 E0 ED0) as (WD0 & EN0 & HS0). rewrite E0 in EF.
  destruct (set_preserves cfg fin D0) eqn:ESP.
  { rewrite EI in EF. cbn [andb negb bind] in EF. destruct (compute_inverse _ _ _ _ _ _); [|discriminate].
    cbn [bind] in EF. injection EF as <-. discriminate. }
  rewrite EI in EF. cbn [andb negb] in EF. rewrite (attach_ok X0 D0 W0 WD0 HS0), E0, EN0 in EF.
  destruct (dup_names (fin ++ names)) eqn:EDup; [discriminate|]. cbn [bind] in EF.
  assert (NFN := EDup). apply dup_names_iff in NFN.
  unfold compute_inverse in EF. rewrite HU, EI in EF. cbn [orb attached cols] in EF.
  rewrite E0, EN0, (project_front fin names NFN), seq_length, Nat.eqb_refl in EF. cbn [negb bind] in EF. injection EF as <-.
  exists (attached X D). unfold edmd_transform. rewrite ED. cbn [bind preserves]. rewrite EI. cbn [andb negb].
  rewrite (attach_ok X D WX WD HS), EX, EN, EDup. split; [reflexivity|].
  assert (EK := keys_restricted X D (wt_keys _ WX) HS).
  assert (EL : length (rows (restricted X D)) = length (rows D)).
  { unfold keys in EK. apply (f_equal (@length (Z * Z))) in EK. rewrite !map_length in EK. exact EK. }
  assert (HR : forall r, In r (rows (restricted X D)) -> length (snd r) = length fin).
  { intros r Hr. rewrite <- EX. apply (wt_rows _ WX). unfold restricted in Hr. cbn [rows] in Hr. apply filter_In in Hr. apply Hr. }
  split; [|split].
  - rewrite <- EK. unfold keys, attached. cbn [rows]. rewrite map_map. cbn [fst].
    clear -EL. revert EL. generalize (rows (restricted X D)) (rows D). induction l as [|r l IH]; intros [|d l0] HL; try discriminate; [reflexivity|].
    cbn in *. f_equal. apply IH. lia.
  - unfold attached. cbn [cols]. rewrite EX, EN. reflexivity.
  - unfold edmd_inverse_transform. cbn [inv names_in]. unfold restricted at 1. f_equal. rewrite EX. f_equal.
    change (filter (fun r => existsb (pair_eqb (fst r)) (keys D)) (rows X)) with (rows (restricted X D)).
    unfold attached. cbn [rows]. rewrite map_map. cbn [fst snd].
    revert EL HR. generalize (rows (restricted X D)) (rows D). induction l as [|r l IH]; intros [|d l0] HL HR; try discriminate; [reflexivity|].
    cbn [combine map fst snd]. rewrite <- (HR r (or_introl eq_refl)), take_front. destruct r as [k r]. cbn [fst snd]. f_equal.
    assert (El := HR (k, r) (or_introl eq_refl)). cbn [snd] in El. rewrite El. apply IH; [cbn in HL; lia|]. intros q Hq. apply HR. right. exact Hq.
Qed.

Lemma kept_eq l : kept fin l = filter (fun x => zmem x fin) l.
Proof. reflexivity. Qed.

(** The preserved case: the columns are those of the dictionary, in its order. *)
Lemma preserved_columns cfg (X0 X : table) m D : WfTable X0 -> cols X0 = fin -> WfTable X -> cols X = fin ->
  use_transform_inverse cfg = false -> KeepsValues dict fin ->
  edmd_fit dict lstsq cfg X0 = Ok m -> preserves m = true -> dict X = Ok D ->
  edmd_transform dict cfg m X = Ok D /\
  exists R, edmd_inverse_transform undict m D = Ok (mkTable fin R) /\ map fst R = keys D /\
            (forall k r, In (k, r) R -> length r = length fin) /\
            length (kept fin names) = length fin /\
            forall k r j a v, In (k, r) R -> nth_error (kept fin names) j = Some a -> nth_error r j = Some v -> Value X k a v.
Proof.
  intros W0 E0 WX EX HU HK EF EP ED. destruct (HD X D WX EX ED) as (WD & EN & HS).
  unfold edmd_fit in EF. destruct (dict X0) as [D0|] eqn:ED0; [|discriminate]. cbn [bind] in EF.
  destruct (HD X0 D0 W0 E0 ED0) as (WD0 & EN0 & HS0). rewrite E0 in EF.
  destruct (set_preserves cfg fin D0) eqn:ESP.
  2:{ destruct (if include_id_state cfg && negb false then attach_id_state X0 D0 else Ok D0); [|discriminate].
      cbn [bind] in EF. destruct (compute_inverse _ _ _ _ _ _); [|discriminate]. cbn [bind] in EF. injection EF as <-. discriminate. }
  cbn [negb] in EF. rewrite andb_false_r in EF. cbn [bind] in EF.
  unfold compute_inverse in EF. rewrite HU, orb_true_r, EN0 in EF.
  destruct (length (project_indices names fin) =? length fin)%nat eqn:EL; [|discriminate]. cbn [negb bind] in EF. injection EF as <-.
  apply Nat.eqb_eq in EL.
  unfold edmd_transform. rewrite ED. cbn [bind preserves negb]. rewrite andb_false_r. split; [reflexivity|].
  unfold edmd_inverse_transform. cbn [inv names_in]. eexists. split; [reflexivity|].
  rewrite map_map. cbn [fst]. split; [reflexivity|].
  assert (HLk : length (kept fin names) = length fin).
  { rewrite kept_eq, <- EL, project_length. reflexivity. }
  assert (HT : forall d, In d (rows D) -> take_idx (project_indices names fin) (snd d)
               = map snd (filter (fun p => zmem (fst p) fin) (combine names (snd d))) /\ length (snd d) = length names).
  { intros d Hd. assert (Hl : length (snd d) = length names) by (rewrite <- EN; apply (wt_rows _ WD); exact Hd).
    split; [apply take_project; exact Hl|exact Hl]. }
  split; [|split; [exact HLk|]].
  - intros k r Hr. apply in_map_iff in Hr. destruct Hr as (d & E & Hd). injection E as <- <-.
    destruct (HT d Hd) as [E Hl]. rewrite E, map_length.
    rewrite <- HLk, kept_eq, <- (filter_map_fst fin names (snd d) Hl), map_length. reflexivity.
  - intros k r j a v Hr Ha Hv. apply in_map_iff in Hr. destruct Hr as (d & E & Hd). injection E as <- <-.
    destruct (HT d Hd) as [E Hl]. rewrite E in Hv.
    rewrite kept_eq, <- (filter_map_fst fin names (snd d) Hl) in Ha.
    rewrite nth_error_map in Ha, Hv. destruct (nth_error (filter _ _) j) as [p|] eqn:Ej; [|discriminate].
    cbn in Ha, Hv. injection Ha as <-. injection Hv as <-. apply nth_error_In in Ej. apply filter_In in Ej. destruct Ej as [Hp Hm].
    apply (HK X D (fst d) (fst p) (snd p) WX EX ED); [apply zmem_In; exact Hm|].
    exists (snd d). rewrite EN. destruct d, p. cbn in *. auto.
Qed.

Lemma combine_inj {A B} (l : list A) : forall (m m' : list B), length m = length l -> length m' = length l ->
  combine l m = combine l m' -> m = m'.
Proof.
  induction l as [|x l IH]; intros [|y m] [|y' m'] H1 H2 E; try discriminate; [reflexivity|].
  cbn in *. injection E as -> E. f_equal. apply IH; [lia|lia|exact E].
Qed.

(** The preserved case, dictionary in the order of the features. *)
Lemma preserved_roundtrip cfg (X0 X : table) m D : WfTable X0 -> cols X0 = fin -> WfTable X -> cols X = fin ->
  use_transform_inverse cfg = false -> KeepsValues dict fin ->
  edmd_fit dict lstsq cfg X0 = Ok m -> preserves m = true -> dict X = Ok D -> kept fin names = fin ->
  edmd_transform dict cfg m X = Ok D /\ edmd_inverse_transform undict m D = Ok (restricted X D).
Proof.
  intros W0 E0 WX EX HU HK EF EP ED EO.
  destruct (HD X D WX EX ED) as (WD & EN & HS).
  destruct (preserved_columns cfg X0 X m D W0 E0 WX EX HU HK EF EP ED) as (ET & R & ER & EKR & HLR & _ & HV).
  split; [exact ET|]. rewrite ER. f_equal. unfold restricted. rewrite EX. f_equal.
  assert (EK := keys_restricted X D (wt_keys _ WX) HS). unfold keys at 1 in EK. rewrite <- EKR in EK.
  change (filter (fun r => existsb (pair_eqb (fst r)) (keys D)) (rows X)) with (rows (restricted X D)).
  assert (NF : NoDup fin) by (rewrite <- EX; apply (wt_cols _ WX)).
  rewrite EO in HV.
  assert (HRR : forall r, In r (rows (restricted X D)) -> In r (rows X)) by (intros r Hr; apply filter_In in Hr; apply Hr).
  revert EK HRR. generalize (rows (restricted X D)). intros L EK HRR. clear ER EKR.
  revert L EK HRR. induction R as [|[k r] R IH]; intros [|[k' r'] L] EK HRR; try discriminate; [reflexivity|].
  cbn in EK. injection EK as -> EK. f_equal; [f_equal|].
  - assert (Hl : length r = length fin) by (apply (HLR k); left; reflexivity).
    assert (Hx : In (k, r') (rows X)) by (apply HRR; left; reflexivity).
    assert (Hl' : length r' = length fin) by (rewrite <- EX; apply (wt_rows _ WX (k, r') Hx)).
    apply nth_ext_error. intros j. destruct (nth_error r j) as [v|] eqn:Ej.
    + assert (Hj : (j < length fin)%nat) by (rewrite <- Hl; apply nth_error_Some; congruence).
      destruct (nth_error fin j) as [a|] eqn:Ea; [|apply nth_error_None in Ea; lia].
      destruct (HV k r j a v (or_introl eq_refl) Ea Ej) as (q & Hq & Hc).
      assert (Eq : q = r').
      { assert (HN := wt_keys _ WX). unfold keys in HN. assert (E2 := find_key _ HN _ Hq). assert (E3 := find_key _ HN _ Hx).
        cbn [fst] in E2, E3. congruence. }
      subst q. rewrite EX in Hc. apply In_nth_error in Hc. destruct Hc as (i & Hi).
      assert (Hfi : nth_error fin i = Some a).
      { rewrite <- (map_nth_fst fin r' i a v Hl' Hi). reflexivity. }
      assert (Eij : i = j) by (apply (NoDup_nth_error fin); [exact NF|apply nth_error_Some; congruence|congruence]).
      subst i. symmetry. apply (map_nth_snd fin r' j a v Hl' Hi).
    + symmetry. apply nth_error_None. apply nth_error_None in Ej. lia.
  - apply IH; auto.
    + intros k1 r1 H1. apply (HLR k1). right. exact H1.
    + intros k1 r1 j a v H1. apply (HV k1 r1 j a v). right. exact H1.
    + intros q Hq. apply HRR. right. exact Hq.
Qed.

(** ** partial_fit *)

Lemma partial_fit_exclude cfg (X D : table) : dict X = Ok D -> include_id_state cfg = false ->
  edmd_partial_fit dict lstsq cfg X = Err NotImplementedError.
Proof. intros ED EI. unfold edmd_partial_fit. rewrite ED. cbn [bind]. rewrite EI. reflexivity. Qed.

Lemma partial_fit_include cfg (X D : table) : WfTable X -> cols X = fin -> dict X = Ok D ->
  include_id_state cfg = true -> use_transform_inverse cfg = false ->
  ((exists m, edmd_partial_fit dict lstsq cfg X = Ok m) <-> all_in fin names) /\
  (~ all_in fin names -> edmd_partial_fit dict lstsq cfg X = Err ValueError).
Proof.
  intros WX EX ED EI HU. destruct (HD X D WX EX ED) as (WD & EN & HS).
  assert (NF : NoDup fin) by (rewrite <- EX; apply (wt_cols _ WX)).
  unfold edmd_partial_fit. rewrite ED, EI. cbn [bind andb negb]. rewrite EX.
  assert (HI : include_id_state cfg || true = true) by apply orb_true_r.
  split.
  - rewrite <- EN, <- (compute_inverse_project cfg true X D HU HI (wt_cols _ WD) NF). split.
    + intros (m & Hm). destruct (compute_inverse _ _ _ _ _ _) as [i|]; [exists i; reflexivity|discriminate].
    + intros (i & ->). eexists. reflexivity.
  - intros H. rewrite <- EN in H. rewrite (compute_inverse_err cfg true X D HU HI (wt_cols _ WD) NF H). reflexivity.
Qed.

End Fit.
End Proofs.
