(** * Theorems about the column transformer (C112). *)

From Coq Require Import String.
From Coq Require Import List ZArith Bool Arith Lia Sorted.
Import ListNotations.
From Verif Require Import Np TscModel TrModel TscSpec TscProofs ColModel ColSpec ColProofs.
Open Scope Z_scope.

Lemma forall2_impl A B (P Q : A -> B -> Prop) : (forall a b, P a b -> Q a b) -> forall l m, Forall2 P l m -> Forall2 Q l m.
Proof. intros H l m F. induction F; constructor; auto. Qed.

Lemma filter_sorted A (P : A -> A -> Prop) f (l : list A) : StronglySorted P l -> StronglySorted P (filter f l).
Proof.
  intros H. induction H as [|x l H IH HF]; cbn; [constructor|]. destruct (f x); [|exact IH].
  constructor; [exact IH|]. rewrite Forall_forall in *. intros y Hy. apply filter_In in Hy. apply HF. tauto.
Qed.

Section Lemmas.
Context {V : Type}.
Notation rows := (list (row (list V))).

Lemma valid_unique (F : rows) : ValidRows F -> UniqueKeys F.
Proof.
  intros HV. apply valid_keys in HV. unfold UniqueKeys. change (NoDup (map rkey F)). revert HV. generalize (map rkey F) as ks.
  clear F. induction ks as [|k ks IH]; intros K; constructor.
  - intros Hin. apply in_split in Hin. destruct Hin as (m & r & ->).
    destruct (K [] k m k r eq_refl eq_refl). lia.
  - apply IH. intros l a m b r -> Eab. exact (K (k :: l) a m b r eq_refl Eab).
Qed.

Lemma hstack_ok isna verbose parts names (G : rows) : hstack isna verbose parts = Ok (names, G) -> G = join isna (map snd parts).
Proof.
  unfold hstack. destruct (names_out verbose (map fst parts)) as [ns|]; [|discriminate].
  destruct (nodupb ns); [|discriminate]. congruence.
Qed.

Lemma unique_joined isna (Fs : list rows) r r' : Forall UniqueKeys Fs -> Joined isna Fs r -> Joined isna Fs r' ->
  rid r = rid r' -> rtime r = rtime r' -> r = r'.
Proof.
  intros HU H H' E1 E2. pose proof (some_complete isna _ _ HU H) as C. pose proof (some_complete isna _ _ HU H') as C'.
  rewrite E1, E2, C' in C. injection C as C. destruct r, r'; cbn in *; congruence.
Qed.

Lemma position_value names : forall (v : list V) c, List.length v = List.length names ->
  match position names c with
  | Some i => exists x, nth_error v i = Some x /\ value_of names v c = Some x
  | None => value_of names v c = None
  end.
Proof.
  unfold position. intros v c HL.
  assert (G : forall names (v : list V) i, List.length v = List.length names ->
    match (fix go (l : list string) (i : nat) : option nat :=
     match l with [] => None | x :: l' => if String.eqb x c then Some i else go l' (S i) end) names i with
    | Some j => exists x, (i <= j)%nat /\ nth_error v (j - i) = Some x /\ value_of names v c = Some x
    | None => value_of names v c = None
    end).
  { clear. induction names as [|n names IH]; intros v i HL; [destruct v; [reflexivity|discriminate]|].
    destruct v as [|x v]; [discriminate|]. cbn in HL. cbn. destruct (String.eqb n c) eqn:E.
    - apply String.eqb_eq in E. subst n. destruct (string_dec c c) as [_|]; [|congruence]. exists x. rewrite Nat.sub_diag. cbn. auto.
    - apply String.eqb_neq in E. destruct (string_dec n c) as [|_]; [congruence|].
      specialize (IH v (S i) ltac:(lia)). destruct ((fix go (l : list string) (i : nat) : option nat :=
        match l with [] => None | x :: l' => if String.eqb x c then Some i else go l' (S i) end) names (S i)) as [j|]; [|exact IH].
      destruct IH as (y & Hj & Hn & Hv). exists y. split; [lia|]. split; [|exact Hv].
      replace (j - i)%nat with (S (j - S i)) by lia. exact Hn. }
  specialize (G names v O HL). destruct ((fix go (l : list string) (i : nat) : option nat :=
        match l with [] => None | x :: l' => if String.eqb x c then Some i else go l' (S i) end) names O) as [j|]; [|exact G].
  destruct G as (x & _ & Hn & Hv). exists x. rewrite Nat.sub_0_r in Hn. auto.
Qed.

Lemma position_in names c : In c names <-> position names c <> None.
Proof.
  unfold position. generalize O. induction names as [|n names IH]; intros i; cbn; [tauto|].
  destruct (String.eqb n c) eqn:E; [apply String.eqb_eq in E; subst; split; [discriminate|auto]|].
  apply String.eqb_neq in E. rewrite <- (IH (S i)). tauto.
Qed.

Lemma positions_in names cs : (forall c, In c cs -> In c names) <-> positions names cs <> None.
Proof.
  induction cs as [|c cs IH]; cbn; [split; [discriminate|tauto]|].
  destruct (position names c) as [i|] eqn:E.
  - destruct (positions names cs) as [l|] eqn:E2; split; try discriminate; try tauto.
    + intros _ d [<-|Hd]; [apply position_in; congruence|apply IH; [discriminate|exact Hd]].
    + intros H _. apply (proj1 IH); [|reflexivity]. intros d Hd. apply H. auto.
  - split; [|tauto]. intros H. exfalso. apply (proj1 (position_in names c)); [apply H; auto|exact E].
Qed.

Definition picked (names cs : list string) (v : list V) : list V :=
  flat_map (fun c => match value_of names v c with Some x => [x] | None => [] end) cs.

Lemma select_values names (X : rows) cs : (forall c, In c cs -> In c names) ->
  (forall r, In r X -> List.length (rval r) = List.length names) ->
  select names X cs = Ok (map (fun r => mkRow (rid r) (rtime r) (picked names cs (rval r))) X).
Proof.
  intros HC HW. unfold select. destruct (positions names cs) as [l|] eqn:E; [|exfalso; apply (proj1 (positions_in names cs) HC E)].
  f_equal. apply map_ext_in. intros r Hr. f_equal. unfold picked. specialize (HW r Hr). revert l E. clear HC.
  induction cs as [|c cs IH]; intros l E; cbn in E; [injection E as <-; reflexivity|].
  pose proof (position_value names (rval r) c HW) as P.
  destruct (position names c) as [i|]; [|discriminate]. destruct (positions names cs) as [l'|]; [|discriminate]. injection E as <-.
  destruct P as (x & Hn & Hv). cbn. rewrite Hn, Hv. cbn. f_equal. apply IH. reflexivity.
Qed.

Definition used (es : list (@entry V)) : list string :=
  flat_map (fun e => match snd (fst e) with Drop => [] | _ => snd e end) es.

Lemma run_same es names names' (X X' : rows) :
  (forall c, In c (used es) -> In c names /\ In c names') ->
  (forall r, In r X -> List.length (rval r) = List.length names) -> (forall r, In r X' -> List.length (rval r) = List.length names') ->
  SameColumns (used es) names names' X X' -> run es names X = run es names' X'.
Proof.
  intros HC HW HW' HS. induction es as [|[[name tr] cs] es IH]; [reflexivity|].
  assert (HT : run es names X = run es names' X').
  { apply IH.
    - intros c Hc. apply HC. cbn. apply in_or_app. auto.
    - unfold SameColumns in *. eapply forall2_impl; [|exact HS]. intros r r' (E1 & E2 & E3). split; [exact E1|]. split; [exact E2|].
      intros c Hc. apply E3. cbn. apply in_or_app. auto. }
  assert (HSel : tr <> Drop -> select names X cs = select names' X' cs).
  { intros HD. assert (HU : forall c, In c cs -> In c (used ((name, tr, cs) :: es))).
    { intros c Hc. cbn. apply in_or_app. left. destruct tr; [congruence|exact Hc|exact Hc]. }
    rewrite !select_values; [|intros c Hc; apply HC, HU, Hc|exact HW'|intros c Hc; apply HC, HU, Hc|exact HW].
    f_equal. clear HW HW'. unfold SameColumns in HS. revert HS. clear IH HT HC. intros HS. induction HS as [|r r' X X' (E1 & E2 & E3) HS IH2]; [reflexivity|].
    cbn. f_equal; [|exact IH2]. rewrite E1, E2. f_equal. unfold picked.
    assert (E4 : forall c, In c cs -> value_of names (rval r) c = value_of names' (rval r') c) by (intros c Hc; apply E3, HU, Hc).
    revert E4. clear. intros E4. induction cs as [|c cs IHc]; [reflexivity|].
    cbn. rewrite (E4 c (or_introl eq_refl)). f_equal. apply IHc. intros d Hd. apply E4. right. exact Hd. }
  cbn. destruct tr; [exact HT| |]; rewrite (HSel ltac:(discriminate)), HT; reflexivity.
Qed.

End Lemmas.

(** C112: the joined frame has exactly one row for every series and time at which all parts have a row
    without NaN, with the values of all parts at that series and time, in the order of the transformers. *)
Theorem C112_rows :
  forall (V : Type) (isna : V -> bool) verbose (parts : list (string * list string * list (row (list V)))) names G,
  parts <> [] -> Forall (fun p => ValidRows (snd p)) parts ->
  hstack isna verbose parts = Ok (names, G) ->
  (forall r, In r G <-> Joined isna (map snd parts) r) /\ UniqueKeys G /\ (G <> [] -> ValidRows G).
Proof.
  intros V isna verbose parts names G HN HV HG. apply hstack_ok in HG. subst G.
  set (Fs := map snd parts). assert (HF : Forall ValidRows Fs) by (unfold Fs; rewrite Forall_map; exact HV).
  assert (HU : Forall UniqueKeys Fs) by (eapply Forall_impl; [apply valid_unique|exact HF]).
  assert (HFs : Fs <> []) by (unfold Fs; destruct parts; [congruence|discriminate]).
  assert (HI : forall r, In r (join isna Fs) <-> Joined isna Fs r).
  { intros r. rewrite join_in. split.
    - intros [_ E]. apply complete_some in E. destruct r; exact E.
    - intros H. split; [apply (joined_index_in isna); assumption|apply some_complete; assumption]. }
  assert (HK : KValid (map rkey (join isna Fs))).
  { rewrite join_keys. apply kvalid_filter. destruct Fs as [|F Fs']; [congruence|]. unfold joined_index.
    destruct (forallb _ Fs'); [|apply kvalid_sorted, sort_sorted]. inversion HF; subst. apply valid_keys. assumption. }
  split; [exact HI|]. split.
  - unfold UniqueKeys. change (NoDup (map rkey (join isna Fs))). revert HK. generalize (map rkey (join isna Fs)).
    intros ks. induction ks as [|k ks IH]; intros K; constructor.
    + intros Hin. apply in_split in Hin. destruct Hin as (m & r & ->). destruct (K [] k m k r eq_refl eq_refl). lia.
    + apply IH. intros l a m b r -> Eab. exact (K (k :: l) a m b r eq_refl Eab).
  - intros HG. apply keys_valid; [exact HG| |exact HK].
    intros r Hr. apply HI in Hr. destruct Hr as (vs & H & _). destruct Fs as [|F Fs']; [congruence|].
    inversion H as [|? v ? vs' [Hin _] _]; subst. inversion HF as [|? ? HF1 _]; subst.
    split; [exact (vr_ids _ HF1 _ Hin)|exact (vr_times _ HF1 _ Hin)].
Qed.
Print Assumptions C112_rows.

(** C112: the columns are those of the parts in order, with the prefix of the transformer if asked for, and
    no name occurs twice. *)
Theorem C112_names :
  forall (V : Type) (isna : V -> bool) verbose (parts : list (string * list string * list (row (list V)))) names G,
  hstack isna verbose parts = Ok (names, G) ->
  NoDup names /\
  names = flat_map (fun p => map (fun c => if verbose then (fst (fst p) ++ "__" ++ c)%string else c) (snd (fst p))) parts.
Proof.
  intros V isna verbose parts names G. unfold hstack, names_out.
  assert (HN : forall l, nodupb l = true -> NoDup l).
  { induction l as [|x l IH]; cbn; intros H; constructor; apply andb_prop in H; destruct H as [H1 H2]; [|apply IH, H2].
    intros Hx. apply negb_true_iff in H1. unfold mem in H1. apply not_true_iff_false in H1. apply H1. apply existsb_exists. exists x. split; [exact Hx|apply String.eqb_refl]. }
  destruct verbose.
  - destruct (nodupb _) eqn:E; [|discriminate]. intros H. injection H as <- _. split; [apply HN, E|].
    rewrite flat_map_concat_map, map_map. reflexivity.
  - destruct (nodupb (concat (map snd (map fst parts)))) eqn:E; [|discriminate]. rewrite E. intros H. injection H as <- _.
    split; [apply HN, E|]. rewrite flat_map_concat_map, map_map. f_equal. apply map_ext. intros p. symmetry. apply map_id.
Qed.
Print Assumptions C112_names.

(** C112: if all parts have the same rows, their order is kept; otherwise the result is sorted by ID and
    time. *)
Theorem C112_order :
  forall (V : Type) (isna : V -> bool) verbose (parts : list (string * list string * list (row (list V)))) p names G,
  hstack isna verbose (p :: parts) = Ok (names, G) ->
  let keys F := map (fun r => (rid r, rtime r)) F in
  ((forall q, In q parts -> keys (snd q) = keys (snd p)) -> exists f, keys G = filter f (keys (snd p))) /\
  ((exists q, In q parts /\ keys (snd q) <> keys (snd p)) -> StronglySorted Earlier G).
Proof.
  intros V isna verbose parts p names G HG keys. apply hstack_ok in HG. subst G. cbn [map].
  split.
  - intros H. exists (fun k => match complete isna (map (fun F => lookup F k) (snd p :: map snd parts)) with Some _ => true | None => false end).
    change (map rkey (join isna (snd p :: map snd parts)) = filter (fun k => match complete isna (map (fun F => lookup F k) (snd p :: map snd parts)) with Some _ => true | None => false end) (keys (snd p))).
    rewrite join_keys. f_equal. unfold joined_index.
    replace (forallb (fun G => keys_eqb (TscModel.index (snd p)) (TscModel.index G)) (map snd parts)) with true; [reflexivity|].
    symmetry. apply forallb_forall. intros F HF. apply in_map_iff in HF. destruct HF as (q & <- & Hq). apply keys_eqb_eq. symmetry. exact (H q Hq).
  - intros (q & Hq & Hne).
    assert (HS : StronglySorted key_lt (map rkey (join isna (snd p :: map snd parts)))).
    { rewrite join_keys. unfold joined_index.
      replace (forallb (fun G => keys_eqb (TscModel.index (snd p)) (TscModel.index G)) (map snd parts)) with false.
      - apply filter_sorted, sort_sorted.
      - symmetry. apply not_true_is_false. intros E. rewrite forallb_forall in E.
        specialize (E (snd q) (in_map snd _ _ Hq)). apply keys_eqb_eq in E. apply Hne. symmetry. exact E. }
    revert HS. generalize (join isna (snd p :: map snd parts)). intros G HS.
    induction G as [|r G IH]; [constructor|]. cbn in HS. inversion HS as [|? ? HS1 HF]; subst.
    constructor; [apply IH, HS1|]. rewrite Forall_forall in *. intros r' Hr'. exact (HF (rkey r') (in_map rkey _ _ Hr')).
Qed.
Print Assumptions C112_order.

(** C112 (refuted): so the order of the series changes, although the identity keeps it. *)
Theorem C112_series_order_refuted :
  let X := [mkRow 7 0 [1]; mkRow 7 1 [2]; mkRow 3 0 [3]; mkRow 3 1 [4]] in
  let Y := [mkRow 7 1 [12]; mkRow 3 1 [34]] in
  ValidRows X /\ ValidRows Y /\
  hstack (fun _ => false) true [("id", ["x"], X); ("tde", ["x:d1"], Y)]%string =
    Ok (["id__x"; "tde__x:d1"]%string, [mkRow 3 1 [4; 34]; mkRow 7 1 [2; 12]]).
Proof.
  cbn zeta. split; [|split; [|reflexivity]].
  - exact (proj1 (proj1 (tsc_ok [mkRow 7 0 [1]; mkRow 7 1 [2]; mkRow 3 0 [3]; mkRow 3 1 [4]] _) eq_refl)).
  - exact (proj1 (proj1 (tsc_ok [mkRow 7 1 [12]; mkRow 3 1 [34]] _) eq_refl)).
Qed.
Print Assumptions C112_series_order_refuted.

(** C112: only the columns of the transformers that are not dropped matter, not their places in the data and
    not the other columns. *)
Theorem C112_columns :
  forall (V : Type) (isna : V -> bool) verbose (es : list entry) names names' (X X' : list (row (list V))),
  (forall name tr cs c, In (name, tr, cs) es -> tr <> Drop -> In c cs -> In c names /\ In c names') ->
  (forall r, In r X -> List.length (rval r) = List.length names) ->
  (forall r, In r X' -> List.length (rval r) = List.length names') ->
  SameColumns (concat (map snd es)) names names' X X' ->
  col_transform isna verbose es names X = col_transform isna verbose es names' X'.
Proof.
  intros V isna verbose es names names' X X' HC HW HW' HS. unfold col_transform. f_equal. apply run_same; [|exact HW|exact HW'|].
  - intros c Hc. unfold used in Hc. apply in_flat_map in Hc. destruct Hc as ([[name tr] cs] & He & Hc). cbn in Hc.
    destruct tr; [destruct Hc| |]; eapply HC; eauto; discriminate.
  - unfold SameColumns in *. eapply forall2_impl; [|exact HS]. intros r r' (E1 & E2 & E3). split; [exact E1|]. split; [exact E2|].
    intros c Hc. apply E3. unfold used in Hc. apply in_flat_map in Hc. destruct Hc as ([[name tr] cs] & He & Hc). cbn in Hc.
    apply in_concat. exists cs. split; [exact (in_map snd _ _ He)|destruct tr; [destruct Hc| |]; exact Hc].
Qed.
Print Assumptions C112_columns.

(** C112: data without a column that a transformer needs is never transformed. *)
Theorem C112_missing_column :
  forall (V : Type) (isna : V -> bool) verbose (es : list entry) names (X : list (row (list V))) name tr cs c out,
  In (name, tr, cs) es -> tr <> Drop -> In c cs -> ~ In c names ->
  col_transform isna verbose es names X <> Ok out.
Proof.
  intros V isna verbose es names X name tr cs c out He HD Hc HN.
  assert (H : forall ps, run es names X <> Ok ps).
  { induction es as [|[[name' tr'] cs'] es IH]; [destruct He|]. intros ps. destruct He as [E|He].
    - injection E as -> -> ->. assert (HS : select names X cs = Err ValueError).
      { unfold select. destruct (positions names cs) eqn:EP; [|reflexivity]. exfalso. apply HN.
        apply (proj2 (positions_in names cs)); [congruence|exact Hc]. }
      cbn. destruct tr; [congruence| |]; rewrite HS; discriminate.
    - cbn. destruct tr' as [| |n f]; [apply IH, He| |].
      + destruct (select names X cs') as [Y|]; cbn; [|discriminate].
        destruct (run es names X) as [ps'|] eqn:ER; cbn; [exfalso; exact (IH He ps' eq_refl)|discriminate].
      + destruct (select names X cs') as [Y|]; cbn; [|discriminate]. destruct (f cs' Y); cbn; [|discriminate].
        destruct (run es names X) as [ps'|] eqn:ER; cbn; [exfalso; exact (IH He ps' eq_refl)|discriminate]. }
  unfold col_transform. destruct (run es names X) as [ps|] eqn:E; [exfalso; exact (H ps eq_refl)|discriminate].
Qed.
Print Assumptions C112_missing_column.

(** C112: [n_features_out_] is the sum over the transformers, if all entries are transformers. *)
Theorem C112_n_features_out :
  forall (V : Type) (es : list (@entry V)) (ns : list nat),
  Forall2 (fun e n => exists f, snd (fst e) = Tr n f) es ns -> n_features_out es = Ok (list_sum ns).
Proof.
  intros V es ns H. induction H as [|e n es ns (f & E) H IH]; [reflexivity|].
  cbn. rewrite E. unfold n_features_out in IH. rewrite IH. reflexivity.
Qed.
Print Assumptions C112_n_features_out.

(** C112 (refuted): with the default (drop), and also with "passthrough", [n_features_out_] fails as soon
    as one column of the data is not used. *)
Theorem C112_n_features_out_refuted :
  forall (V : Type) (es : list (@entry V)) remainder names c,
  remainder = Drop \/ remainder = Passthrough -> In c names -> ~ In c (concat (map snd es)) ->
  n_features_out (with_remainder es remainder names) = Err AttributeError.
Proof.
  intros V es remainder names c HR Hin HN. unfold with_remainder.
  destruct (filter (fun c => negb (mem c (concat (map snd es)))) names) as [|d ds] eqn:E.
  - exfalso. assert (HI : In c (filter (fun c => negb (mem c (concat (map snd es)))) names)).
    { apply filter_In. split; [exact Hin|]. apply negb_true_iff. apply not_true_is_false. intros HM. apply HN.
      unfold mem in HM. apply existsb_exists in HM. destruct HM as (x & Hx & EX). apply String.eqb_eq in EX. subst. exact Hx. }
    rewrite E in HI. destruct HI.
  - unfold n_features_out. rewrite fold_right_app. cbn.
    replace (match remainder with Tr n _ => Ok (n + 0)%nat | _ => Err AttributeError end) with (@Err nat AttributeError) by (destruct HR; subst; reflexivity).
    replace (fold_right _ _ es) with (@Err nat AttributeError); [reflexivity|].
    clear. induction es as [|[[n tr] cs] es IH]; [reflexivity|]. cbn. destruct tr; [reflexivity|reflexivity|]. rewrite <- IH. reflexivity.
Qed.
Print Assumptions C112_n_features_out_refuted.

(** Identity for x, one delay for y; the column z is dropped. *)
Example C112_example :
  let X := [mkRow 0 0 [1; 10; 5]; mkRow 0 1 [2; 20; 5]; mkRow 0 2 [3; 30; 5]; mkRow 4 0 [4; 40; 5]; mkRow 4 1 [5; 50; 5]] in
  let delay (cs : list string) (Y : list (row (list Z))) :=
    Ok (["y"; "y:d1"]%string, flat_map (fun p => if rid (fst p) =? rid (snd p) then [mkRow (rid (snd p)) (rtime (snd p)) (rval (snd p) ++ rval (fst p))] else []) (combine Y (tl Y))) in
  let es := [("a", Tr 1 (fun cs Y => Ok (cs, Y)), ["x"]); ("b", Tr 2 delay, ["y"])]%string in
  col_transform (fun _ => false) true (with_remainder es Drop ["x"; "y"; "z"]%string) ["x"; "y"; "z"]%string X =
    Ok (["a__x"; "b__y"; "b__y:d1"]%string, [mkRow 0 1 [2; 20; 10]; mkRow 0 2 [3; 30; 20]; mkRow 4 1 [5; 50; 40]]) /\
  n_features_out es = Ok 3%nat.
Proof. split; reflexivity. Qed.
