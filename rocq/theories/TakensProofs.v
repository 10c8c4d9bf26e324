(** * Proofs about the Takens embedding. *)

From Coq Require Import List ZArith Bool Arith Lia Sorted Permutation.
From Coq Require Import ZifyBool ZifyNat.
Import ListNotations.
From Verif Require Import Np NpFacts TscModel TscSpec TscBlocks TscProofs TscDt TscShift TscOps TscBuild TakensModel TakensSpec.
Close Scope Z_scope.
Open Scope nat_scope.

Lemma arange3_count delays f : 1 <= f -> np_arange3 1 (delays * f + 1) f = map (fun j => 1 + j * f) (seq 0 delays).
Proof.
  intros Hf. unfold np_arange3. do 2 f_equal.
  replace (delays * f + 1 - 1 + f - 1) with ((f - 1) + delays * f) by lia.
  rewrite Nat.div_add by lia. rewrite Nat.div_small by lia. reflexivity.
Qed.

Lemma delay_indices_eq lag delays f : 1 <= f ->
  delay_indices lag delays f = map (fun j => lag + 1 + (j - 1) * f) (seq 1 delays).
Proof.
  intros Hf. unfold delay_indices. rewrite arange3_count by exact Hf. rewrite map_map, <- seq_shift, map_map.
  apply map_ext. intros j. replace (S j - 1) with j by lia. lia.
Qed.

Lemma max_delay_mono (g : nat -> nat) : forall n s, (forall a b, a <= b -> g a <= g b) ->
  max_delay (map g (seq s (S n))) = g (s + n).
Proof.
  intros n. induction n as [|n IH]; intros s Hm.
  - simpl. rewrite Nat.max_0_r, Nat.add_0_r. reflexivity.
  - cbn [seq map]. change (max_delay (g s :: ?l)) with (Nat.max (g s) (max_delay l)).
    change (g (S s) :: map g (seq (S (S s)) n)) with (map g (seq (S s) (S n))).
    rewrite IH by exact Hm. replace (S s + n) with (s + S n) by lia.
    apply Nat.max_r. apply Hm. lia.
Qed.

Lemma max_delay_eq lag delays f : 1 <= f -> 1 <= delays ->
  max_delay (delay_indices lag delays f) = lag + 1 + (delays - 1) * f.
Proof.
  intros Hf Hd. rewrite delay_indices_eq by exact Hf. destruct delays as [|n]; [lia|].
  rewrite (max_delay_mono (fun j => lag + 1 + (j - 1) * f)).
  - reflexivity.
  - intros a b Hab. assert ((a - 1) * f <= (b - 1) * f) by (apply Nat.mul_le_mono_r; lia). lia.
Qed.

Section Lists.
Context {A : Type}.

Lemma skipn_nth (d : A) : forall (l : list A) a, skipn a l = map (fun t => nth t l d) (seq a (length l - a)).
Proof.
  induction l as [|x l IH]; intros [|a]; try reflexivity.
  - simpl. f_equal. specialize (IH 0). simpl in IH. rewrite Nat.sub_0_r in IH. rewrite IH at 1.
    rewrite <- seq_shift, map_map. reflexivity.
  - cbn [skipn length]. rewrite IH. rewrite <- seq_shift, map_map. reflexivity.
Qed.

Lemma nth_firstn_lt (d : A) : forall n (l : list A) a, a < n -> nth a (firstn n l) d = nth a l d.
Proof.
  induction n as [|n IH]; intros l a H; [lia|]. destruct l as [|x l]; [reflexivity|].
  destruct a as [|a]; [reflexivity|]. simpl. apply IH. lia.
Qed.

Lemma slice_neg_eq (d0 : A) (l : list A) md d : d <= md -> md <= length l ->
  slice_neg (md - d) d l = map (fun t => nth (t - d) l d0) (seq md (length l - md)).
Proof.
  intros H1 H2. unfold slice_neg. rewrite (skipn_nth d0). rewrite firstn_length, Nat.min_l by lia.
  replace (length l - d - (md - d)) with (length l - md) by lia.
  replace (seq md (length l - md)) with (map (fun t => d + t) (seq (md - d) (length l - md))).
  2:{ generalize (length l - md). intros n. replace md with (d + (md - d)) at 2 by lia.
      generalize (md - d). induction n as [|n IH]; intros s; [reflexivity|]. simpl. f_equal.
      rewrite IH. f_equal. lia. }
  rewrite map_map. apply map_ext_in. intros t Ht. apply in_seq in Ht.
  rewrite nth_firstn_lt by lia. f_equal. lia.
Qed.
End Lists.

Section Takens.
Context {E : Type}.
Variable mul : E -> E -> E.
Notation frame := (list (row (list E))).

Lemma hstack2_map {B} (f g : B -> list E) l : hstack2 (map f l) (map g l) = map (fun t => f t ++ g t) l.
Proof. induction l as [|x l IH]; [reflexivity|]. simpl. rewrite IH. reflexivity. Qed.

Lemma hstack_maps {B C} (g : C -> B -> list E) (cs : list C) l : cs <> [] ->
  hstack (map (fun c => map (g c) l) cs) = map (fun t => flat_map (fun c => g c t) cs) l.
Proof.
  intros Hne. destruct cs as [|c cs]; [congruence|]. cbn [map hstack]. clear Hne.
  assert (H : forall (cs : list C) (f : B -> list E), fold_left hstack2 (map (fun c => map (g c) l) cs) (map f l)
     = map (fun t => f t ++ flat_map (fun c => g c t) cs) l).
  { clear. induction cs as [|c cs IH]; intros f; simpl.
    - apply map_ext. intros t. rewrite app_nil_r. reflexivity.
    - rewrite hstack2_map, IH. apply map_ext. intros t. rewrite app_assoc. reflexivity. }
  rewrite H. reflexivity.
Qed.

Lemma vec_mul_app x1 : forall y1 x2 y2, length x1 = length y1 ->
  vec_mul mul (x1 ++ x2) (y1 ++ y2) = vec_mul mul x1 y1 ++ vec_mul mul x2 y2.
Proof.
  induction x1 as [|a x1 IH]; intros [|b y1] x2 y2 H; try discriminate; [reflexivity|].
  simpl. f_equal. apply IH. simpl in H. lia.
Qed.

Lemma vec_mul_repeat x c : vec_mul mul x (repeat c (length x)) = map (fun a => mul a c) x.
Proof. induction x as [|a x IH]; [reflexivity|]. simpl. rewrite IH. reflexivity. Qed.

Lemma vec_mul_kappa (decay : nat -> E) nf (f : nat -> list E) js :
  (forall j, In j js -> length (f j) = nf) ->
  vec_mul mul (flat_map f js) (flat_map (fun j => repeat (decay j) nf) js)
  = flat_map (fun j => map (fun a => mul a (decay j)) (f j)) js.
Proof.
  induction js as [|j js IH]; intros H; [reflexivity|]. cbn [flat_map].
  assert (Hj : length (f j) = nf) by (apply H; left; reflexivity).
  rewrite vec_mul_app by (rewrite repeat_length; exact Hj).
  rewrite IH by (intros k Hk; apply H; right; exact Hk). f_equal. rewrite <- Hj. apply vec_mul_repeat.
Qed.

Lemma sample_nth (s : frame) p : sample s p = nth p (to_numpy s) [].
Proof.
  unfold sample, to_numpy. revert p. induction s as [|r s IH]; intros [|p]; simpl; auto.
Qed.

Lemma nth_error_lt {A} (l : list A) t : t < length l -> exists r, nth_error l t = Some r.
Proof. intros H. destruct (nth_error l t) eqn:Et; [eauto|]. apply nth_error_None in Et. lia. Qed.

Lemma zip_rows_maps (s : frame) (f : nat -> list E) ts : (forall t, In t ts -> t < length s) ->
  zip_rows (map (fun t => nth t (ids_index s) 0%Z) ts) (map (fun t => nth t (time_index s) 0%Z) ts) (map f ts)
  = flat_map (fun t => match nth_error s t with
                       | Some r => [mkRow (rid r) (rtime r) (f t)]
                       | None => [] end) ts.
Proof.
  induction ts as [|t ts IH]; intros H; [reflexivity|].
  assert (Ht : t < length s) by (apply H; left; reflexivity).
  specialize (IH (fun x Hx => H x (or_intror Hx))).
  destruct (nth_error_lt s t Ht) as (r & Er). cbn [flat_map]. rewrite Er. cbn [app].
  rewrite <- IH. unfold zip_rows. cbn [map combine fst snd].
  assert (E1 : nth t (ids_index s) 0%Z = rid r).
  { apply nth_error_nth. unfold ids_index. rewrite nth_error_map, Er. reflexivity. }
  assert (E2 : nth t (time_index s) 0%Z = rtime r).
  { apply nth_error_nth. unfold time_index. rewrite nth_error_map, Er. reflexivity. }
  rewrite E1, E2. reflexivity.
Qed.

Lemma takens_series_spec lag delays f nf decay (s : frame) :
  1 <= f -> 1 <= delays -> lag + 1 + (delays - 1) * f <= length s -> Width nf s ->
  takens_series mul (delay_indices lag delays f) delays nf decay s = embedded mul lag delays f decay s.
Proof.
  intros Hf Hd Hlen Hw. unfold takens_series, embedded. rewrite max_delay_eq by assumption.
  set (md := lag + 1 + (delays - 1) * f) in *.
  assert (Hlv : length (to_numpy s) = length s) by apply map_length.
  assert (Hli : length (ids_index s) = length s) by apply map_length.
  assert (Hlt : length (time_index s) = length s) by apply map_length.
  rewrite (skipn_nth 0%Z (ids_index s)), (skipn_nth 0%Z (time_index s)), (skipn_nth [] (to_numpy s)).
  rewrite Hlv, Hli, Hlt.
  assert (Hbound : forall d, In d (delay_indices lag delays f) -> d <= md).
  { intros d Hin. rewrite delay_indices_eq in Hin by exact Hf. apply in_map_iff in Hin.
    destruct Hin as (j & <- & Hj). apply in_seq in Hj. unfold md.
    assert ((j - 1) * f <= (delays - 1) * f) by (apply Nat.mul_le_mono_r; lia). lia. }
  assert (HE : hstack (map (fun d => slice_neg (md - d) d (to_numpy s)) (delay_indices lag delays f))
     = map (fun t => flat_map (fun j => sample s (t - (lag + 1 + (j - 1) * f))) (seq 1 delays))
           (seq md (length s - md))).
  { rewrite (map_ext_in _ (fun d => map (fun t => nth (t - d) (to_numpy s) []) (seq md (length s - md)))).
    2:{ intros d Hin. rewrite (slice_neg_eq []) by (auto; lia). rewrite Hlv. reflexivity. }
    rewrite (hstack_maps (fun d t => nth (t - d) (to_numpy s) [])).
    2:{ rewrite delay_indices_eq by exact Hf. destruct delays; [lia|discriminate]. }
    apply map_ext. intros t. rewrite delay_indices_eq by exact Hf.
    generalize (seq 1 delays). induction l as [|j l IH]; [reflexivity|]. simpl. rewrite IH, sample_nth. reflexivity. }
  rewrite HE.
  assert (HE2 : match decay with
      | Some f0 => map (fun x => vec_mul mul x (kappa_vec f0 delays nf))
          (map (fun t => flat_map (fun j => sample s (t - (lag + 1 + (j - 1) * f))) (seq 1 delays)) (seq md (length s - md)))
      | None => map (fun t => flat_map (fun j => sample s (t - (lag + 1 + (j - 1) * f))) (seq 1 delays)) (seq md (length s - md))
      end = map (fun t => flat_map (fun j => scaled mul decay j (sample s (t - (lag + 1 + (j - 1) * f)))) (seq 1 delays))
            (seq md (length s - md))).
  { destruct decay as [g|]; [|reflexivity]. rewrite map_map. apply map_ext_in. intros t Ht. apply in_seq in Ht.
    unfold kappa_vec. rewrite vec_mul_kappa; [reflexivity|].
    intros j Hj. apply in_seq in Hj.
    assert (Hb : t - (lag + 1 + (j - 1) * f) < length s) by lia.
    destruct (nth_error_lt s _ Hb) as (r & Er). unfold sample. rewrite Er. apply Hw.
    eapply nth_error_In. exact Er. }
  rewrite HE2. rewrite hstack2_map.
  rewrite zip_rows_maps by (intros t Ht; apply in_seq in Ht; lia).
  apply flat_map_ext. intros t. destruct (nth_error s t); [|reflexivity].
  unfold embedded_at. rewrite sample_nth. reflexivity.
Qed.

Lemma validate_ok lag delays f p : takens_validate lag delays f = Ok p ->
  p = (Z.to_nat lag, Z.to_nat delays, Z.to_nat f) /\ (0 <= lag /\ 1 <= delays /\ 1 <= f /\ (f = 1 \/ 2 <= delays))%Z.
Proof.
  unfold takens_validate. destruct (lag <? 0)%Z eqn:E1; [discriminate|].
  destruct (delays <? 1)%Z eqn:E2; [discriminate|]. destruct (f <? 1)%Z eqn:E3; [discriminate|].
  destruct ((1 <? f) && (delays <=? 1))%Z eqn:E4; [discriminate|]. intros H. injection H as <-.
  split; [reflexivity|]. lia.
Qed.

Lemma validate_iff lag delays f : (exists p, takens_validate lag delays f = Ok p) <->
  (0 <= lag /\ 1 <= delays /\ 1 <= f /\ (f = 1 \/ 2 <= delays))%Z.
Proof.
  split.
  - intros (p & H). apply validate_ok in H. tauto.
  - intros H. unfold takens_validate. replace (lag <? 0)%Z with false by lia.
    replace (delays <? 1)%Z with false by lia. replace (f <? 1)%Z with false by lia.
    replace ((1 <? f) && (delays <=? 1))%Z with false by lia. eauto.
Qed.

Lemma Width_rows nf (F : frame) i : Width nf F -> Width nf (rows_of F i).
Proof. intros H r Hr. apply filter_In in Hr. apply H, Hr. Qed.

Lemma takens_fit_ok k lag delays f decay nf (F : frame) T :
  takens_fit k lag delays f decay nf F = Ok T ->
  (0 <= lag /\ 1 <= delays /\ 1 <= f)%Z /\
  T = mkTakens (delay_indices (Z.to_nat lag) (Z.to_nat delays) (Z.to_nat f)) (Z.to_nat delays) nf decay (tk_dt T).
Proof.
  unfold takens_fit. destruct (takens_validate lag delays f) as [p|] eqn:Ev; [|discriminate].
  apply validate_ok in Ev. destruct Ev as (-> & Hp).
  destruct (check_const_time_delta k F); [|discriminate].
  destruct (check_required_min_timesteps _ _); [|discriminate]. intros H. injection H as <-.
  split; [tauto|reflexivity].
Qed.

Lemma takens_transform_ok k lag delays f decay nf (X F : frame) T G :
  takens_fit k lag delays f decay nf X = Ok T -> Width nf F -> F <> [] ->
  takens_transform mul k T F = Ok G ->
  G = flat_map (fun i => embedded mul (Z.to_nat lag) (Z.to_nat delays) (Z.to_nat f) decay (rows_of F i)) (ids F).
Proof.
  intros HT HW Hne HG. apply takens_fit_ok in HT. destruct HT as ((H1 & H2 & H3) & ET).
  unfold takens_transform in HG. rewrite ET in HG. cbn [tk_ds tk_delays tk_nf tk_decay] in HG.
  destruct (check_required_time_delta _ _ _); [|discriminate].
  destruct (check_required_min_timesteps F _) as [[]|] eqn:Em; [|discriminate].
  apply tsc_ok in HG. destruct HG as (_ & ->).
  rewrite (min_timesteps_ok F _ Hne) in Em.
  rewrite max_delay_eq in Em by lia.
  rewrite !flat_map_concat_map. f_equal. apply map_ext_in. intros i Hi. apply in_ids in Hi.
  apply takens_series_spec; try lia.
  - specialize (Em i Hi). change (group F i) with (rows_of F i). lia.
  - apply Width_rows. exact HW.
Qed.

Lemma takens_short_rejected k lag delays f decay nf (X F : frame) T G :
  takens_fit k lag delays f decay nf X = Ok T -> F <> [] ->
  takens_transform mul k T F = Ok G ->
  (forall i, Occurs F i -> lag + 1 + (delays - 1) * f + 1 <= Z.of_nat (length (rows_of F i)))%Z.
Proof.
  intros HT Hne HG i Hi. apply takens_fit_ok in HT. destruct HT as ((H1 & H2 & H3) & ET).
  unfold takens_transform in HG. rewrite ET in HG. cbn [tk_ds tk_delays tk_nf tk_decay] in HG.
  destruct (check_required_time_delta _ _ _); [|discriminate].
  destruct (check_required_min_timesteps F _) as [[]|] eqn:Em; [|discriminate].
  rewrite (min_timesteps_ok F _ Hne) in Em. specialize (Em i Hi). rewrite max_delay_eq in Em by lia. nia.
Qed.

(** ** success *)

Lemma embedded_series lag delays f decay (s : frame) i :
  (forall r, In r s -> rid r = i) ->
  embedded mul lag delays f decay s
  = series_rows i (flat_map (fun t => match nth_error s t with
        | Some r => [(rtime r, embedded_at mul lag delays f decay s t)] | None => [] end)
      (seq (lag + 1 + (delays - 1) * f) (length s - (lag + 1 + (delays - 1) * f)))).
Proof.
  intros Hi. unfold embedded, series_rows.
  generalize (seq (lag + 1 + (delays - 1) * f) (length s - (lag + 1 + (delays - 1) * f))).
  induction l as [|t l IH]; [reflexivity|]. simpl. rewrite map_app, IH. f_equal.
  destruct (nth_error s t) as [r|] eqn:Er; [|reflexivity]. simpl.
  rewrite (Hi r (nth_error_In _ _ Er)). reflexivity.
Qed.

Lemma sub_times_sorted (s : frame) (g : nat -> list E) : forall n a,
  StronglySorted Z.lt (map rtime s) ->
  StronglySorted Z.lt (map fst (flat_map (fun t => match nth_error s t with
        | Some r => [(rtime r, g t)] | None => [] end) (seq a n))).
Proof.
  intros n. induction n as [|n IH]; intros a H; [constructor|]. cbn [seq flat_map]. rewrite map_app.
  destruct (nth_error s a) as [r|] eqn:Er; [|apply IH; exact H]. simpl. constructor; [apply IH; exact H|].
  apply Forall_forall. intros x Hx. apply in_map_iff in Hx. destruct Hx as ((t' & v) & <- & Hx).
  apply in_flat_map in Hx. destruct Hx as (b & Hb & Hx). apply in_seq in Hb.
  destruct (nth_error s b) as [r'|] eqn:Er'; [|destruct Hx]. destruct Hx as [Hx|[]]. injection Hx as <- _. simpl.
  assert (Hab : a < b) by lia. clear - H Er Er' Hab. revert a b Er Er' Hab.
  induction s as [|y s IHs]; intros a b Er Er' Hab; [destruct a; discriminate|].
  simpl in H. inversion H as [|? ? Hs Hf]; subst. destruct b as [|b]; [lia|]. simpl in Er'.
  destruct a as [|a].
  - simpl in Er. injection Er as <-. rewrite Forall_forall in Hf. apply Hf. apply in_map. eapply nth_error_In; exact Er'.
  - simpl in Er. apply (IHs Hs a b Er Er'). lia.
Qed.

Lemma takens_transform_total k lag delays f decay nf (X F : frame) T :
  ValidRows F -> Width nf F -> takens_fit k lag delays f decay nf X = Ok T ->
  check_required_time_delta k F (tk_dt T) = Ok tt ->
  (forall i, Occurs F i -> lag + 1 + (delays - 1) * f + 1 <= Z.of_nat (length (rows_of F i)))%Z ->
  exists G, takens_transform mul k T F = Ok G.
Proof.
  intros HV HW HT Hdt Hlen. assert (HT' := takens_fit_ok _ _ _ _ _ _ _ _ HT). destruct HT' as ((H1 & H2 & H3) & ET).
  unfold takens_transform. rewrite Hdt. rewrite ET. cbn [tk_ds tk_delays tk_nf tk_decay].
  set (md := Z.to_nat lag + 1 + (Z.to_nat delays - 1) * Z.to_nat f).
  assert (Hmd : forall i, Occurs F i -> md + 1 <= length (rows_of F i)).
  { intros i Hi. specialize (Hlen i Hi). unfold md. nia. }
  assert (Em : check_required_min_timesteps F (max_delay (delay_indices (Z.to_nat lag) (Z.to_nat delays) (Z.to_nat f)) + 1) = Ok tt).
  { apply (min_timesteps_ok F _ (vr_nonempty _ HV)). rewrite max_delay_eq by lia. exact Hmd. }
  rewrite Em.
  rewrite (flat_map_concat_map _ (ids F)).
  set (ts := fun i => flat_map (fun t => match nth_error (rows_of F i) t with
        | Some r => [(rtime r, embedded_at mul (Z.to_nat lag) (Z.to_nat delays) (Z.to_nat f) decay (rows_of F i) t)] | None => [] end)
      (seq md (length (rows_of F i) - md))).
  rewrite (map_ext_in _ (fun i => series_rows i (ts i))).
  2:{ intros i Hi. apply in_ids in Hi. change (group F i) with (rows_of F i).
      rewrite takens_series_spec; try lia; [|specialize (Hmd i Hi); fold md; lia|apply Width_rows; exact HW].
      apply embedded_series. intros r Hr. apply filter_In in Hr. destruct Hr as (_ & Hr). lia. }
  assert (EF : concat (map (fun i => series_rows i (ts i)) (ids F)) = flatten (map (fun i => (i, ts i)) (ids F))).
  { unfold flatten. rewrite flat_map_concat_map, map_map. reflexivity. }
  rewrite EF. exists (flatten (map (fun i => (i, ts i)) (ids F))). apply tsc_ok. split; [|reflexivity].
  apply wfb_valid. constructor.
  - assert (H := ids_nonempty F (vr_nonempty _ HV)). destruct (ids F); [congruence|discriminate].
  - rewrite map_map. simpl. rewrite map_id. apply np_unique_NoDup.
  - intros b Hb. apply in_map_iff in Hb. destruct Hb as (i & <- & Hi). cbn [fst snd]. apply in_ids in Hi.
    assert (HL := Hmd i Hi). repeat split.
    + unfold ts. replace (length (rows_of F i) - md) with (S (length (rows_of F i) - md - 1)) by lia.
      cbn [seq flat_map]. destruct (nth_error_lt (rows_of F i) md ltac:(lia)) as (r & ->). discriminate.
    + destruct Hi as (r & Hr & <-). apply (vr_ids _ HV). exact Hr.
    + intros p Hp. unfold ts in Hp. apply in_flat_map in Hp. destruct Hp as (t & _ & Hp).
      destruct (nth_error (rows_of F i) t) as [r|] eqn:Er; [|destruct Hp]. destruct Hp as [<-|[]]. simpl.
      apply nth_error_In in Er. apply filter_In in Er. apply (vr_times _ HV), Er.
    + unfold ts. apply sub_times_sorted. apply (times_of_sorted F i HV).
Qed.

(** ** names and inverse *)

Lemma names_length nf ds : length (takens_names nf ds) = (length ds + 1) * nf.
Proof.
  unfold takens_names. rewrite app_length, map_length, seq_length.
  induction ds as [|d ds IH]; simpl in *; [lia|]. rewrite app_length, map_length, seq_length. lia.
Qed.

Lemma embedded_at_length lag delays f decay nf (s : frame) t :
  Width nf s -> t < length s ->
  length (embedded_at mul lag delays f decay s t) = (delays + 1) * nf.
Proof.
  intros Hw Ht. unfold embedded_at.
  assert (Hs : forall p, p < length s -> length (sample s p) = nf).
  { intros p Hp. destruct (nth_error_lt s p Hp) as (r & Er). unfold sample. rewrite Er. apply Hw. eapply nth_error_In; exact Er. }
  rewrite app_length, (Hs t Ht).
  assert (H : forall js, length (flat_map (fun j => scaled mul decay j (sample s (t - (lag + 1 + (j - 1) * f)))) js) = length js * nf).
  { induction js as [|j js IH]; [reflexivity|]. cbn [flat_map length]. rewrite app_length, IH.
    assert (length (scaled mul decay j (sample s (t - (lag + 1 + (j - 1) * f)))) = nf).
    { unfold scaled. destruct decay; rewrite ?map_length; apply Hs; lia. }
    lia. }
  rewrite H, seq_length. lia.
Qed.

Lemma lookup_orig c : forall n s (x : list E) names rest,
  length x = n -> s <= c < s + n ->
  lookup_label (map LOrig (seq s n) ++ names) (x ++ rest) (LOrig c) = nth_error x (c - s).
Proof.
  induction n as [|n IH]; intros s x names rest Hl Hc; [lia|].
  destruct x as [|a x]; [discriminate|]. cbn [seq map app lookup_label label_eqb].
  destruct (s =? c) eqn:Ec.
  - replace (c - s) with 0 by lia. reflexivity.
  - rewrite IH; [|simpl in Hl; lia|lia]. replace (c - s) with (S (c - S s)) by lia. reflexivity.
Qed.

Lemma select_orig nf ds (x rest : list E) : length x = nf ->
  select_labels (takens_names nf ds) (x ++ rest) (map LOrig (seq 0 nf)) = x.
Proof.
  intros Hl. unfold select_labels, takens_names.
  assert (H : forall l, (forall c, In c l -> c < nf) ->
    flat_map (fun n => match lookup_label (map LOrig (seq 0 nf) ++ flat_map (fun d => map (fun c => LDelay c d) (seq 0 nf)) ds) (x ++ rest) n with
       | Some a => [a] | None => [] end) (map LOrig l) = flat_map (fun c => match nth_error x c with Some a => [a] | None => [] end) l).
  { induction l as [|c l IH]; intros Hb; [reflexivity|]. cbn [map flat_map]. rewrite IH by (intros; apply Hb; right; assumption).
    f_equal. rewrite lookup_orig by (auto; specialize (Hb c (or_introl eq_refl)); lia). rewrite Nat.sub_0_r. reflexivity. }
  rewrite H by (intros c Hc; apply in_seq in Hc; lia). clear H. subst nf.
  induction x as [|a x IH]; [reflexivity|]. cbn [length seq flat_map nth_error app]. f_equal.
  rewrite <- seq_shift. rewrite <- IH at 2. rewrite !flat_map_concat_map, map_map. reflexivity.
Qed.

Lemma flat_map_map_r {A B C} (g : B -> C) (f : A -> list B) l : map g (flat_map f l) = flat_map (fun a => map g (f a)) l.
Proof. induction l as [|a l IH]; [reflexivity|]. simpl. rewrite map_app, IH. reflexivity. Qed.

Lemma takens_round_trip k lag delays f decay nf (X F : frame) T G :
  takens_fit k lag delays f decay nf X = Ok T -> Width nf F -> F <> [] ->
  takens_transform mul k T F = Ok G ->
  takens_inverse T G = flat_map (fun i => skipn (Z.to_nat (lag + 1 + (delays - 1) * f)) (rows_of F i)) (ids F).
Proof.
  intros HT HW Hne HG. rewrite (takens_transform_ok _ _ _ _ _ _ _ _ _ _ HT HW Hne HG).
  apply takens_fit_ok in HT. destruct HT as ((H1 & H2 & H3) & ET).
  rewrite ET. unfold takens_inverse. cbn [tk_nf tk_ds]. rewrite flat_map_map_r. apply flat_map_ext. intros i.
  assert (Emd : Z.to_nat (lag + 1 + (delays - 1) * f) = Z.to_nat lag + 1 + (Z.to_nat delays - 1) * Z.to_nat f) by nia.
  rewrite Emd. unfold embedded. set (md := Z.to_nat lag + 1 + (Z.to_nat delays - 1) * Z.to_nat f).
  assert (HW' := Width_rows nf F i HW). revert HW'. generalize (rows_of F i). intros s HW'.
  rewrite flat_map_map_r.
  transitivity (flat_map (fun t => match nth_error s t with Some r => [r] | None => [] end) (seq md (length s - md))).
  - apply flat_map_ext. intros t. destruct (nth_error s t) as [r|] eqn:Er; [|reflexivity]. cbn [map rid rtime rval].
    unfold embedded_at at 1. rewrite select_orig.
    + unfold sample. rewrite Er, row_eta. reflexivity.
    + unfold sample. rewrite Er. apply HW'. eapply nth_error_In; exact Er.
  - clearbody md. clear. revert md. induction s as [|r s IH]; intros md; [destruct md; reflexivity|].
    destruct md as [|md].
    + specialize (IH 0). simpl in *. f_equal. rewrite Nat.sub_0_r in IH. rewrite <- IH at 2.
      rewrite <- seq_shift, !flat_map_concat_map, map_map. reflexivity.
    + cbn [skipn length]. rewrite <- IH. cbn [Nat.sub]. rewrite <- seq_shift, !flat_map_concat_map, map_map. reflexivity.
Qed.

(** value under a label *)
Lemma lookup_delay (c : nat) (js : list nat) (dl : nat -> nat) (x0 : list E) (f : nat -> list E) nf j :
  length x0 = nf -> (forall j, In j js -> length (f j) = nf) ->
  (forall a b, In a js -> In b js -> dl a = dl b -> a = b) ->
  In j js -> c < nf ->
  lookup_label (map LOrig (seq 0 nf) ++ flat_map (fun d => map (fun c => LDelay c d) (seq 0 nf)) (map dl js))
               (x0 ++ flat_map f js) (LDelay c (dl j)) = nth_error (f j) c.
Proof.
  intros H0 Hf Hinj Hj Hc.
  assert (Skip : forall (ls : list label) (xs : list E) names rest, length ls = length xs ->
     (forall l, In l ls -> label_eqb l (LDelay c (dl j)) = false) ->
     lookup_label (ls ++ names) (xs ++ rest) (LDelay c (dl j)) = lookup_label names rest (LDelay c (dl j))).
  { clear. induction ls as [|l ls IH]; intros [|x xs] names rest Hl Hn; try discriminate; [reflexivity|].
    simpl. rewrite (Hn l (or_introl eq_refl)). apply IH; [simpl in Hl; lia|]. intros l' Hl'. apply Hn; right; exact Hl'. }
  rewrite Skip.
  2:{ rewrite map_length, seq_length. lia. }
  2:{ intros l Hl. apply in_map_iff in Hl. destruct Hl as (a & <- & _). reflexivity. }
  clear x0 H0. induction js as [|a js IH]; [destruct Hj|]. cbn [map flat_map].
  destruct (Nat.eq_dec (dl a) (dl j)) as [Ed|Ed].
  - assert (a = j) by (apply Hinj; auto; left; reflexivity). subst a.
    assert (Hl : length (f j) = nf) by (apply Hf; left; reflexivity).
    generalize (flat_map (fun d => map (fun c0 => LDelay c0 d) (seq 0 nf)) (map dl js)). intros names.
    generalize (flat_map f js). intros rest. revert Hl. generalize (f j). intros x Hl. clear - Hl Hc.
    assert (H : forall n s (x : list E), length x = n -> s <= c < s + n ->
       lookup_label (map (fun c0 => LDelay c0 (dl j)) (seq s n) ++ names) (x ++ rest) (LDelay c (dl j)) = nth_error x (c - s)).
    { clear. induction n as [|n IH]; intros s x Hl Hc; [lia|]. destruct x as [|a x]; [discriminate|].
      cbn [seq map app lookup_label label_eqb]. rewrite Nat.eqb_refl, andb_true_r.
      destruct (s =? c) eqn:Ec.
      - replace (c - s) with 0 by lia. reflexivity.
      - rewrite IH; [|simpl in Hl; lia|lia]. replace (c - s) with (S (c - S s)) by lia. reflexivity. }
    rewrite H by (auto; lia). rewrite Nat.sub_0_r. reflexivity.
  - rewrite Skip.
    + apply IH.
      * intros b Hb. apply Hf. right; exact Hb.
      * intros b b' Hb Hb'. apply Hinj; right; assumption.
      * destruct Hj as [->|Hj]; [congruence|exact Hj].
    + rewrite map_length, seq_length. symmetry. apply Hf. left; reflexivity.
    + intros l Hl. apply in_map_iff in Hl. destruct Hl as (b & <- & _). cbn [label_eqb].
      replace (dl a =? dl j) with false by lia. apply andb_false_r.
Qed.

Lemma takens_label lag delays f decay nf (s : frame) t c j :
  1 <= f -> Width nf s -> t < length s -> c < nf -> 1 <= j <= delays ->
  lookup_label (takens_names nf (delay_indices lag delays f)) (embedded_at mul lag delays f decay s t)
     (LDelay c (lag + 1 + (j - 1) * f))
  = nth_error (scaled mul decay j (sample s (t - (lag + 1 + (j - 1) * f)))) c.
Proof.
  intros Hf Hw Ht Hc Hj. unfold takens_names, embedded_at. rewrite delay_indices_eq by exact Hf.
  assert (Hs : forall p, p < length s -> length (sample s p) = nf).
  { intros p Hp. destruct (nth_error_lt s p Hp) as (r & Er). unfold sample. rewrite Er. apply Hw. eapply nth_error_In; exact Er. }
  apply (lookup_delay c (seq 1 delays) (fun j => lag + 1 + (j - 1) * f) (sample s t)
    (fun j => scaled mul decay j (sample s (t - (lag + 1 + (j - 1) * f)))) nf j); auto.
  - intros a _. unfold scaled. destruct decay; rewrite ?map_length; apply Hs; lia.
  - intros a b Ha Hb Hab. apply in_seq in Ha. apply in_seq in Hb. nia.
  - apply in_seq. lia.
Qed.

End Takens.
