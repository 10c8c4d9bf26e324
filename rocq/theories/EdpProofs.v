(** * Proofs: prediction of EDMD models. *)

From Coq Require Import List ZArith Bool Arith Lia Sorted Permutation.
From Coq Require Import ZifyBool ZifyNat.
Import ListNotations.
From Verif Require Import Np NpFacts TscModel TscSpec TscBlocks TscProofs TscDt TscOps TscBuild TscShift TscRegular.
From Verif Require Import PredModel PredSpec PredProofs PredControl ReconModel ReconSpec ReconProofs ReconEdmd DerList.
From Verif Require Import CvModel CvWindow AccModel AccSpec AccProofs ChkModel ChkSpec ChkProofs BldModel BldSpec BldProofs BldBuild.
From Verif Require Import WinModel WinSpec WinProofs CtrModel CtrSpec CtrProofs StepModel StepProofs EdpModel EdpSpec.
Close Scope nat_scope.
Open Scope Z_scope.

Lemma combine_diag {A} (l : list A) a b : In (a, b) (combine l l) -> a = b.
Proof. induction l as [|x l IH]; cbn; [easy|]. intros [E|H]; [congruence|apply IH; exact H]. Qed.

Lemma close_eq (m : list Z) : forall l, length l = length m ->
  forallb (fun p => Z.abs (fst p - snd p) <=? 0) (combine l m) = true -> l = m.
Proof.
  induction m as [|b m IH]; intros [|a l] El Ef; try discriminate; [reflexivity|].
  cbn in Ef. apply andb_prop in Ef. destruct Ef as (E1 & E2). f_equal; [lia|]. apply IH; [cbn in El; lia|exact E2].
Qed.

Section Times.
Context {V W : Type}.

Lemma ref_nonneg (F : list (row V)) r : ValidRows F -> Reference F r -> 0 <= r.
Proof.
  intros HV HR. destruct (valid_occurs F HV) as (i & Hi). destruct (HR i Hi) as [(a & Ha & _ & <-) _].
  apply (vr_times _ HV a Ha).
Qed.

Lemma times_exact (F : list (row V)) d r tv ts : ValidRows F -> Reference F r -> 
  predict_time_values (W := W) KInt 0 0 d false (XFrame F) UNone tv = Ok ts <-> EvaluatedTimes r d tv ts.
Proof.
  intros HV HR. assert (Hr := ref_nonneg F r HV HR). unfold predict_time_values.
  rewrite (proj2 (proj1 (reference_frame KInt 0 F UNone HV) r) HR). cbn [bind].
  destruct tv as [l|]; cbn [EvaluatedTimes].
  2:{ split; [intros E; injection E as <-; reflexivity|intros ->; reflexivity]. }
  rewrite tolerance_frame. cbn [tol_of]. split.
  - intros H. apply bind_ok in H. destruct H as (l' & H1 & H). apply format_spec in H1. destruct H1 as (-> & Hs & _).
    cbn [bind] in H. destruct (existsb _ l) eqn:Ex; [discriminate|].
    assert (Hge : forall t, In t l -> r <= t).
    { intros t Ht. apply Bool.not_true_iff_false in Ex. destruct (Z_lt_le_dec t r) as [Hc|Hc]; [|exact Hc].
      exfalso. apply Ex. apply existsb_exists. exists t. split; [exact Ht|lia]. }
    destruct l as [|t0 l]; [discriminate|]. split; [discriminate|]. split; [exact Hs|]. split; [exact Hge|].
    destruct (0 <? Z.abs (r - t0)) eqn:Ec; injection H as <-.
    + right. split; [|reflexivity]. intros Hi. assert (Hm := hd_sorted_min (t0 :: l) t0 r l Hs eq_refl Hi).
      specialize (Hge t0 (or_introl eq_refl)). lia.
    + left. split; [|reflexivity]. left. lia.
  - intros (Hne & Hs & Hge & Hts).
    assert (HF : validate_time_values_format KInt l = Ok l).
    { apply format_spec. split; [reflexivity|]. split; [exact Hs|]. right. intros t Ht. specialize (Hge t Ht). lia. }
    rewrite HF. cbn [bind]. replace (existsb _ l) with false.
    2:{ symmetry. apply existsb_none_false. intros x Hx. specialize (Hge x Hx). lia. }
    destruct l as [|t0 l]; [congruence|]. destruct Hts as [(Hi & ->)|(Hi & ->)].
    + assert (Hm := hd_sorted_min (t0 :: l) t0 r l Hs eq_refl Hi). specialize (Hge t0 (or_introl eq_refl)).
      replace (0 <? Z.abs (r - t0)) with false by lia. reflexivity.
    + destruct (0 <? Z.abs (r - t0)) eqn:Ec; [reflexivity|]. exfalso. apply Hi. left. lia.
Qed.

Lemma evaluated_sorted r d tv ts : 0 < d -> EvaluatedTimes r d tv ts ->
  StronglySorted Z.lt ts /\ (forall t, In t ts -> r <= t) /\ exists rest, ts = r :: rest.
Proof.
  intros Hd. destruct tv as [l|]; cbn [EvaluatedTimes].
  - intros (Hne & Hs & Hge & [(Hi & ->)|(Hi & ->)]).
    + split; [exact Hs|]. split; [exact Hge|]. destruct l as [|t0 l]; [congruence|]. exists l. f_equal.
      assert (Hm := hd_sorted_min (t0 :: l) t0 r l Hs eq_refl Hi). specialize (Hge t0 (or_introl eq_refl)). lia.
    + split; [|split; [|exists l; reflexivity]].
      * constructor; [exact Hs|]. apply Forall_forall. intros x Hx. specialize (Hge x Hx).
        destruct (Z.eq_dec x r) as [->|]; [contradiction|lia].
      * intros t [<-|Ht]; [lia|apply Hge; exact Ht].
  - intros ->. split; [repeat constructor; lia|]. split; [intros t [<-|[<-|[]]]; lia|]. exists [r + d]. reflexivity.
Qed.

Lemma evaluated_again r d r' ts : StronglySorted Z.lt ts -> (forall t, In t ts -> r <= t) -> (exists rest, ts = r :: rest) ->
  EvaluatedTimes r d (Some ts) r' <-> r' = ts.
Proof.
  intros Hs Hge (rest & E). cbn [EvaluatedTimes]. assert (Hi : In r ts) by (rewrite E; left; reflexivity). split.
  - intros (_ & _ & _ & [(_ & ->)|(Hn & _)]); [reflexivity|contradiction].
  - intros ->. split; [rewrite E; discriminate|]. split; [exact Hs|]. split; [exact Hge|]. left. auto.
Qed.

Lemma single_wfb_nodup (f : Z -> V) r l : l <> [] -> NoDup l -> (forall i, In i l -> 0 <= i) -> 0 <= r ->
  wfb (single_blocks f r l).
Proof.
  intros Hne Hs Hp Hr. split.
  - destruct l; [congruence|discriminate].
  - rewrite single_fst. exact Hs.
  - intros b Hb. apply in_map_iff in Hb. destruct Hb as (i & <- & Hi). cbn [fst snd].
    split; [discriminate|]. split; [apply Hp; exact Hi|]. split; [intros p [<-|[]]; exact Hr|]. repeat constructor.
Qed.

Lemma single_rows_of (f : Z -> V) r l i : NoDup l -> In i l -> rows_of (single_rows f r l) i = [mkRow i r (f i)].
Proof.
  intros Hnd Hi. rewrite single_flatten.
  assert (Hb : In (i, [(r, f i)]) (single_blocks f r l)) by (apply in_map_iff; exists i; auto).
  assert (H := rows_of_flatten (single_blocks f r l) _ ltac:(rewrite single_fst; exact Hnd) Hb). cbn [fst] in H. rewrite H. reflexivity.
Qed.

Lemma single_one_row (f : Z -> V) r l : l <> [] -> NoDup l -> (forall i, In i l -> 0 <= i) -> 0 <= r ->
  one_row_per_series (single_rows f r l) = Ok tt.
Proof.
  intros Hne Hnd Hp Hr. assert (Wf := single_wfb_nodup f r l Hne Hnd Hp Hr).
  assert (VX : ValidRows (single_rows f r l)) by (rewrite single_flatten; apply wfb_valid, Wf).
  unfold one_row_per_series. rewrite single_flatten.
  rewrite (proj2 (n_timesteps_blocks _ 1 Wf)).
  2:{ intros b Hb. apply in_map_iff in Hb. destruct Hb as (i & <- & _). reflexivity. }
  rewrite <- single_flatten, (proj2 (is_same_time_values_spec _ VX)); [reflexivity|].
  intros i j Hi Hj. apply single_occurs in Hi, Hj. unfold times_of. rewrite !single_rows_of by assumption. reflexivity.
Qed.

End Times.

(** ** blocks built over a list of IDs *)
Section Built.
Context {V S : Type}.

Definition built (g : Z -> list (Z * V)) (l : list Z) : list (Z * list (Z * V)) := map (fun i => (i, g i)) l.

Lemma built_fst g l : map fst (built g l) = l.
Proof. unfold built. rewrite map_map. cbn. apply map_id. Qed.

Lemma built_rows g l i : NoDup l -> In i l -> rows_of (flatten (built g l)) i = series_rows i (g i).
Proof.
  intros Hnd Hi. assert (Hb : In (i, g i) (built g l)) by (apply in_map_iff; exists i; auto).
  assert (H := rows_of_flatten (built g l) _ ltac:(rewrite built_fst; exact Hnd) Hb). exact H.
Qed.

Lemma built_occurs g l i : (forall j, In j l -> g j <> []) -> Occurs (flatten (built g l)) i <-> In i l.
Proof.
  intros Hg. induction l as [|j l IH].
  - split; [intros (r & [] & _)|intros []].
  - change (built g (j :: l)) with ((j, g j) :: built g l). rewrite flatten_cons. 
    assert (IH' := IH (fun k Hk => Hg k (or_intror Hk))). split.
    + intros (r & Hr & <-). apply in_app_or in Hr. destruct Hr as [Hr|Hr].
      * left. unfold brows, series_rows in Hr. apply in_map_iff in Hr. destruct Hr as (p & <- & _). reflexivity.
      * right. apply IH'. exists r. auto.
    + intros [<-|Hi].
      * specialize (Hg j (or_introl eq_refl)). destruct (g j) as [|p s] eqn:E; [congruence|].
        exists (mkRow j (fst p) (snd p)). split; [|reflexivity]. apply in_or_app. left. unfold brows, series_rows. cbn [fst snd map]. left. reflexivity.
      * apply IH' in Hi. destruct Hi as (r & Hr & E). exists r. split; [|exact E]. apply in_or_app. right. exact Hr.
Qed.

Lemma built_wfb g l : l <> [] -> NoDup l -> (forall i, In i l -> 0 <= i) ->
  (forall i, In i l -> g i <> [] /\ (forall p, In p (g i) -> 0 <= fst p) /\ StronglySorted Z.lt (map fst (g i))) ->
  wfb (built g l).
Proof.
  intros Hne Hnd Hp Hg. split.
  - destruct l; [congruence|discriminate].
  - rewrite built_fst. exact Hnd.
  - intros b Hb. apply in_map_iff in Hb. destruct Hb as (i & <- & Hi). cbn [fst snd].
    destruct (Hg i Hi) as (H1 & H2 & H3). auto.
Qed.
End Built.

Section Proofs.
Context {V W S : Type}.
Variable finite : V -> bool.
Variable n_features : nat.
Variable order : list (row V) -> list Z.
Variable enc : list V -> S.
Variable flow : S -> Z -> S.
Variable step : S -> W -> S.
Variable out : S -> V.
Hypothesis Hnf : (1 <= n_features)%nat.

Notation predict := (edmd_predict finite n_features order enc flow step out).

(** ** initial conditions *)

Lemma ic_frame (m : edmd_fit) (F : list (row V)) (U : uin W) ts : ValidRows F -> SmallSteps F -> (1 <= n_samples_ic m)%nat ->
  Z.abs (dt m) < 100000000000 ->
  InitialConditions finite F (n_samples_ic m) (dt m) /\ initial_condition finite n_features m (XF F) U ts = Ok F \/
  ~ InitialConditions finite F (n_samples_ic m) (dt m) /\ initial_condition finite n_features m (XF F) U ts = Err TSCException.
Proof.
  intros HV HS Hn Hd. unfold initial_condition. destruct (1 <? n_samples_ic m)%nat eqn:E1.
  - destruct (ic_validate_dt finite n_features F (n_samples_ic m) (dt m) HV HS Hnf ltac:(lia) Hd)
      as [((A & B & _) & Hl & HR & E)|(HN & E)]; rewrite E; [left|right]; (split; [|reflexivity]).
    + split; [exact A|]. split; [exact B|]. split; [exact Hl|]. intros _. exact HR.
    + intros (A & B & Hl & HR). apply HN. split; [|split; [exact Hl|apply HR; lia]].
      split; [exact A|]. split; [exact B|]. intros _. exists (dt m). apply HR. lia.
  - destruct (ic_validate_decides finite n_features F (Some (n_samples_ic m)) HV HS Hnf)
      as [((A & B & _) & Hl & E)|(HN & E)]; rewrite E; [left|right]; (split; [|reflexivity]).
    + split; [exact A|]. split; [exact B|]. split; [exact (Hl _ eq_refl)|]. lia.
    + intros (A & B & Hl & _). apply HN. split.
      * split; [exact A|]. split; [exact B|]. intros (i & Hi & Hx). rewrite (Hl i Hi) in Hx. lia.
      * intros k Ek. injection Ek as <-. exact Hl.
Qed.

Lemma same_reference (F : list (row V)) : ValidRows F -> SameTimes F -> exists r, Reference F r.
Proof.
  intros HV HT. destruct (valid_occurs F HV) as (i & Hi). exists (last (times_of F i) 0). intros j Hj.
  rewrite (HT i j Hi Hj). assert (Hs := times_of_sorted F j HV). split.
  - assert (Hne : times_of F j <> []).
    { unfold times_of. apply rows_of_nonempty in Hj. destruct (rows_of F j); [congruence|discriminate]. }
    assert (Hl := last_in (times_of F j) 0 Hne). unfold times_of in Hl at 2. apply in_map_iff in Hl. destruct Hl as (q & Eq & Hq).
    apply filter_In in Hq. destruct Hq as (Hq & Eq'). exists q. split; [exact Hq|]. split; [lia|exact Eq].
  - intros q Hq Eq. apply sorted_last_max; [exact Hs|]. unfold times_of. apply in_map. apply filter_In. split; [exact Hq|lia].
Qed.

Lemma dict_rows (F : list (row V)) l r : ValidRows F -> Reference F r -> (forall i, In i l -> Occurs F i) ->
  dict_ic enc l F = single_rows (fun i => enc (values_of F i)) r l.
Proof.
  intros HV HR Hl. unfold dict_ic, single_rows. apply map_ext_in. intros i Hi. f_equal.
  apply (last_time_fun F i); [|apply HR, Hl, Hi].
  specialize (Hl i Hi). change (time_index (group F i)) with (times_of F i).
  assert (Hs := times_of_sorted F i HV). split.
  - assert (Hne : times_of F i <> []).
    { unfold times_of. apply rows_of_nonempty in Hl. destruct (rows_of F i); [congruence|discriminate]. }
    assert (HL := last_in (times_of F i) 0 Hne). unfold times_of in HL at 2. apply in_map_iff in HL. destruct HL as (q & Eq & Hq).
    apply filter_In in Hq. destruct Hq as (Hq & Eq'). exists q. split; [exact Hq|]. split; [lia|exact Eq].
  - intros q Hq Eq. apply sorted_last_max; [exact Hs|]. unfold times_of. apply in_map. apply filter_In. split; [exact Hq|lia].
Qed.

Lemma transform_ok (m : edmd_fit) (F : list (row V)) r : ValidRows F -> Reference F r -> ListsSeries F (order F) ->
  (forall i, Occurs F i -> length (rows_of F i) = n_samples_ic m) ->
  transform_ic order enc m F = Ok (single_rows (fun i => enc (values_of F i)) r (order F)).
Proof.
  intros HV HR (_ & HO) Hl. unfold transform_ic.
  rewrite (proj2 (min_timesteps_ok F (n_samples_ic m) (vr_nonempty _ HV))).
  - cbn [bind]. f_equal. apply dict_rows; [exact HV|exact HR|]. intros i Hi. apply HO. exact Hi.
  - intros i Hi. rewrite (Hl i Hi). lia.
Qed.

Lemma order_facts (F : list (row V)) : ValidRows F -> ListsSeries F (order F) ->
  order F <> [] /\ NoDup (order F) /\ forall i, In i (order F) -> 0 <= i.
Proof.
  intros HV (Hnd & HO). split; [|split; [exact Hnd|]].
  - destruct (valid_occurs F HV) as (i & Hi). apply HO in Hi. intros E. rewrite E in Hi. destruct Hi.
  - intros i Hi. apply HO in Hi. destruct Hi as (q & Hq & <-). apply (vr_ids _ HV q Hq).
Qed.

(** ** without control *)

Definition flow_block (x0 : Z -> S) (r : Z) (ts : list Z) (i : Z) : list (Z * V) :=
  map (fun t => (t, out (flow (x0 i) (t - r)))) ts.

Lemma flow_rows_built x0 r rest l :
  flat_map (flow_rows flow out (r :: rest)) (single_rows x0 r l) = flatten (built (flow_block x0 r (r :: rest)) l).
Proof.
  induction l as [|i l IH]; [reflexivity|].
  change (built (flow_block x0 r (r :: rest)) (i :: l)) with ((i, flow_block x0 r (r :: rest) i) :: built (flow_block x0 r (r :: rest)) l).
  rewrite flatten_cons. cbn [single_rows map flat_map]. f_equal; [|exact IH].
  unfold flow_rows, brows, series_rows, flow_block. cbn [rid rval fst snd hd]. rewrite map_map. reflexivity.
Qed.

Lemma predict_free_ok (m : edmd_fit) (F : list (row V)) r tv ts :
  ValidRows F -> Reference F r -> ListsSeries F (order F) -> controlled m = false -> 0 < dt m ->
  EvaluatedTimes r (dt m) tv ts ->
  exists R, predict_dict_ic flow step out m (single_rows (fun i => enc (values_of F i)) r (order F)) None ts = Ok R /\
    ValidRows R /\ Predicted enc flow out F r ts R.
Proof.
  intros HV HR HL Hc Hd HE. assert (Hr := ref_nonneg F r HV HR).
  destruct (order_facts F HV HL) as (Hne & Hnd & Hp).
  destruct (evaluated_sorted r (dt m) tv ts Hd HE) as (Hs & Hge & rest & Ets).
  set (x0 := fun i => enc (values_of F i)).
  assert (VX : ValidRows (single_rows x0 r (order F))).
  { rewrite single_flatten. apply wfb_valid, single_wfb_nodup; assumption. }
  unfold predict_dict_ic. 
  rewrite (proj2 (times_exact (W := W) _ (dt m) r (Some ts) ts VX (single_reference x0 r (order F)))).
  2:{ apply evaluated_again; [exact Hs|exact Hge|exists rest; exact Ets|reflexivity]. }
  cbn [bind]. rewrite (single_one_row x0 r (order F) Hne Hnd Hp Hr). cbn [bind]. rewrite Hc.
  rewrite Ets, flow_rows_built, <- Ets.
  assert (Hg : forall i, flow_block x0 r ts i <> []) by (intros i; rewrite Ets; discriminate).
  assert (Wf : wfb (built (flow_block x0 r ts) (order F))).
  { apply built_wfb; [assumption..|]. intros i Hi. split; [apply Hg|]. split.
    - intros p Hq. unfold flow_block in Hq. apply in_map_iff in Hq. destruct Hq as (t & <- & Ht). cbn. specialize (Hge t Ht). lia.
    - unfold flow_block. rewrite map_map. cbn. rewrite map_id. exact Hs. }
  exists (flatten (built (flow_block x0 r ts) (order F))).
  split; [apply tsc_ok; split; [apply wfb_valid, Wf|reflexivity]|]. split; [apply wfb_valid, Wf|].
  destruct HL as (_ & HO). split.
  - intros i. rewrite built_occurs by (intros; apply Hg). apply HO.
  - intros i Hi. apply HO in Hi. rewrite built_rows by assumption. unfold series_rows, flow_block. rewrite map_map. reflexivity.
Qed.

Lemma predict_free (m : edmd_fit) (F : list (row V)) tv :
  ValidRows F -> SmallSteps F -> ListsSeries F (order F) -> controlled m = false -> (1 <= n_samples_ic m)%nat ->
  0 < dt m < 100000000000 ->
  (forall r ts, InitialConditions finite F (n_samples_ic m) (dt m) -> Reference F r -> EvaluatedTimes r (dt m) tv ts ->
     exists R, predict m (XF F) (UN (W := W)) tv = Ok R /\ ValidRows R /\ Predicted enc flow out F r ts R) /\
  (forall R, predict m (XF F) (UN (W := W)) tv = Ok R ->
     InitialConditions finite F (n_samples_ic m) (dt m) /\ exists r ts, Reference F r /\ EvaluatedTimes r (dt m) tv ts).
Proof.
  intros HV HS HL Hc Hn Hd. split.
  - intros r ts HI HR HE. unfold edmd_predict. cbn [xarg_of uarg_of].
    rewrite (proj2 (times_exact (W := W) F (dt m) r tv ts HV HR) HE). cbn [bind].
    destruct (ic_frame m F (UN (W := W)) ts HV HS Hn ltac:(lia)) as [(_ & E)|(HN & _)]; [|contradiction].
    rewrite E. cbn [bind]. unfold control_of. rewrite Hc. cbn [bind].
    rewrite (transform_ok m F r HV HR HL (proj1 (proj2 (proj2 HI)))). cbn [bind].
    destruct (predict_free_ok m F r tv ts HV HR HL Hc ltac:(lia) HE) as (R & HE1 & HE2).
    exists R. split; [|exact HE2]. rewrite <- HE1. destruct (use_transform_inverse m); reflexivity.
  - intros R H. unfold edmd_predict in H. apply bind_ok in H. destruct H as (ts & HT & H).
    apply bind_ok in H. destruct H as (F' & HI & H). cbn [xarg_of uarg_of] in HT.
    destruct (ic_frame m F (UN (W := W)) ts HV HS Hn ltac:(lia)) as [(HC & _)|(_ & E)]; [|rewrite E in HI; discriminate].
    split; [exact HC|]. destruct (same_reference F HV (proj1 (proj2 HC))) as (r & HR).
    exists r, ts. split; [exact HR|]. apply (times_exact (W := W) F (dt m) r tv ts HV HR). exact HT.
Qed.

(** ** with control *)

Lemma states_nth us : forall x k, (k <= length us)%nat ->
  nth_error (states step x us) k = Some (fold_left step (firstn k us) x).
Proof.
  induction us as [|u us IH]; intros x k Hk.
  - cbn in Hk. assert (k = O) by lia. subst k. reflexivity.
  - destruct k as [|k]; [reflexivity|]. cbn [states nth_error firstn fold_left]. apply IH. cbn in Hk. lia.
Qed.

Lemma list_by_seq {A} (l : list A) (f : nat -> A) : (forall k, (k < length l)%nat -> nth_error l k = Some (f k)) ->
  l = map f (seq 0 (length l)).
Proof.
  revert f. induction l as [|a l IH]; intros f H; [reflexivity|]. cbn [length seq map]. f_equal.
  - specialize (H O ltac:(cbn; lia)). cbn in H. congruence.
  - rewrite <- seq_shift, map_map. apply IH. intros k Hk. apply (H (Datatypes.S k)). cbn. lia.
Qed.

Lemma nth_error_combine {A B} (l : list A) : forall (m : list B) k a b,
  nth_error l k = Some a -> nth_error m k = Some b -> nth_error (combine l m) k = Some (a, b).
Proof.
  induction l as [|c l IH]; intros [|d m] [|k] a b H1 H2; cbn in *; try discriminate; [congruence|]. apply IH; assumption.
Qed.

Lemma combine_states ts us x : length ts = Datatypes.S (length us) ->
  combine ts (states step x us) = map (fun k => (nth k ts 0, fold_left step (firstn k us) x)) (seq 0 (length ts)).
Proof.
  intros Hl. rewrite (list_by_seq (combine ts (states step x us))
     (fun k => (nth k ts 0, fold_left step (firstn k us) x))) at 1.
  - rewrite combine_length, states_length, Hl. f_equal. f_equal. lia.
  - intros k Hk. rewrite combine_length, states_length, Hl in Hk.
    assert (H1 : nth_error ts k = Some (nth k ts 0)) by (apply nth_error_nth'; lia).
    apply nth_error_combine; [exact H1|]. apply states_nth. lia.
Qed.

Definition control_block (x0 : Z -> S) (G : list (row W)) (ts : list Z) (i : Z) : list (Z * V) :=
  map (fun k => (nth k ts 0, out (fold_left step (firstn k (values_of G i)) (x0 i)))) (seq 0 (length ts)).

Lemma control_rows_built x0 r (G : list (row W)) ts l : (forall i, In i l -> length ts = Datatypes.S (length (values_of G i))) ->
  flat_map (control_rows step out ts) (map (fun x => (x, values_of G (rid x))) (single_rows x0 r l)) =
  flatten (built (control_block x0 G ts) l).
Proof.
  intros Hl. induction l as [|i l IH]; [reflexivity|].
  change (built (control_block x0 G ts) (i :: l)) with ((i, control_block x0 G ts i) :: built (control_block x0 G ts) l).
  rewrite flatten_cons. cbn [single_rows map flat_map]. f_equal; [|apply IH; intros j Hj; apply Hl; right; exact Hj].
  unfold control_rows, brows, series_rows, control_block, flowmap_controlled. cbn [rid rval fst snd].
  rewrite (flow_states_states step out).
  2:{ rewrite np_diff_length, (Hl i (or_introl eq_refl)). reflexivity. }
  rewrite combine_states by (apply Hl; left; reflexivity). rewrite !map_map. reflexivity.
Qed.

Lemma forall2_exact (l m : list Z) : Forall2 (fun a b => Z.abs (a - b) <= 0) l m -> l = m.
Proof. induction 1 as [|a b l m H _ IH]; [reflexivity|]. f_equal; [lia|exact IH]. Qed.

Lemma control_block_rows x0 (G : list (row W)) ts l : ts <> [] -> StronglySorted Z.lt ts -> (forall t, In t ts -> 0 <= t) ->
  l <> [] -> NoDup l -> (forall i, In i l -> 0 <= i) ->
  wfb (built (control_block x0 G ts) l).
Proof.
  intros Hts Hs Hge Hne Hnd Hp. apply built_wfb; [assumption..|]. intros i Hi.
  assert (Em : map fst (control_block x0 G ts i) = ts).
  { unfold control_block. rewrite map_map. cbn. symmetry.
    rewrite (list_by_seq ts (fun k => nth k ts 0)) at 1; [reflexivity|]. intros k Hk. apply nth_error_nth'. exact Hk. }
  split; [|split].
  - intros E. rewrite E in Em. cbn in Em. congruence.
  - intros p Hq. apply Hge. rewrite <- Em. apply in_map. exact Hq.
  - rewrite Em. exact Hs.
Qed.

Lemma ids_index_single_rows {A} (f : Z -> A) r l : ids_index (single_rows f r l) = l.
Proof. unfold ids_index, single_rows. rewrite map_map. cbn. apply map_id. Qed.

Lemma predict_dict_control (m : edmd_fit) (F : list (row V)) (G : list (row W)) r ts R :
  ValidRows F -> Reference F r -> ListsSeries F (order F) -> ValidRows G -> IdsSorted G -> 0 < dt m ->
  predict_dict_ic flow step out m (single_rows (fun i => enc (values_of F i)) r (order F)) (Some G) ts = Ok R ->
  exists us, order F = ids G /\ CommonTimes G (r :: us) /\ ts = (r :: us) ++ [last (r :: us) 0 + dt m] /\
    ValidRows R /\ PredictedControl enc step out F G ts R.
Proof.
  intros HV HR HL VG SG Hd H. assert (Hr := ref_nonneg F r HV HR).
  destruct (order_facts F HV HL) as (Hne & Hnd & Hp).
  set (x0 := fun i => enc (values_of F i)) in *.
  assert (VX : ValidRows (single_rows x0 r (order F))).
  { rewrite single_flatten. apply wfb_valid, single_wfb_nodup; assumption. }
  unfold predict_dict_ic in H. apply bind_ok in H. destruct H as ((pairs & ts') & HP & H). cbn [fst snd] in H.
  destruct (predict_controlled_inv KInt 0 0 (dt m) false _ G (Some ts) pairs ts' VX VG ltac:(lia) Hd HP)
    as (r' & us & HR' & HC & Hh & EI & _ & _ & _ & -> & HF2).
  destruct (control_matched KInt 0 0 (dt m) false _ G (Some ts) pairs ts VX VG SG ltac:(lia) Hd HP) as (EF & EU).
  assert (r' = r).
  { destruct (order F) as [|i l] eqn:EO; [congruence|].
    assert (Hi : Occurs (single_rows x0 r (i :: l)) i) by (apply single_occurs; left; reflexivity).
    apply (last_time_fun _ i r' r (HR' i Hi)). apply single_reference. exact Hi. }
  subst r'. destruct us as [|u0 us]; [discriminate|]. cbn in Hh. injection Hh as ->.
  apply forall2_exact in HF2. rewrite ids_index_single_rows in EI.
  exists us. split; [exact EI|]. split; [exact HC|]. split; [exact HF2|].
  assert (EP : pairs = map (fun x => (x, values_of G (rid x))) (single_rows x0 r (order F))).
  { rewrite <- EF, map_map. rewrite <- (map_id pairs) at 1. apply map_ext_in. intros [x u] Hq. cbn. f_equal. apply EU. exact Hq. }
  assert (HOG : forall i, In i (order F) -> Occurs G i) by (intros i Hi; apply in_ids; rewrite <- EI; exact Hi).
  assert (Hlen : forall i, In i (order F) -> length ts = Datatypes.S (length (values_of G i))).
  { intros i Hi. specialize (HC i (HOG i Hi)). apply (f_equal (@length Z)) in HC. unfold times_of in HC. rewrite map_length in HC.
    unfold values_of. rewrite map_length, HC, HF2, app_length. cbn. lia. }
  rewrite EP, control_rows_built in H by exact Hlen.
  apply tsc_ok in H. destruct H as (VR & ->). split; [exact VR|].
  assert (Hg : forall i, control_block x0 G ts i <> []).
  { intros i. unfold control_block. rewrite HF2. discriminate. }
  destruct HL as (_ & HO). split.
  - intros i. rewrite built_occurs by (intros; apply Hg). apply HO.
  - intros i Hi. apply HO in Hi. rewrite built_rows by assumption. unfold series_rows, control_block. rewrite map_map. reflexivity.
Qed.

(** Times of an accepted request with a control collection that starts at the reference time. *)
Lemma control_frame_times (F : list (row V)) (G : list (row W)) d r us tv ts : ValidRows F -> Reference F r -> ValidRows G -> 0 < d ->
  CommonTimes G (r :: us) ->
  predict_time_values KInt 0 0 d false (XFrame F) (UFrame G) tv = Ok ts <->
  ts = (r :: us) ++ [last (r :: us) 0 + d] /\ (tv = None \/ tv = Some ts).
Proof.
  intros HV HR VG Hd HC. assert (Hr := ref_nonneg F r HV HR).
  assert (HS : StronglySorted Z.lt (r :: us)).
  { destruct (valid_occurs G VG) as (i & Hi). rewrite <- (HC i Hi). apply times_of_sorted; exact VG. }
  assert (Hge : forall x, In x (r :: us) -> r <= x) by (intros x Hx; apply (hd_sorted_min (r :: us) r x us HS eq_refl Hx)).
  unfold predict_time_values.
  rewrite (proj2 (proj1 (reference_frame KInt 0 F (UFrame G) HV) r) HR). cbn [bind].
  rewrite tolerance_frame. cbn [tol_of]. rewrite (common_times G _ VG HC).
  set (ts0 := (r :: us) ++ [last (r :: us) 0 + d]).
  assert (Hin : In (last (r :: us) 0) (r :: us)) by (apply last_in; discriminate).
  assert (Hge0 : forall x, In x ts0 -> r <= x).
  { intros x Hx. apply in_app_or in Hx. destruct Hx as [Hx|[<-|[]]]; [apply Hge; exact Hx|]. specialize (Hge _ Hin). lia. }
  assert (HS0 : StronglySorted Z.lt ts0).
  { unfold ts0. clear Hge0 HC Hin ts0. revert HS. generalize (r :: us). intros l HS.
    assert (Hm := fun x Hx => sorted_last_max l x HS Hx). revert Hm. generalize (last l 0). intros z Hm.
    induction HS as [|a l Hl IH Ha]; [repeat constructor|]. cbn. constructor.
    - apply IH. intros x Hx. apply Hm. right. exact Hx.
    - apply Forall_app. split; [exact Ha|]. constructor; [|constructor]. specialize (Hm a (or_introl eq_refl)). lia. }
  assert (E0 : exists rest, ts0 = r :: rest) by (unfold ts0; eexists; reflexivity).
  destruct tv as [l|].
  - rewrite filter_all_true by (intros x Hx; specialize (Hge x Hx); lia). cbn [bind].
    change (match r :: us with [] => Err IndexError | _ :: _ => Ok ((r :: us) ++ [last (r :: us) 0 + d]) end) with (Ok ts0).
    cbn [bind]. split.
    + intros H. apply bind_ok in H. destruct H as (l' & H1 & H). apply format_spec in H1. destruct H1 as (-> & _).
      apply bind_ok in H. destruct H as (l' & H1 & H).
      destruct (_ && _) eqn:Ec in H1; [|discriminate]. injection H1 as <-. apply andb_prop in Ec. destruct Ec as (El & Ef).
      apply Nat.eqb_eq in El.
      assert (l = ts0).
      { apply close_eq; assumption. }
      subst l. destruct E0 as (rest & E0). destruct (existsb _ ts0); [discriminate|]. rewrite E0 in H.
      replace (0 <? Z.abs (r - r)) with false in H by lia. injection H as <-. rewrite E0. auto.
    + intros (-> & [|E]); [discriminate|]. injection E as ->.
      assert (HF : validate_time_values_format KInt ts0 = Ok ts0).
      { apply format_spec. split; [reflexivity|]. split; [exact HS0|]. right. intros t Ht. specialize (Hge0 t Ht). lia. }
      rewrite HF. cbn [bind]. rewrite Nat.eqb_refl. cbn [andb].
      replace (forallb _ (combine ts0 ts0)) with true.
      2:{ symmetry. apply forallb_forall. intros [a b] Hab. cbn. assert (a = b); [|lia]. apply (combine_diag ts0 a b Hab). }
      cbn [bind]. replace (existsb _ ts0) with false by (symmetry; apply existsb_none_false; intros x Hx; specialize (Hge0 x Hx); lia).
      destruct E0 as (rest & E0). rewrite E0. replace (0 <? Z.abs (r - r)) with false by lia. reflexivity.
  - fold ts0. rewrite filter_all_true by (intros x Hx; specialize (Hge0 x Hx); lia).
    destruct E0 as (rest & E0). rewrite E0. split; [intros E; injection E as <-; auto|]. intros (-> & _). reflexivity.
Qed.

Lemma predict_control (m : edmd_fit) (F : list (row V)) (G : list (row W)) tv R :
  ValidRows F -> SmallSteps F -> ListsSeries F (order F) -> ValidRows G -> IdsSorted G ->
  controlled m = true -> use_transform_inverse m = false -> (1 <= n_samples_ic m)%nat ->
  0 < dt m < 100000000000 ->
  predict m (XF F) (UF G) tv = Ok R ->
  InitialConditions finite F (n_samples_ic m) (dt m) /\
  exists r us, Reference F r /\ CommonTimes G (r :: us) /\ order F = ids G /\
    let ts := (r :: us) ++ [last (r :: us) 0 + dt m] in
    (tv = None \/ tv = Some ts) /\ ValidRows R /\ PredictedControl enc step out F G ts R.
Proof.
  intros HV HS HL VG SG Hc Hi Hn Hd H. unfold edmd_predict in H. rewrite Hi in H.
  apply bind_ok in H. destruct H as (ts & HT & H). apply bind_ok in H. destruct H as (F' & HI & H).
  destruct (ic_frame m F (UF G) ts HV HS Hn ltac:(lia)) as [(HC & E)|(_ & E)]; rewrite E in HI; [|discriminate].
  injection HI as <-. destruct (same_reference F HV (proj1 (proj2 HC))) as (r & HR).
  apply bind_ok in H. destruct H as (G' & HG & H). unfold control_of in HG. rewrite Hc in HG.
  apply bind_ok in HG. destruct HG as ([] & HVC & HG). injection HG as <-.
  rewrite (transform_ok m F r HV HR HL (proj1 (proj2 (proj2 HC)))) in H. cbn [bind] in H.
  destruct (predict_dict_control m F G r ts R HV HR HL VG SG ltac:(lia) H) as (us & EO & HCT & Ets & VR & HP).
  split; [exact HC|]. exists r, us. split; [exact HR|]. split; [exact HCT|]. split; [exact EO|]. cbv zeta.
  rewrite <- Ets. split; [|auto].
  apply (control_frame_times F G (dt m) r us tv ts HV HR VG ltac:(lia) HCT) in HT. apply HT.
Qed.

Lemma predict_control_ok (m : edmd_fit) (F : list (row V)) (G : list (row W)) tv r k :
  ValidRows F -> SmallSteps F -> IdsSorted F -> order F = ids F -> ValidRows G -> IdsSorted G -> ids F = ids G ->
  controlled m = true -> use_transform_inverse m = false -> (1 <= n_samples_ic m)%nat ->
  0 < dt m < 100000000000 -> (1 <= k)%nat ->
  InitialConditions finite F (n_samples_ic m) (dt m) -> Reference F r -> CommonTimes G (equispaced r (dt m) k) ->
  tv = None \/ tv = Some (equispaced r (dt m) (Datatypes.S k)) ->
  exists R, predict m (XF F) (UF G) tv = Ok R.
Proof.
  intros HV HS SF EO VG SG EI Hc Hi Hn Hd Hk HC HR HG Htv.
  assert (Hr := ref_nonneg F r HV HR).
  assert (HL : ListsSeries F (order F)).
  { rewrite EO. split; [apply sorted_lt_NoDup, np_unique_sorted|]. intros i. apply in_ids. }
  destruct k as [|k]; [lia|].
  assert (Eeq : exists us, equispaced r (dt m) (Datatypes.S k) = r :: us) by (rewrite equispaced_S; eexists; reflexivity).
  destruct Eeq as (us & Eus).
  assert (Ets : (r :: us) ++ [last (r :: us) 0 + dt m] = equispaced r (dt m) (Datatypes.S (Datatypes.S k))).
  { rewrite <- Eus. rewrite (equispaced_snoc r (dt m) (Datatypes.S k)). f_equal. f_equal. rewrite last_equispaced. lia. }
  assert (HCT := HG). rewrite Eus in HCT. 
  unfold edmd_predict. cbn [xarg_of uarg_of]. rewrite Hi.
  rewrite (proj2 (control_frame_times F G (dt m) r us tv _ HV HR VG ltac:(lia) HCT)
             (conj (eq_sym Ets) Htv)). cbn [bind].
  destruct (ic_frame m F (UF G) (equispaced r (dt m) (Datatypes.S (Datatypes.S k))) HV HS Hn ltac:(lia)) as [(_ & E)|(HN & _)]; [|contradiction].
  rewrite E. cbn [bind]. unfold control_of. rewrite Hc.
  rewrite (validate_control_ok F G r us HV SF HR VG EI HCT). cbn [bind].
  rewrite (transform_ok m F r HV HR HL (proj1 (proj2 (proj2 HC)))). cbn [bind]. unfold predict_dict_ic.
  destruct (order_facts F HV HL) as (Hne & Hnd & Hp).
  rewrite (predict_controlled_ok (fun i => enc (values_of F i)) r (order F) G (dt m) (Datatypes.S k));
    [|exact Hne|rewrite EO; apply np_unique_sorted|exact Hp|exact Hr|lia|lia|exact VG|exact SG|congruence|exact HG].
  cbn [bind fst snd]. eexists. apply tsc_ok. split; [|reflexivity].
  replace (map (fun i => (mkRow i r (enc (values_of F i)), map rval (rows_of G i))) (order F))
    with (map (fun x => (x, values_of G (rid x))) (single_rows (fun i => enc (values_of F i)) r (order F)))
    by (unfold single_rows; rewrite map_map; reflexivity).
  rewrite control_rows_built.
  - apply wfb_valid, control_block_rows; [rewrite equispaced_S; discriminate|apply equispaced_sorted; lia| |exact Hne|exact Hnd|exact Hp].
    intros t Ht. apply equispaced_in in Ht; lia.
  - intros i Hi'. rewrite EO, EI in Hi'. apply in_ids in Hi'. specialize (HG i Hi'). apply (f_equal (@length Z)) in HG.
    unfold times_of in HG. rewrite map_length in HG. unfold values_of. rewrite map_length, HG. unfold equispaced. rewrite !map_length, !seq_length. reflexivity.
Qed.

(** ** arrays *)

Lemma predict_array_control (m : edmd_fit) (F : list (row V)) i us r :
  ValidRows F -> (forall q, In q F -> rid q = i) -> Reference F r -> us <> [] -> 0 < dt m -> controlled m = true ->
  predict m (XF F) (UA us) None = predict m (XF F) (UF (sampled_from i r (dt m) us)) None.
Proof.
  intros HV Hid HR Hus Hd Hc. assert (Hr := ref_nonneg F r HV HR).
  set (n := length us). set (G := sampled_from i r (dt m) us).
  assert (EG : G = flatten [(i, combine (equispaced r (dt m) n) us)]).
  { cbn. unfold flatten. cbn. rewrite app_nil_r. reflexivity. }
  assert (Hel : length (equispaced r (dt m) n) = n) by (unfold equispaced; rewrite map_length, seq_length; reflexivity).
  assert (Hi0 : 0 <= i /\ Occurs F i).
  { destruct F as [|q F']; [destruct (vr_nonempty _ HV eq_refl)|]. rewrite <- (Hid q (or_introl eq_refl)).
    split; [apply (vr_ids _ HV); left; reflexivity|]. exists q. split; [left|]; reflexivity. }
  assert (Em : map fst (combine (equispaced r (dt m) n) us) = equispaced r (dt m) n) by (apply map_fst_combine; exact Hel).
  assert (Hn0 : exists n', n = Datatypes.S n') by (unfold n; destruct us; [congruence|eexists; reflexivity]).
  destruct Hn0 as (n' & En).
  assert (Wf : wfb [(i, combine (equispaced r (dt m) n) us)]).
  { split; [discriminate|repeat constructor; intros []|]. intros b [<-|[]]. cbn [fst snd]. split; [|split; [apply Hi0|split]].
    - intros E. rewrite E in Em. rewrite En, equispaced_S in Em. discriminate.
    - intros p Hp. apply (in_map fst) in Hp. rewrite Em in Hp. apply equispaced_in in Hp; lia.
    - rewrite Em. apply equispaced_sorted. exact Hd. }
  assert (VG : ValidRows G) by (rewrite EG; apply wfb_valid, Wf).
  assert (HOG : forall j, Occurs G j -> j = i).
  { intros j (q & Hq & <-). unfold G, sampled_from in Hq. apply in_map_iff in Hq. destruct Hq as (p & <- & _). reflexivity. }
  assert (HCT : CommonTimes G (equispaced r (dt m) n)).
  { intros j Hj. rewrite (HOG j Hj). unfold times_of. rewrite EG.
    assert (H := rows_of_flatten _ (i, combine (equispaced r (dt m) n) us) (wf_nodup _ Wf) (or_introl eq_refl)). cbn [fst] in H.
    rewrite H. unfold brows, series_rows. cbn [fst snd]. rewrite map_map. cbn. exact Em. }
  assert (Eids : forall A (X : list (row A)), ValidRows X -> (forall q, In q X -> rid q = i) -> ids X = [i]).
  { intros A X VX HX. unfold ids. apply unique_single. split.
    - intros E. apply map_eq_nil in E. apply (vr_nonempty _ VX E).
    - intros x Hx. apply in_map_iff in Hx. destruct Hx as (q & <- & Hq). apply HX. exact Hq. }
  assert (EIF := Eids _ F HV Hid).
  assert (EIG : ids G = [i]) by (apply Eids; [exact VG|]; intros q Hq; apply HOG; exists q; auto).
  unfold edmd_predict. cbn [xarg_of uarg_of].
  rewrite (control_array_times KInt 0 0 (dt m) false F (length us) r HV Hd HR ltac:(discriminate)). fold n.
  assert (Eus : exists rest, equispaced r (dt m) n = r :: rest) by (rewrite En, equispaced_S; eexists; reflexivity).
  destruct Eus as (rest & Eus).
  assert (HCT' := HCT). rewrite Eus in HCT'.
  assert (Esn : (r :: rest) ++ [last (r :: rest) 0 + dt m] = equispaced r (dt m) (Datatypes.S n)).
  { rewrite <- Eus. rewrite (equispaced_snoc r (dt m) n). f_equal. f_equal. rewrite En, last_equispaced. lia. }
  rewrite (proj2 (control_frame_times F G (dt m) r rest None _ HV HR VG Hd HCT') (conj (eq_sym Esn) (or_introl eq_refl))).
  cbn [bind]. cbn [initial_condition].
  destruct (ic_validate finite n_features KInt F _ _) as [[]|e]; cbn [bind]; [|reflexivity].
  replace (control_of m F (UA us) (equispaced r (dt m) (Datatypes.S n))) with (@Ok (option (list (row W))) (Some G)).
  2:{ unfold control_of. rewrite Hc. unfold n_timeseries. rewrite EIF. cbn [length hd Nat.ltb Nat.leb].
      unfold control_from_array. rewrite (equispaced_snoc r (dt m) n), removelast_last, Hel. fold n. rewrite Nat.eqb_refl. cbn [negb].
      change (map (fun p => mkRow i (fst p) (snd p)) (combine (equispaced r (dt m) n) us)) with G.
      rewrite (proj2 (tsc_ok G G) (conj VG eq_refl)). reflexivity. }
  unfold control_of. rewrite Hc.
  assert (SF : IdsSorted F).
  { intros a b (l & m' & q & E). rewrite (Hid a), (Hid b); [lia| |]; rewrite E; apply in_or_app; right; [right; apply in_or_app; right|]; left; reflexivity. }
  rewrite (validate_control_ok F G r rest HV SF HR VG ltac:(congruence) HCT'). reflexivity.
Qed.

Lemma predict_array_states (m : edmd_fit) (l : list V) tv t0 :
  l <> [] -> (forall x, In x l -> finite x = true) -> n_samples_ic m = 1%nat -> 0 <= t0 ->
  match tv with None => t0 = 0 | Some ts => hd_error ts = Some t0 end ->
  predict m (XA l) (UN (W := W)) tv = predict m (XF (states_at t0 l)) (UN (W := W)) tv.
Proof.
  intros Hl Hfin Hn Ht0 Htv. 
  assert (HA : ic_from_array finite n_features KInt l t0 None = Ok (states_at t0 l)).
  { apply from_array_ok; [exact Hnf|]. split; [exact Hl|]. split; [exact Ht0|]. split; [exact Hfin|].
    assert (El : length (map Z.of_nat (seq 0 (length l))) = length l) by (rewrite map_length, seq_length; reflexivity).
    destruct (array_columns finite l t0 _ El) as (E1 & E2 & E3).
    change (map (fun p => mkRow (fst p) t0 (snd p)) (combine (map Z.of_nat (seq 0 (length l))) l)) with (states_at t0 l) in *.
    rewrite E1. split; [reflexivity|]. split.
    { apply FinFun.Injective_map_NoDup; [intros a b; lia|apply seq_NoDup]. }
    split. { intros z Hz. apply in_map_iff in Hz. destruct Hz as (k & <- & _). lia. }
    auto. }
  assert (HB := HA). unfold ic_from_array in HB. destruct (negb _) in HB; [discriminate|].
  destruct (tsc _) as [X|] eqn:EX in HB; [|discriminate]. destruct (ic_validate _ _ _ X _ _) as [[]|] eqn:EV in HB; [|discriminate].
  injection HB as ->. apply tsc_ok in EX. destruct EX as (VX & EX). rewrite <- EX in VX.
  set (X := states_at t0 l) in *.
  assert (HT : forall q, In q X -> rtime q = t0).
  { intros q Hq. apply in_map_iff in Hq. destruct Hq as (p & <- & _). reflexivity. }
  assert (HR : Reference X t0).
  { intros i (q & Hq & Eq). split; [exists q; auto|]. intros q' Hq' _. rewrite (HT q' Hq'). lia. }
  assert (EI : forall ts, ts <> [] -> hd 0 ts = t0 ->
     initial_condition finite n_features m (XA l) (UN (W := W)) ts = Ok X /\
     initial_condition finite n_features m (XF X) (UN (W := W)) ts = Ok X).
  { intros [|t ts] Hts Eh; [congruence|]. cbn in Eh. subst t. cbn [initial_condition]. split; [exact HA|].
    rewrite Hn. cbn [Nat.ltb Nat.leb]. rewrite EV. reflexivity. }
  unfold edmd_predict. cbn [xarg_of uarg_of].
  destruct tv as [ts|].
  - destruct ts as [|t ts]; [discriminate|]. cbn in Htv. injection Htv as ->.
    destruct (validate_time_values_format KInt (t0 :: ts)) as [l'|e] eqn:EF.
    + assert (EF' := EF). apply format_spec in EF'. destruct EF' as (-> & Hs & Hp).
      rewrite (proj2 (times_exact (W := W) X (dt m) t0 (Some (t0 :: ts)) (t0 :: ts) VX HR)).
      2:{ cbn [EvaluatedTimes]. split; [discriminate|]. split; [exact Hs|]. split.
          - intros t Ht. apply (hd_sorted_min _ _ _ _ Hs eq_refl Ht).
          - left. split; [left; reflexivity|reflexivity]. }
      rewrite (proj2 (array_times (V := V) (W := W) KInt 0 0 (dt m) false (t0 :: ts) (t0 :: ts) ltac:(discriminate))).
      2:{ split; [reflexivity|]. split; [exact Hs|]. destruct Hp as [|Hp]; [discriminate|exact Hp]. }
      cbn [bind]. destruct (EI (t0 :: ts) ltac:(discriminate) eq_refl) as (E1 & E2). rewrite E1, E2. reflexivity.
    + unfold predict_time_values. rewrite (proj2 (proj1 (reference_frame KInt 0 X (UNone (W := W)) VX) t0) HR).
      cbn [reference_time bind]. rewrite EF. reflexivity.
  - subst t0. rewrite (proj2 (times_exact (W := W) X (dt m) 0 None _ VX HR) eq_refl).
    change (predict_time_values (W := W) KInt 0 0 (dt m) false (XArray (V := V)) UNone None) with (@Ok (list Z) [0; 0 + dt m]).
    cbn [bind]. destruct (EI [0; 0 + dt m] ltac:(discriminate) eq_refl) as (E1 & E2). rewrite E1, E2. reflexivity.
Qed.

(** ** requests that are never accepted *)

Lemma array_rows_one (l : list V) t0 o F : ic_from_array finite n_features KInt l t0 o = Ok F ->
  F <> [] /\ exists i, Occurs F i /\ (length (rows_of F i) <= 1)%nat.
Proof.
  intros H. apply from_array_ok in H; [|exact Hnf]. destruct H as (Hl & _ & _ & _ & Hnd & _ & Ev & _).
  destruct F as [|q F]; [cbn in Ev; congruence|]. split; [discriminate|]. exists (rid q).
  split; [exists q; split; [left|]; reflexivity|]. unfold rows_of. cbn. rewrite Z.eqb_refl. cbn [length].
  inversion Hnd as [|? ? Hni _]; subst.
  assert (E : filter (fun r0 => rid r0 =? rid q) F = []).
  { destruct (filter _ F) as [|a l'] eqn:E; [reflexivity|]. exfalso. apply Hni.
    assert (Ha : In a (a :: l')) by (left; reflexivity). rewrite <- E in Ha. apply filter_In in Ha. destruct Ha as (Ha & Eq).
    replace (rid q) with (rid a) by lia. apply in_map. exact Ha. }
  rewrite E. cbn. lia.
Qed.

Lemma predict_array_short (m : edmd_fit) (l : list V) (U : uin W) tv R : (1 < n_samples_ic m)%nat ->
  predict m (XA l) U tv <> Ok R.
Proof.
  intros Hn H. unfold edmd_predict in H. apply bind_ok in H. destruct H as (ts & _ & H).
  apply bind_ok in H. destruct H as (F & HI & H). apply bind_ok in H. destruct H as (G & _ & H).
  apply bind_ok in H. destruct H as (D & HT & _). cbn [initial_condition] in HI. destruct ts as [|t0 ts]; [discriminate|].
  destruct (array_rows_one l t0 _ F HI) as (Hne & i & Hi & Hle).
  unfold transform_ic in HT. apply bind_ok in HT. destruct HT as ([] & HT & _).
  rewrite (min_timesteps_ok F (n_samples_ic m) Hne) in HT. specialize (HT i Hi). lia.
Qed.

Lemma predict_inverse_control (m : edmd_fit) (X : xin V) (U : uin W) tv R :
  controlled m = true -> use_transform_inverse m = true -> predict m X U tv <> Ok R.
Proof.
  intros Hc Hi H. unfold edmd_predict in H. rewrite Hi in H. apply bind_ok in H. destruct H as (ts & _ & H).
  apply bind_ok in H. destruct H as (F & _ & H). apply bind_ok in H. destruct H as (G & _ & H).
  apply bind_ok in H. destruct H as (D & _ & H). unfold predict_dict_ic in H.
  apply bind_ok in H. destruct H as (ts' & _ & H). apply bind_ok in H. destruct H as ([] & _ & H). rewrite Hc in H. discriminate.
Qed.

Lemma predict_control_flag (m : edmd_fit) (X : xin V) (U : uin W) tv R : predict m X U tv = Ok R ->
  controlled m = match U with UN => false | _ => true end.
Proof.
  intros H. unfold edmd_predict in H. apply bind_ok in H. destruct H as (ts & _ & H).
  apply bind_ok in H. destruct H as (F & _ & H). apply bind_ok in H. destruct H as (G & H & _).
  unfold control_of in H. destruct (controlled m); [destruct U; [discriminate|reflexivity|reflexivity]|].
  destruct U; [reflexivity|discriminate|discriminate].
Qed.

End Proofs.

Lemma score_rows {V} (pred : list V -> Z -> V) (F : list (row V)) d n :
  ValidRows F -> IdsSorted F -> SmallSteps F -> (1 <= n)%nat ->
  (forall i, Occurs F i -> Regular F i d /\ (n < length (rows_of F i))%nat) ->
  LengthsAscending F ->
  edmd_score_data pred F n = Ok (samples_from F n, flat_map (reconstruction pred F n) (ids F)).
Proof.
  intros HV HS HSS Hn HR HA. unfold edmd_score_data. rewrite (edmd_reconstruct_spec pred F d n HV HS HSS Hn HR HA). cbn [bind].
  destruct (1 <? n)%nat eqn:E.
  - replace (index (flat_map (reconstruction pred F n) (ids F))) with (index (samples_from F n)).
    + rewrite loc_index_ok; [reflexivity|exact HV|]. intros q Hq. apply in_flat_map in Hq. destruct Hq as (i & _ & Hq).
      assert (Hi : In q (rows_of F i)) by (rewrite <- (firstn_skipn (n - 1)); apply in_or_app; right; exact Hq).
      apply filter_In in Hi. apply Hi.
    + unfold index, samples_from. rewrite !map_flat_map. apply flat_map_ext. intros i. unfold reconstruction. rewrite map_map. cbn.
      apply map_ext_in. intros q Hq.
      assert (Hi : In q (rows_of F i)) by (rewrite <- (firstn_skipn (n - 1)); apply in_or_app; right; exact Hq).
      apply filter_In in Hi. f_equal. lia.
  - assert (n = 1%nat) by lia. subst n. cbn [bind]. do 2 f_equal. unfold samples_from. cbn [Nat.sub skipn]. apply frame_of_ids; assumption.
Qed.
