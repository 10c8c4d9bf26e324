(** * delta_time of regularly sampled collections, for every kind of time index. *)

From Coq Require Import List ZArith Bool Arith Lia Sorted.
Import ListNotations.
From Coq Require Import ZifyBool ZifyNat.
From Verif Require Import Np NpFacts TscModel TscSpec TscBlocks TscProofs TscDt.
Open Scope Z_scope.

Section R.
Context {V : Type}.
Notation frame := (list (row V)).
Notation blocks := (list (Z * list (Z * V))).

Definition const_list (l : list Z) (d : Z) : Prop := l <> [] /\ forall x, In x l -> x = d.

Lemma const_min l d : const_list l d -> list_min l = d.
Proof.
  intros [Hn Ha]. destruct l as [|x r]; [congruence|]. apply Ha. unfold list_min. apply list_min_in.
Qed.

Lemma row_dt_const k l d : const_list l d -> row_dt k l = Some d.
Proof.
  intros H. assert (Hm := const_min l d H). assert (Hx : row_dt_exact l = Some d).
  { apply row_dt_exact_some. exact H. }
  destruct H as [Hn Ha]. destruct l as [|x [|y r]]; [congruence| |].
  - cbn. f_equal. apply Ha. left; reflexivity.
  - destruct k; [exact Hx| |exact Hx]. unfold row_dt, row_dt_float. cbn zeta. rewrite Hm.
    replace (forallb (fun z => z =? d) (tl (x :: y :: r))) with true; [reflexivity|].
    symmetry. apply forallb_forall. intros z Hz. cbn [tl] in Hz. specialize (Ha z (or_intror Hz)). lia.
Qed.

Lemma series_dt_const k (bs : blocks) b d : NoDup (map fst bs) -> In b bs ->
  const_list (np_diff (map fst (snd b))) d -> series_dt k (flatten bs) (fst b) = Ok (Some d).
Proof.
  intros Hnd Hb Hc. assert (Hm := const_min _ _ Hc). unfold series_dt. rewrite (series_diffs bs b Hnd Hb).
  destruct Hc as [Hn Ha]. set (l := np_diff (map fst (snd b))) in *.
  assert (Hu : (length (np_unique l) =? 1)%nat = true).
  { apply Nat.eqb_eq, np_unique_length_one. exists d. split; [|exact Ha].
    destruct l as [|x r]; [congruence|]. left. apply Ha. left; reflexivity. }
  assert (Hh : hd 0 l = d) by (destruct l as [|x r]; [congruence|]; apply Ha; left; reflexivity).
  rewrite Hu, Hh, Hm. destruct k; try reflexivity.
  destruct l as [|x r]; [congruence|]. rewrite (Ha x (or_introl eq_refl)).
  replace (forallb (close d) (d :: r)) with true; [reflexivity|].
  symmetry. apply forallb_forall. intros y [<-|Hy]; [apply close_refl|].
  rewrite (Ha y (or_intror Hy)). apply close_refl.
Qed.

Lemma delta_time_regular k (F : frame) d : ValidRows F -> (forall i, Occurs F i -> Regular F i d) ->
  delta_time k F = Ok (DtScalar (Some d)).
Proof.
  intros HV HR. destruct (valid_blocks F HV) as (bs & -> & W). clear HV.
  assert (Hc : forall b, In b bs -> const_list (np_diff (map fst (snd b))) d).
  { intros b Hb. apply row_dt_exact_some. apply (exact_regular bs b d W Hb). apply HR.
    apply (occurs_block bs _ W). eauto. }
  assert (Hne := wf_ne _ W). assert (Hnd := wf_nodup _ W).
  assert (Ht : exists t, dt_table k (flatten bs) = Ok t /\ t <> [] /\ forall o, In o (map snd t) -> o = Some d).
  { unfold dt_table. destruct (n_timesteps (flatten bs)) as [n|l] eqn:En.
    - rewrite (n_timesteps_blocks bs n W) in En. assert (Hn := equal_len_pos bs n W En).
      destruct (n =? 1)%nat eqn:E1.
      + exfalso. destruct bs as [|b bs']; [congruence|]. destruct (Hc b (or_introl eq_refl)) as [H _].
        specialize (En b (or_introl eq_refl)). apply H. apply length_zero_iff_nil.
        rewrite np_diff_length, map_length. lia.
      + rewrite n_timeseries_blocks by exact W.
        rewrite equal_diffs; [|exact Hne|exact Hn|exact En].
        rewrite reshape_flat_map by (intros b Hb; rewrite np_diff_length, map_length, (En b Hb); reflexivity).
        assert (Hl := n_timeseries_blocks bs W). unfold n_timeseries in Hl.
        eexists. split; [reflexivity|]. rewrite map_snd_combine by (rewrite !map_length; exact Hl). split.
        * intros E. apply (f_equal (@length _)) in E. rewrite combine_length, !map_length, Hl in E.
          destruct bs; [congruence|cbn in E; lia].
        * intros o Ho. rewrite map_map in Ho. apply in_map_iff in Ho. destruct Ho as (b & <- & Hb).
          apply row_dt_const, Hc, Hb.
    - rewrite (map_result_ok _ (fun i => (i, Some d))).
      + eexists. split; [reflexivity|]. split.
        * intros E. apply map_eq_nil in E. apply (ids_nonempty (flatten bs)) in E; [exact E|].
          apply (vr_nonempty _ (wfb_valid bs W)).
        * intros o Ho. rewrite map_map in Ho. apply in_map_iff in Ho. destruct Ho as (i & <- & _). reflexivity.
      + intros i Hi. apply in_ids, (occurs_block bs _ W) in Hi. destruct Hi as (b & Hb & <-).
        rewrite (series_dt_const k bs b d Hnd Hb (Hc b Hb)). reflexivity. }
  destruct Ht as (t & Et & Hn & Ha). unfold delta_time. rewrite Et.
  assert (Hg : is_global_unique k (map snd t) = true).
  { unfold is_global_unique. destruct (forallb is_none (map snd t)); [reflexivity|].
    assert (Hf : forallb (fun o => match o with None => false | Some x => close (list_min (get_some (map snd t))) x end) (map snd t) = true).
    { apply forallb_forall. intros o Ho. rewrite (Ha o Ho). rewrite (const_min _ d); [apply close_refl|].
      split.
      - destruct t as [|[i o'] t']; [congruence|]. cbn. rewrite (Ha o' (or_introl eq_refl)). discriminate.
      - intros x Hx. apply get_some_in in Hx. specialize (Ha _ Hx). congruence. }
    destruct k; [exact Hf|exact Hf|reflexivity]. }
  rewrite Hg, orb_true_r. destruct t as [|[i o] t']; [congruence|]. cbn. rewrite (Ha o (or_introl eq_refl)). reflexivity.
Qed.

End R.
