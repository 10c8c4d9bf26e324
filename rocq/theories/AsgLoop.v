(** * Proofs about assign_ids_const_delta: the loop over the series. *)

From Coq Require Import List ZArith Bool Arith Lia Sorted.
Import ListNotations.
From Coq Require Import ZifyBool ZifyNat.
From Verif Require Import Np NpFacts TscModel TscSpec TscBlocks TscProofs TscOps TscDt TscBuild DerList AsgModel AsgSpec AsgProofs.
Open Scope nat_scope.

Section Loop.
Context {V : Type}.
Notation frame := (list (row V)).
Notation series := (list (Z * V)).
Notation block := (Z * list (Z * V))%type.

(** ** a single series *)

Lemma single_wfb i (s : series) : (0 <= i)%Z -> GoodSeries s -> wfb [(i, s)].
Proof.
  intros Hi (H1 & H2 & H3). split; [discriminate|cbn; constructor; [intros []|constructor]|].
  intros b [<-|[]]. cbn. auto.
Qed.

Lemma single_dt k i (s : series) : (0 <= i)%Z -> GoodSeries s ->
  delta_time k (series_rows i s) = Ok (DtScalar (row_dt k (np_diff (map fst s)))).
Proof.
  intros Hi Hs. rewrite <- series_rows_flatten. assert (W := single_wfb i s Hi Hs).
  unfold delta_time, dt_table. rewrite n_timeseries_blocks by exact W.
  assert (En : n_timesteps (flatten [(i, s)]) = NInt (length s)).
  { apply (n_timesteps_blocks _ _ W). intros b [<-|[]]. reflexivity. }
  rewrite En.
  assert (Ei : ids (flatten [(i, s)]) = [i]).
  { rewrite ids_flatten by (intros b [<-|[]]; apply Hs). reflexivity. }
  rewrite Ei. destruct (Nat.eqb_spec (length s) 1) as [E1|E1].
  - destruct s as [|p [|q s]]; try discriminate. reflexivity.
  - rewrite equal_diffs; [|discriminate|destruct s; [destruct Hs; congruence|cbn; lia]|intros b [<-|[]]; reflexivity].
    cbn [flat_map snd app length Nat.eqb orb]. rewrite app_nil_r. cbn [reshape].
    rewrite firstn_all2 by (rewrite np_diff_length, map_length; lia). reflexivity.
Qed.

(** ** labels *)

Fixpoint lab (m : Z) (k : nat) (cs : list series) : list block :=
  match cs with
  | [] => []
  | c :: cs' => ((Z.of_nat k + m)%Z, c) :: lab m (S k) cs'
  end.

Lemma lab_snd m k cs : map snd (lab m k cs) = cs.
Proof. revert k. induction cs as [|c cs IH]; intros k; [reflexivity|]. cbn. rewrite IH. reflexivity. Qed.

Lemma lab_ge m k cs b : In b (lab m k cs) -> (Z.of_nat k + m <= fst b)%Z.
Proof.
  revert k. induction cs as [|c cs IH]; intros k H; [destruct H|].
  destruct H as [<-|H]; [cbn; lia|]. apply IH in H. lia.
Qed.

Lemma lab_sorted m k cs : StronglySorted Z.lt (map fst (lab m k cs)).
Proof.
  revert k. induction cs as [|c cs IH]; intros k; [constructor|].
  cbn. constructor; [apply IH|]. apply Forall_forall. intros x Hx. apply in_map_iff in Hx.
  destruct Hx as (b & <- & Hb). apply lab_ge in Hb. lia.
Qed.

Lemma zip_rows_cut m (fl : list bool) : forall (l : series) acc, length fl = length l ->
  zip_rows (map (fun k => (Z.of_nat k + m)%Z) (cumsum_from acc (map (fun b : bool => if b then 1 else 0) fl)))
           (map fst l) (map snd l)
  = flatten (lab m (acc + if hd false fl then 1 else 0) (cutl fl l)).
Proof.
  induction fl as [|f fl IH]; intros [|x l] acc H; cbn in H; try lia; [reflexivity|].
  cbn [map cumsum_from hd]. unfold zip_rows in *. cbn [combine map fst snd].
  rewrite IH by lia. cbn [cutl].
  destruct (cutl fl l) as [|c cs] eqn:E.
  - apply cutl_nil in E; [subst l|lia]. destruct fl; [|discriminate]. reflexivity.
  - destruct fl as [|g fl]; [discriminate|]. cbn [hd]. destruct g.
    + cbn [lab]. rewrite flatten_cons. cbn [brows series_rows map fst snd app].
      rewrite Nat.add_1_r. reflexivity.
    + cbn [lab]. rewrite !flatten_cons. unfold brows, series_rows. cbn [map fst snd app].
      rewrite Nat.add_0_r. reflexivity.
Qed.

Lemma ids_zip (i : list Z) (t : list Z) (v : list V) : length i = length t -> length t = length v ->
  ids_index (zip_rows i t v) = i.
Proof.
  revert t v. induction i as [|x i IH]; intros [|y t] [|z v] H1 H2; cbn in H1, H2; try lia; [reflexivity|].
  unfold zip_rows, ids_index in *. cbn. f_equal. apply IH; lia.
Qed.

Lemma cumsum_from_length acc l : length (cumsum_from acc l) = length l.
Proof. revert acc; induction l as [|x l IH]; intros acc; [reflexivity|]. cbn. rewrite IH. reflexivity. Qed.

(** ** selecting blocks *)

Lemma filter_flatten (P : Z -> bool) (bs : list block) :
  filter (fun r => P (rid r)) (flatten bs) = flatten (filter (fun b => P (fst b)) bs).
Proof.
  induction bs as [|b bs IH]; [reflexivity|]. rewrite flatten_cons, filter_app, IH. cbn [filter].
  destruct (P (fst b)) eqn:E.
  - rewrite flatten_cons. f_equal. apply filter_all_true. intros r Hr. rewrite (rid_brows b r Hr). exact E.
  - rewrite filter_all_false; [reflexivity|]. intros r Hr. rewrite (rid_brows b r Hr). exact E.
Qed.

Definition big (c : series) : bool := negb (length c =? 1).

Lemma count_block (bs : list block) b : NoDup (map fst bs) -> In b bs ->
  np_count (ids_index (flatten bs)) (fst b) = length (snd b).
Proof. intros H1 H2. rewrite np_count_rows, rows_of_flatten by assumption. apply brows_length. Qed.

Lemma filter_big (bs : list block) : NoDup (map fst bs) ->
  filter (fun r => negb (np_count (ids_index (flatten bs)) (rid r) =? 1)) (flatten bs)
  = flatten (filter (fun b => big (snd b)) bs).
Proof.
  intros H. rewrite (filter_flatten (fun i => negb (np_count (ids_index (flatten bs)) i =? 1))). f_equal.
  apply filter_ext_in. intros b Hb. rewrite count_block by assumption. reflexivity.
Qed.

Lemma some_single (bs : list block) : NoDup (map fst bs) -> (forall b, In b bs -> snd b <> []) ->
  existsb (fun i => np_count (ids_index (flatten bs)) i =? 1) (ids_index (flatten bs))
  = negb (forallb (fun b => big (snd b)) bs).
Proof.
  intros H Hne. apply eq_true_iff_eq. rewrite negb_true_iff. rewrite existsb_exists. split.
  - intros (i & Hi & Hc). apply in_map_iff in Hi. destruct Hi as (r & <- & Hr).
    apply in_flatten_id in Hr. apply in_map_iff in Hr. destruct Hr as (b & Eb & Hb).
    rewrite <- Eb, count_block in Hc by assumption.
    destruct (forallb _ bs) eqn:Ef; [|reflexivity]. rewrite forallb_forall in Ef. specialize (Ef b Hb).
    unfold big in Ef. rewrite Hc in Ef. discriminate.
  - intros Ef. apply forallb_false_exists in Ef. destruct Ef as (b & Hb & Hf). exists (fst b).
    rewrite count_block by assumption. split; [|unfold big in Hf; destruct (length (snd b) =? 1); [reflexivity|discriminate]].
    destruct (snd b) as [|p s] eqn:Es; [destruct (Hne b Hb Es)|].
    apply in_map_iff. exists (mkRow (fst b) (fst p) (snd p)). split; [reflexivity|].
    apply in_flatten. exists b, p. rewrite Es. cbn. auto.
Qed.

Lemma filter_snd (f : series -> bool) (bs : list block) :
  map snd (filter (fun b => f (snd b)) bs) = filter f (map snd bs).
Proof. induction bs as [|b bs IH]; [reflexivity|]. cbn. destruct (f (snd b)); cbn; rewrite IH; reflexivity. Qed.

Lemma sorted_filter (P : block -> bool) (bs : list block) : StronglySorted Z.lt (map fst bs) ->
  StronglySorted Z.lt (map fst (filter P bs)).
Proof.
  induction bs as [|b bs IH]; intros H; [constructor|]. cbn in H. inversion H as [|? ? H1 H2]; subst.
  cbn. destruct (P b); [|apply IH; exact H1]. cbn. constructor; [apply IH; exact H1|].
  rewrite Forall_forall in *. intros x Hx. apply in_map_iff in Hx. destruct Hx as (c & <- & Hc).
  apply filter_In in Hc. apply H2. apply in_map, Hc.
Qed.

Lemma flatten_length (bs : list block) : length (flatten bs) = length (concat (map snd bs)).
Proof. induction bs as [|b bs IH]; [reflexivity|]. rewrite flatten_cons. cbn. rewrite !app_length, IH, brows_length. reflexivity. Qed.

(** ** the pieces of one series *)

Definition chunks (s : series) : list series := cutl (indicator (map fst s)) s.

Definition pieces_of (k : tkind) (drop : bool) (s : series) : option (list series) :=
  match row_dt k (np_diff (map fst s)) with
  | Some _ => Some [s]
  | None =>
      if length s =? 1 then (if drop then Some [] else None)
      else if drop then Some (if length (concat (filter big (chunks s))) =? 2 then [] else filter big (chunks s))
      else if forallb big (chunks s) then Some (chunks s) else None
  end.

Lemma short_regular k (s : series) : length s = 2 -> row_dt k (np_diff (map fst s)) <> None.
Proof. destruct s as [|p [|q [|r s]]]; cbn; intros H; try lia. discriminate. Qed.

Lemma chunks_concat (s : series) : 3 <= length s -> concat (chunks s) = s.
Proof. intros H. apply cutl_concat. rewrite indicator_length; rewrite map_length; auto. Qed.

Lemma sorted_sub (l1 l2 l3 : list Z) : StronglySorted Z.lt (l1 ++ l2 ++ l3) -> StronglySorted Z.lt l2.
Proof.
  induction l1 as [|x l1 IH]; cbn; intros H.
  - induction l2 as [|y l2 IH]; [constructor|]. cbn in H. inversion H as [|? ? H1 H2]; subst.
    constructor; [apply IH; exact H1|]. rewrite Forall_forall in *. intros z Hz. apply H2. apply in_or_app. auto.
  - inversion H; auto.
Qed.

Lemma chunk_good (s c : series) : 3 <= length s -> GoodSeries s -> In c (chunks s) -> GoodSeries c.
Proof.
  intros Hn (H1 & H2 & H3) Hc. assert (Hne := cutl_nonempty _ _ _ Hc).
  apply in_split in Hc. destruct Hc as (cs1 & cs2 & E). assert (Es := chunks_concat s Hn).
  rewrite E, concat_app in Es. cbn [concat] in Es.
  split; [exact Hne|]. split.
  - intros p Hp. apply H2. rewrite <- Es. apply in_or_app. right. apply in_or_app. auto.
  - rewrite <- Es, !map_app in H3. apply (sorted_sub _ _ _ H3).
Qed.

Lemma last_chunk (s : series) : 3 <= length s -> filter big (chunks s) <> [].
Proof.
  intros Hn. assert (Hl : length (map fst s) = length s) by apply map_length.
  destruct s as [|x s0] eqn:Es; [cbn in Hn; lia|]. rewrite <- Es in *.
  destruct (cutl_together (indicator (map fst s)) s (length s - 2) x) as (c & Hc & _ & _ & H2).
  - rewrite indicator_length; lia.
  - lia.
  - replace (S (length s - 2)) with (length (map fst s) - 1) by lia. apply indicator_last. lia.
  - intros E. assert (H : In c (filter big (chunks s))); [|rewrite E in H; exact H].
    apply filter_In. split; [exact Hc|]. unfold big. destruct (Nat.eqb_spec (length c) 1); [lia|reflexivity].
Qed.

Definition goodb (m : Z) (bs : list block) : Prop :=
  StronglySorted Z.lt (map fst bs) /\ (forall b, In b bs -> (m <= fst b)%Z /\ GoodSeries (snd b)).

Lemma goodb_wfb m (bs : list block) : (0 <= m)%Z -> bs <> [] -> goodb m bs -> wfb bs.
Proof.
  intros Hm Hne (H1 & H2). split; [exact Hne|apply sorted_lt_NoDup; exact H1|].
  intros b Hb. destruct (H2 b Hb) as (H3 & H4 & H5 & H6). repeat split; auto. lia.
Qed.

Lemma tsc_blocks m (bs : list block) : (0 <= m)%Z -> bs <> [] -> goodb m bs -> tsc (flatten bs) = Ok (flatten bs).
Proof. intros H1 H2 H3. apply tsc_ok. split; [|reflexivity]. apply wfb_valid, (goodb_wfb m); assumption. Qed.

(** one pass of the loop *)
Definition pass (k : tkind) (drop : bool) (min_id : Z) (local : frame) : result (option frame) :=
  match delta_time k local with
  | Err e => Err e
  | Ok (DtScalar None) => split_irregular drop min_id local
  | Ok _ => match tsc (map (fun r => mkRow min_id (rtime r) (rval r)) local) with
            | Err e => Err e
            | Ok G => Ok (Some G)
            end
  end.

Lemma pass_spec k drop m i (s : series) : (0 <= m)%Z -> (0 <= i)%Z -> GoodSeries s ->
  match pieces_of k drop s with
  | None => drop = false /\ pass k drop m (series_rows i s) = Err ValueError
  | Some [] => drop = true /\ pass k drop m (series_rows i s) = Ok None
  | Some ps => exists bs, pass k drop m (series_rows i s) = Ok (Some (flatten bs)) /\ map snd bs = ps /\ goodb m bs
  end.
Proof.
  intros Hm Hi Hs. unfold pass. rewrite single_dt by assumption. unfold pieces_of.
  destruct (row_dt k (np_diff (map fst s))) as [d|] eqn:Ed.
  - exists [(m, s)]. rewrite series_rows_flatten. split; [|split; [reflexivity|]].
    + assert (E : map (fun r => mkRow m (rtime r) (rval r)) (series_rows i s) = series_rows m s).
      { unfold series_rows. rewrite map_map. reflexivity. }
      rewrite E. rewrite (proj2 (tsc_ok (series_rows m s) (series_rows m s))); [reflexivity|]. split; [|reflexivity]. apply series_rows_valid; assumption.
    + split; [cbn; repeat constructor|]. intros b [<-|[]]. cbn. split; [lia|exact Hs].
  - destruct (Nat.eqb_spec (length s) 1) as [E1|E1].
    + destruct s as [|p [|q s]]; try discriminate. cbn [series_rows map split_irregular]. destruct drop; auto.
    + assert (Hn : 3 <= length s).
      { destruct (Nat.eq_dec (length s) 2) as [E2|E2]; [destruct (short_regular k s E2 Ed)|].
        destruct Hs as [Hs _]. destruct s as [|p s]; [congruence|]. cbn in *. lia. }
      assert (Ei := indicator_length (map fst s) ltac:(rewrite map_length; exact Hn)). rewrite map_length in Ei.
      pose (bs := lab m (0 + if hd false (indicator (map fst s)) then 1 else 0) (chunks s)).
      assert (Erows : zip_rows (new_ids m (time_index (series_rows i s))) (time_index (series_rows i s)) (to_numpy (series_rows i s)) = flatten bs).
      { assert (Et : time_index (series_rows i s) = map fst s) by (unfold time_index, series_rows; rewrite map_map; reflexivity).
        assert (Ev : to_numpy (series_rows i s) = map snd s) by (unfold to_numpy, series_rows; rewrite map_map; reflexivity).
        rewrite Et, Ev. unfold new_ids, np_cumsum. apply zip_rows_cut. exact Ei. }
      assert (Enew : new_ids m (time_index (series_rows i s)) = ids_index (flatten bs)).
      { rewrite <- Erows. symmetry. apply ids_zip.
        - unfold new_ids, np_cumsum, time_index, series_rows. rewrite map_length, cumsum_from_length, map_length, !map_map. cbn [rtime].
          change (map (fun x => fst x) s) with (map fst s). rewrite Ei, map_length. reflexivity.
        - unfold time_index, to_numpy. rewrite !map_length. reflexivity. }
      assert (Hg : goodb m bs).
      { split; [apply lab_sorted|]. intros b Hb. split; [apply lab_ge in Hb; lia|].
        apply (chunk_good s); auto. unfold bs in Hb. apply (in_map snd) in Hb. rewrite lab_snd in Hb. exact Hb. }
      assert (Hnd : NoDup (map fst bs)) by (apply sorted_lt_NoDup, Hg).
      assert (Esn : map snd bs = chunks s) by apply lab_snd.
      assert (Hne : bs <> []).
      { intros E. apply (last_chunk s Hn). rewrite <- Esn, E. reflexivity. }
      assert (Es : split_irregular drop m (series_rows i s) =
        let new := new_ids m (time_index (series_rows i s)) in
        let rows := zip_rows new (time_index (series_rows i s)) (to_numpy (series_rows i s)) in
        if drop then
          let kept := filter (fun r => negb (np_count new (rid r) =? 1)) rows in
          if length kept =? 2 then Ok None
          else match tsc kept with Err e => Err e | Ok G => Ok (Some G) end
        else if existsb (fun i => np_count new i =? 1) new then Err ValueError
        else match tsc rows with Err e => Err e | Ok G => Ok (Some G) end).
      { destruct s as [|p [|q [|r s]]]; cbn in Hn; try lia. reflexivity. }
      rewrite Es. cbv zeta. rewrite Erows, Enew. clear Es Erows Enew.
      destruct drop.
      * rewrite filter_big, flatten_length by exact Hnd. rewrite filter_snd, Esn.
        destruct (length (concat (filter big (chunks s))) =? 2); [auto|].
        destruct (filter big (chunks s)) as [|c cs] eqn:Ec; [destruct (last_chunk s Hn Ec)|].
        exists (filter (fun b => big (snd b)) bs).
        assert (Hg' : goodb m (filter (fun b => big (snd b)) bs)).
        { split; [apply sorted_filter, Hg|]. intros b Hb. apply filter_In in Hb. apply Hg, Hb. }
        rewrite (tsc_blocks m); [|exact Hm| |exact Hg'].
        -- split; [reflexivity|]. split; [|exact Hg']. rewrite filter_snd, Esn, Ec. reflexivity.
        -- intros E. apply (f_equal (map snd)) in E. rewrite filter_snd, Esn, Ec in E. discriminate.
      * rewrite some_single; [|exact Hnd|intros b Hb; apply (proj2 Hg b Hb)].
        assert (Ef : forallb (fun b => big (snd b)) bs = forallb big (chunks s)).
        { rewrite <- Esn. clear. induction bs as [|b bs IH]; [reflexivity|]. cbn. rewrite IH. reflexivity. }
        rewrite Ef. destruct (forallb big (chunks s)); cbn [negb]; [|auto].
        rewrite (tsc_blocks m) by assumption.
        destruct (chunks s) as [|c cs] eqn:Ec; [destruct bs; [congruence|discriminate]|].
        exists bs. rewrite Esn. auto.
Qed.

Lemma loop_step k drop (F : frame) i l m :
  assign_loop k drop F (i :: l) m =
  match pass k drop m (rows_of F i) with
  | Err e => Err e
  | Ok None => if drop then assign_loop k drop F l m else Err RuntimeError
  | Ok (Some G) => match assign_loop k drop F l (zmax (ids G) + 1)%Z with
                   | Err e => Err e
                   | Ok Gs => Ok (G :: Gs)
                   end
  end.
Proof. reflexivity. Qed.

Lemma rows_of_series (F : frame) i : rows_of F i = series_rows i (TscModel.series F i).
Proof.
  unfold TscModel.series, series_rows, rows_of. rewrite map_map. cbn [fst snd].
  induction F as [|r F IH]; [reflexivity|]. cbn. destruct (rid r =? i)%Z eqn:E; [|exact IH].
  cbn. rewrite <- IH. f_equal. destruct r as [a b c]. cbn in *. f_equal. lia.
Qed.

Lemma series_good (F : frame) i : ValidRows F -> Occurs F i -> GoodSeries (TscModel.series F i).
Proof.
  intros HV Hi. destruct (valid_blocks F HV) as (bs & -> & W).
  apply (occurs_block bs i W) in Hi. destruct Hi as (b & Hb & <-).
  assert (E : TscModel.series (flatten bs) (fst b) = snd b).
  { unfold TscModel.series. change (filter _ _) with (rows_of (flatten bs) (fst b)).
    rewrite rows_of_flatten by (auto; apply (wf_nodup _ W)). unfold brows, series_rows. rewrite map_map. cbn [rtime rval].
    rewrite <- (map_id (snd b)) at 2. apply map_ext. intros []. reflexivity. }
  rewrite E. destruct (wf_blocks _ W b Hb) as (H1 & _ & H2 & H3). split; auto.
Qed.

Lemma sorted_app (l1 l2 : list Z) : StronglySorted Z.lt l1 -> StronglySorted Z.lt l2 ->
  (forall x y, In x l1 -> In y l2 -> (x < y)%Z) -> StronglySorted Z.lt (l1 ++ l2).
Proof.
  induction l1 as [|x l1 IH]; intros H1 H2 H; [exact H2|]. inversion H1 as [|? ? H3 H4]; subst.
  cbn. constructor; [apply IH; auto; intros; apply H; auto; right; assumption|].
  rewrite Forall_forall in *. intros y Hy. apply in_app_or in Hy. destruct Hy as [Hy|Hy]; [auto|].
  apply H; [left; reflexivity|exact Hy].
Qed.

Lemma max_block m (bs1 : list block) : bs1 <> [] -> (0 <= m)%Z -> goodb m bs1 ->
  (forall b, In b bs1 -> (fst b <= zmax (ids (flatten bs1)))%Z) /\ (m <= zmax (ids (flatten bs1)))%Z.
Proof.
  intros Hne Hm H1. assert (W := goodb_wfb m bs1 Hm Hne H1).
  destruct (max_id_spec (flatten bs1)) as [Ho Hmax]; [apply (vr_nonempty _ (wfb_valid _ W))|].
  assert (Hle : forall b, In b bs1 -> (fst b <= zmax (ids (flatten bs1)))%Z).
  { intros b Hb. apply Hmax. apply (occurs_block bs1 _ W). eauto. }
  split; [exact Hle|]. destruct bs1 as [|b bs1]; [congruence|].
  specialize (Hle b (or_introl eq_refl)). destruct (proj2 H1 b (or_introl eq_refl)) as [H _]. lia.
Qed.

Lemma goodb_app m (bs1 bs2 : list block) : bs1 <> [] -> (0 <= m)%Z -> goodb m bs1 ->
  goodb (zmax (ids (flatten bs1)) + 1) bs2 -> goodb m (bs1 ++ bs2).
Proof.
  intros Hne Hm H1 H2. destruct (max_block m bs1 Hne Hm H1) as [Hle Hmm]. split.
  - rewrite map_app. apply sorted_app; [apply H1|apply H2|]. intros x y Hx Hy.
    apply in_map_iff in Hx, Hy. destruct Hx as (b & <- & Hb), Hy as (c & <- & Hc).
    specialize (Hle b Hb). destruct (proj2 H2 c Hc) as [H _]. lia.
  - intros b Hb. apply in_app_or in Hb. destruct Hb as [Hb|Hb]; [apply H1, Hb|].
    destruct (proj2 H2 b Hb) as [H3 H4]. split; [lia|exact H4].
Qed.

Lemma loop_ok k drop (F : frame) (P : Z -> list series) : ValidRows F -> forall l m, (0 <= m)%Z ->
  (forall i, In i l -> Occurs F i) -> (forall i, In i l -> pieces_of k drop (TscModel.series F i) = Some (P i)) ->
  exists bss, assign_loop k drop F l m = Ok (map flatten bss) /\ map snd (concat bss) = flat_map P l /\
              goodb m (concat bss) /\ (forall bs, In bs bss -> bs <> []).
Proof.
  intros HV. induction l as [|i l IH]; intros m Hm Ho HP.
  - exists []. split; [reflexivity|]. split; [reflexivity|]. split; [split; [constructor|intros b []]|intros bs []].
  - rewrite loop_step, rows_of_series.
    assert (Hi : Occurs F i) by (apply Ho; left; reflexivity).
    assert (Hs := series_good F i HV Hi).
    assert (H0 : (0 <= i)%Z) by (destruct Hi as (r & Hr & <-); apply (vr_ids F HV r Hr)).
    assert (H := pass_spec k drop m i _ Hm H0 Hs). rewrite (HP i (or_introl eq_refl)) in H.
    destruct (P i) as [|c cs] eqn:EP.
    + destruct H as [-> ->]. destruct (IH m Hm) as (bss & H1 & H2 & H3 & H4); [intros; apply Ho; right; assumption|intros; apply HP; right; assumption|].
      exists bss. cbn [flat_map]. rewrite EP. auto.
    + destruct H as (bs & -> & Esn & Hg).
      assert (Hne : bs <> []) by (intros ->; discriminate).
      destruct (max_block m bs Hne Hm Hg) as [_ Hmm].
      destruct (IH (zmax (ids (flatten bs)) + 1)%Z) as (bss & H1 & H2 & H3 & H4); [lia|intros; apply Ho; right; assumption|intros; apply HP; right; assumption|].
      rewrite H1. exists (bs :: bss). cbn [map concat flat_map]. rewrite map_app, Esn, H2, EP.
      split; [reflexivity|]. split; [reflexivity|]. split; [apply goodb_app; assumption|].
      intros b [<-|Hb]; auto.
Qed.

Lemma loop_err k drop (F : frame) : ValidRows F -> forall l m i, (0 <= m)%Z ->
  (forall i, In i l -> Occurs F i) -> In i l -> pieces_of k drop (TscModel.series F i) = None ->
  assign_loop k drop F l m = Err ValueError.
Proof.
  intros HV. induction l as [|j l IH]; intros m i Hm Ho Hi HP; [destruct Hi|].
  rewrite loop_step, rows_of_series.
  assert (Hj : Occurs F j) by (apply Ho; left; reflexivity).
  assert (Hs := series_good F j HV Hj).
  assert (H0 : (0 <= j)%Z) by (destruct Hj as (r & Hr & <-); apply (vr_ids F HV r Hr)).
  assert (H := pass_spec k drop m j _ Hm H0 Hs).
  destruct (pieces_of k drop (TscModel.series F j)) as [[|c cs]|] eqn:EP.
  - destruct Hi as [->|Hi]; [congruence|]. destruct H as [-> ->].
    apply (IH m i); auto. intros; apply Ho; right; assumption.
  - destruct Hi as [->|Hi]; [congruence|]. destruct H as (bs & -> & Esn & Hg).
    assert (Hne : bs <> []) by (intros ->; discriminate).
    destruct (max_block m bs Hne Hm Hg) as [_ Hmm].
    rewrite (IH _ i); auto; [lia|]. intros; apply Ho; right; assumption.
  - destruct H as [_ ->]. reflexivity.
Qed.

(** ** sequential IDs *)

Lemma position_nth (l : list Z) : StronglySorted Z.lt l -> forall n, n < length l -> position (nth n l 0%Z) l = n.
Proof.
  induction l as [|x l IH]; intros H n Hn; [cbn in Hn; lia|]. inversion H as [|? ? H1 H2]; subst.
  destruct n as [|n]; cbn [nth position].
  - rewrite Z.eqb_refl. reflexivity.
  - cbn in Hn. rewrite Forall_forall in H2. specialize (H2 (nth n l 0%Z) ltac:(apply nth_In; lia)).
    destruct (Z.eqb_spec (nth n l 0%Z) x); [lia|]. rewrite IH by (auto; lia). reflexivity.
Qed.

Lemma numbered_flatten k (cs : list series) : numbered k cs = flatten (lab 0 k cs).
Proof.
  revert k. induction cs as [|c cs IH]; intros k; [reflexivity|]. cbn [numbered lab]. rewrite flatten_cons, IH.
  unfold brows, series_rows. cbn [fst snd]. rewrite Z.add_0_r. reflexivity.
Qed.

Lemma relabel_flatten (L : list Z) (bs bs' : list block) : StronglySorted Z.lt L -> L = map fst bs' ++ map fst bs ->
  map (fun r => mkRow (Z.of_nat (position (rid r) L)) (rtime r) (rval r)) (flatten bs)
  = flatten (lab 0 (length bs') (map snd bs)).
Proof.
  intros HL. revert bs'. induction bs as [|b bs IH]; intros bs' E; [reflexivity|].
  rewrite flatten_cons, map_app. cbn [map lab]. rewrite flatten_cons. f_equal.
  - unfold brows, series_rows. cbn [fst snd]. rewrite map_map. apply map_ext. intros p. cbn [rid rtime rval].
    rewrite Z.add_0_r. f_equal. f_equal.
    assert (En : nth (length bs') L 0%Z = fst b).
    { rewrite E, app_nth2 by (rewrite map_length; lia). rewrite map_length, Nat.sub_diag. reflexivity. }
    rewrite <- En. apply position_nth; [exact HL|]. rewrite E, app_length, !map_length. cbn. lia.
  - rewrite (IH (bs' ++ [b])).
    + rewrite app_length, Nat.add_1_r. reflexivity.
    + rewrite E, map_app, <- app_assoc. reflexivity.
Qed.

Lemma sequential_ok m (bs : list block) : (0 <= m)%Z -> bs <> [] -> goodb m bs ->
  assign_ids_sequential (flatten bs) = Ok (numbered 0 (map snd bs)).
Proof.
  intros Hm Hne Hg. assert (W := goodb_wfb m bs Hm Hne Hg). unfold assign_ids_sequential.
  rewrite ids_flatten by (intros b Hb; apply (wf_blocks _ W b Hb)).
  rewrite np_unique_of_sorted by apply Hg.
  rewrite (relabel_flatten _ bs []) by (auto; apply Hg). rewrite numbered_flatten.
  apply (tsc_blocks 0%Z); [lia|destruct bs; [congruence|discriminate]|].
  split; [apply lab_sorted|]. intros b Hb. split; [apply lab_ge in Hb; cbn in Hb; lia|].
  apply (in_map snd) in Hb. rewrite lab_snd in Hb. apply in_map_iff in Hb. destruct Hb as (c & <- & Hc). apply Hg, Hc.
Qed.

(** the whole function *)
Theorem assign_ok k drop (F : frame) (P : Z -> list series) : ValidRows F ->
  (forall i, Occurs F i -> pieces_of k drop (TscModel.series F i) = Some (P i)) ->
  assign_ids_const_delta k drop F =
  Ok (match flat_map P (ids F) with [] => None | cs => Some (numbered 0 cs) end).
Proof.
  intros HV HP.
  destruct (loop_ok k drop F P HV (ids F) 0%Z) as (bss & H1 & H2 & H3 & H4);
    [lia|intros i Hi; apply in_ids; exact Hi|intros i Hi; apply HP, in_ids, Hi|].
  unfold assign_ids_const_delta. rewrite H1.
  destruct bss as [|bs bss]; [cbn in H2; rewrite <- H2; reflexivity|]. cbn [map].
  assert (Hbs : bs <> []) by (apply H4; left; reflexivity).
  assert (Ec : concat (flatten bs :: map flatten bss) = flatten (concat (bs :: bss))).
  { change (flatten bs :: map flatten bss) with (map (@flatten V) (bs :: bss)).
    generalize (bs :: bss). intros l. induction l as [|b l IH]; [reflexivity|].
    cbn [map concat]. rewrite IH. symmetry. apply flatten_app. }
  rewrite Ec.
  assert (Hne : concat (bs :: bss) <> []) by (cbn; destruct bs; [congruence|discriminate]).
  rewrite (tsc_blocks 0%Z); [|lia|exact Hne|exact H3].
  rewrite (sequential_ok 0%Z); [|lia|exact Hne|exact H3]. rewrite H2.
  destruct (flat_map P (ids F)) as [|c cs] eqn:E; [|reflexivity].
  destruct (concat (bs :: bss)); [congruence|discriminate].
Qed.

Theorem assign_err k drop (F : frame) i : ValidRows F -> Occurs F i ->
  pieces_of k drop (TscModel.series F i) = None -> assign_ids_const_delta k drop F = Err ValueError.
Proof.
  intros HV Hi HP. unfold assign_ids_const_delta. rewrite (loop_err k drop F HV (ids F) 0%Z i); auto; [lia| |].
  - intros j Hj. apply in_ids. exact Hj.
  - apply in_ids. exact Hi.
Qed.

(** ** the pieces *)

Lemma cut_filter f (cs : list series) g : CutFrom (g ++ concat cs) (filter f cs).
Proof.
  revert g. induction cs as [|c cs IH]; intros g; [constructor|]. cbn [concat filter]. destruct (f c).
  - apply cut_part. apply (IH []).
  - rewrite app_assoc. apply IH.
Qed.

Lemma pieces_cut k drop (s : series) ps : GoodSeries s -> pieces_of k drop s = Some ps -> CutFrom s ps.
Proof.
  intros Hs. unfold pieces_of. destruct (row_dt k (np_diff (map fst s))) as [d|] eqn:Ed.
  - intros E. injection E as <-. assert (E : s = [] ++ s ++ []) by (rewrite app_nil_r; reflexivity).
    rewrite E at 1. apply cut_part. constructor.
  - destruct (Nat.eqb_spec (length s) 1) as [E1|E1]; [destruct drop; intros E; [injection E as <-; constructor|discriminate]|].
    assert (Hn : 3 <= length s).
    { destruct (Nat.eq_dec (length s) 2) as [E2|E2]; [destruct (short_regular k s E2 Ed)|].
      destruct Hs as [Hs _]. destruct s as [|p s']; [congruence|]. cbn in *. lia. }
    assert (Hf : forall f, CutFrom s (filter f (chunks s))).
    { intros f. assert (H := cut_filter f (chunks s) []). cbn [app] in H. rewrite chunks_concat in H by exact Hn. exact H. }
    destruct drop.
    + intros E. injection E as <-. destruct (_ =? 2); [constructor|apply Hf].
    + destruct (forallb big (chunks s)) eqn:Ef; [|discriminate]. intros E. injection E as <-.
      rewrite <- (filter_all_true big (chunks s)); [apply Hf|]. apply forallb_forall. exact Ef.
Qed.

Lemma in_pieces k drop (s : series) ps c : GoodSeries s -> pieces_of k drop s = Some ps -> In c ps ->
  (c = s /\ exists d, row_dt k (np_diff (map fst s)) = Some d) \/
  (3 <= length s /\ In c (chunks s) /\ 2 <= length c).
Proof.
  intros Hs. unfold pieces_of. destruct (row_dt k (np_diff (map fst s))) as [d|] eqn:Ed.
  - intros E. injection E as <-. intros [<-|[]]. left. split; [reflexivity|]. eauto.
  - destruct (Nat.eqb_spec (length s) 1) as [E1|E1]; [destruct drop; intros E; [injection E as <-; intros []|discriminate]|].
    assert (Hn : 3 <= length s).
    { destruct (Nat.eq_dec (length s) 2) as [E2|E2]; [destruct (short_regular k s E2 Ed)|].
      destruct Hs as [Hs' _]. destruct s as [|p s']; [congruence|]. cbn in *. lia. }
    assert (Hb : In c (chunks s) -> big c = true -> 2 <= length c).
    { intros H1 H2. apply cutl_nonempty in H1. unfold big in H2. destruct c as [|x [|y c]]; [congruence|discriminate|cbn; lia]. }
    destruct drop.
    + intros E. injection E as <-. intros Hc. destruct (_ =? 2); [destruct Hc|]. apply filter_In in Hc. right. intuition.
    + destruct (forallb big (chunks s)) eqn:Ef; [|discriminate]. intros E. injection E as <-. intros Hc.
      rewrite forallb_forall in Ef. right. auto.
Qed.

Definition tm (s : series) (k : nat) : Z := nth k (map fst s) 0%Z.

Lemma tm_mid (l : series) x r : tm (l ++ x :: r) (length l) = fst x.
Proof. unfold tm. rewrite map_app, app_nth2 by (rewrite map_length; lia). rewrite map_length, Nat.sub_diag. reflexivity. Qed.

Lemma tm_mid' (l : series) x y r : tm (l ++ x :: y :: r) (S (length l)) = fst y.
Proof.
  replace (l ++ x :: y :: r) with ((l ++ [x]) ++ y :: r) by (rewrite <- app_assoc; reflexivity).
  replace (S (length l)) with (length (l ++ [x])) by (rewrite app_length; cbn; lia). apply tm_mid.
Qed.

Lemma tm_app (l c r : series) j : j < length c -> tm (l ++ c ++ r) (length l + j) = tm c j.
Proof.
  intros H. unfold tm. rewrite !map_app, app_nth2 by (rewrite map_length; lia). rewrite map_length.
  replace (length l + j - length l) with j by lia. apply app_nth1. rewrite map_length. exact H.
Qed.

Lemma equidistant_nth (c : series) d : 2 <= length c ->
  (forall j, S j < length c -> (tm c (S j) - tm c j = d)%Z) <-> EquidistantBy d c.
Proof.
  intros H2. split.
  - intros H. split; [exact H2|]. intros l a b r E. specialize (H (length l)).
    rewrite E, tm_mid, tm_mid' in H. apply H. rewrite app_length. cbn. lia.
  - intros [_ H] j Hj.
    destruct (nth_split (map fst c) 0%Z (n := j)) as (l1 & l2 & E & El); [rewrite map_length; lia|].
    assert (Hx : exists x, nth_error c j = Some x) by (destruct (nth_error c j) eqn:Ex; [eauto|apply nth_error_None in Ex; lia]).
    destruct Hx as (x & Hx). apply nth_error_split in Hx. destruct Hx as (p & q & Ec & Ep).
    destruct q as [|y q]; [rewrite Ec, app_length in Hj; cbn in Hj; lia|].
    specialize (H p x y q Ec). rewrite <- Ep, Ec, tm_mid, tm_mid'. exact H.
Qed.

Lemma chunk_equidistant (s c : series) : 3 <= length s -> In c (chunks s) -> 2 <= length c -> Equidistant c.
Proof.
  intros Hn Hc H2. apply in_split in Hc. destruct Hc as (cs1 & cs2 & E).
  assert (Hl : 3 <= length (map fst s)) by (rewrite map_length; exact Hn).
  destruct (cutl_flags (indicator (map fst s)) s cs1 c cs2) as [Hin _]; [rewrite indicator_length, map_length by exact Hl; reflexivity|exact E|].
  assert (Es := chunks_concat s Hn). rewrite E, concat_app in Es. cbn [concat] in Es.
  set (o := length (concat cs1)) in *.
  assert (Hlen : o + length c <= length s) by (rewrite <- Es, !app_length; fold o; lia).
  assert (Hstep : forall j, S (S j) < length c -> (tm c (S (S j)) - tm c (S j) = tm c (S j) - tm c j)%Z).
  { intros j Hj. rewrite <- !(tm_app (concat cs1) c (concat cs2)) by lia. rewrite Es. fold o.
    replace (o + S (S j)) with (S (S (o + j))) by lia. replace (o + S j) with (S (o + j)) by lia.
    apply inside_equal; [exact Hl|rewrite map_length; lia|apply Hin; lia|apply Hin; lia]. }
  exists (tm c 1 - tm c 0)%Z. apply equidistant_nth; [exact H2|].
  induction j as [|j IH]; intros Hj; [reflexivity|]. rewrite Hstep by exact Hj. apply IH. lia.
Qed.

Lemma exact_equidistant (s : series) d : row_dt_exact (np_diff (map fst s)) = Some d <-> EquidistantBy d s.
Proof.
  rewrite row_dt_exact_some. split.
  - intros [H1 H2]. assert (Hl : 2 <= length s).
    { destruct s as [|x [|y s]]; cbn in H1; try congruence. cbn. lia. }
    apply equidistant_nth; [exact Hl|]. intros j Hj. apply H2. unfold tm.
    rewrite <- np_diff_nth by (rewrite map_length; exact Hj). apply nth_In. rewrite np_diff_length, map_length. lia.
  - intros H. assert (Hl : 2 <= length s) by apply H. split.
    + intros E. apply (f_equal (@length _)) in E. rewrite np_diff_length, map_length in E. cbn in E. lia.
    + intros y Hy. apply (In_nth _ _ 0%Z) in Hy. destruct Hy as (j & Hj & <-). rewrite np_diff_length, map_length in Hj.
      rewrite np_diff_nth by (rewrite map_length; lia). apply (equidistant_nth s d Hl); [exact H|lia].
Qed.

Lemma row_dt_not_float k d : k <> KFloat -> row_dt k d = row_dt_exact d.
Proof. intros H. destruct d as [|x [|y r]]; [reflexivity|reflexivity|]. destruct k; [reflexivity|congruence|reflexivity]. Qed.

Lemma pieces_equidistant k drop (s c : series) ps : k <> KFloat -> GoodSeries s -> pieces_of k drop s = Some ps -> In c ps ->
  Equidistant c.
Proof.
  intros Hk Hs HP Hc. destruct (in_pieces k drop s ps c Hs HP Hc) as [(-> & d & Hd)|(H1 & H2 & H3)].
  - rewrite row_dt_not_float in Hd by exact Hk. exists d. apply exact_equidistant. exact Hd.
  - apply (chunk_equidistant s); assumption.
Qed.

Lemma sorted_inj (s : series) a b : StronglySorted Z.lt (map fst s) -> a < length s -> b < length s -> tm s a = tm s b -> a = b.
Proof.
  intros H Ha Hb E. assert (Hnd := sorted_lt_NoDup _ H).
  apply (proj1 (NoDup_nth (map fst s) 0%Z) Hnd); rewrite ?map_length; assumption.
Qed.

(** the sample before a piece does not continue it to the left *)
Lemma pieces_left k drop (s c : series) ps l x r : GoodSeries s -> pieces_of k drop s = Some ps -> In c ps ->
  s = l ++ x :: c ++ r -> ~ Equidistant (x :: c).
Proof.
  intros Hs HP Hc E. destruct (in_pieces k drop s ps c Hs HP Hc) as [(-> & _)|(Hn & H2 & H3)].
  - apply (f_equal (@length _)) in E. rewrite app_length in E. cbn in E. rewrite app_length in E. lia.
  - assert (Hl : 3 <= length (map fst s)) by (rewrite map_length; exact Hn).
    apply in_split in H2. destruct H2 as (cs1 & cs2 & Ec).
    destruct (cutl_flags (indicator (map fst s)) s cs1 c cs2) as [_ Hst]; [rewrite indicator_length, map_length by exact Hl; reflexivity|exact Ec|].
    assert (Es := chunks_concat s Hn). rewrite Ec, concat_app in Es. cbn [concat] in Es.
    assert (E' : s = (l ++ [x]) ++ c ++ r) by (rewrite <- app_assoc; exact E).
    assert (Eo : length (concat cs1) = length (l ++ [x])).
    { apply (sorted_inj s); [apply Hs| | |].
      - rewrite <- Es, !app_length. lia.
      - rewrite E', !app_length. lia.
      - rewrite <- (Nat.add_0_r (length (concat cs1))), <- (Nat.add_0_r (length (l ++ [x]))).
        rewrite <- Es at 1. rewrite E' at 1. rewrite !tm_app by lia. reflexivity. }
    rewrite app_length, Nat.add_1_r in Eo. cbn in Eo.
    assert (Hf : nth (S (length l)) (indicator (map fst s)) false = true).
    { rewrite <- Eo. apply Hst. intros ->. discriminate. }
    assert (Hls : length s = length l + S (length c + length r)) by (rewrite E, app_length; cbn; rewrite app_length; reflexivity).
    destruct (start_differs (map fst s) Hl (length l)) as [_ Hd]; [rewrite map_length; lia|exact Hf|].
    intros [d Hq]. apply Hd.
    assert (Hq' := proj2 (equidistant_nth (x :: c) d ltac:(cbn; lia)) Hq).
    assert (T : forall j, j < length (x :: c) -> tm s (length l + j) = tm (x :: c) j).
    { intros j Hj. rewrite E. change (x :: c ++ r) with ((x :: c) ++ r). apply tm_app. exact Hj. }
    fold (tm s (length l)) (tm s (S (length l))) (tm s (S (S (length l)))).
    assert (T0 := T 0 ltac:(cbn; lia)). assert (T1 := T 1 ltac:(cbn; lia)). assert (T2 := T 2 ltac:(cbn; lia)).
    rewrite Nat.add_0_r in T0. rewrite Nat.add_1_r in T1. replace (length l + 2) with (S (S (length l))) in T2 by lia.
    rewrite T0, T1, T2, (Hq' 1), (Hq' 0) by (cbn; lia). reflexivity.
Qed.

Lemma nth_mid (l : series) x r d : nth (length l) (l ++ x :: r) d = x.
Proof. rewrite app_nth2 by lia. rewrite Nat.sub_diag. reflexivity. Qed.

(** samples of a triple are kept *)
Lemma triple_big (s : series) p : 3 <= length s -> InTriple s p -> exists c, In c (filter big (chunks s)) /\ In p c.
Proof.
  intros Hn (l & a & b & c & r & E & Hd & Hp).
  assert (Hl : 3 <= length (map fst s)) by (rewrite map_length; exact Hn).
  assert (Hlen : length s = length l + S (S (S (length r)))) by (rewrite E, app_length; reflexivity).
  assert (Ea : nth (length l) s p = a) by (rewrite E; apply nth_mid).
  assert (Eb : nth (S (length l)) s p = b).
  { rewrite E. replace (l ++ a :: b :: c :: r) with ((l ++ [a]) ++ b :: c :: r) by (rewrite <- app_assoc; reflexivity).
    replace (S (length l)) with (length (l ++ [a])) by (rewrite app_length; cbn; lia). apply nth_mid. }
  assert (Ec : nth (S (S (length l))) s p = c).
  { rewrite E. replace (l ++ a :: b :: c :: r) with ((l ++ [a; b]) ++ c :: r) by (rewrite <- app_assoc; reflexivity).
    replace (S (S (length l))) with (length (l ++ [a; b])) by (rewrite app_length; cbn; lia). apply nth_mid. }
  assert (T : forall j, j < length s -> tm s j = fst (nth j s p)).
  { intros j Hj. unfold tm. rewrite (nth_indep _ 0%Z (fst p)) by (rewrite map_length; exact Hj). apply map_nth. }
  destruct (triple_flags (map fst s) Hl (length l)) as [F1 F2].
  { rewrite map_length. lia. }
  { fold (tm s (length l)) (tm s (S (length l))) (tm s (S (S (length l)))).
    rewrite !T by lia. rewrite Ea, Eb, Ec. lia. }
  assert (Ei : length (indicator (map fst s)) = length s) by (rewrite indicator_length, map_length by exact Hl; reflexivity).
  assert (Hk : forall j, S j < length s -> nth (S j) (indicator (map fst s)) false = false ->
    exists h, In h (filter big (chunks s)) /\ In (nth j s p) h /\ In (nth (S j) s p) h).
  { intros j Hj Hf. destruct (cutl_together _ s j p Ei Hj Hf) as (h & H1 & H2 & H3 & H4). exists h. split; [|auto].
    apply filter_In. split; [exact H1|]. unfold big. destruct (Nat.eqb_spec (length h) 1); [lia|reflexivity]. }
  destruct (Hk (length l) ltac:(lia) F1) as (h & H1 & H2 & H3). rewrite Ea in H2. rewrite Eb in H3.
  destruct Hp as [<-|[<-|[<-|[]]]]; [eauto|eauto|].
  destruct (nth (S (S (length l))) (indicator (map fst s)) false) eqn:Ef.
  - destruct (F2 eq_refl) as [Hlt F3]. rewrite map_length in Hlt. destruct (Hk (S (S (length l))) Hlt F3) as (h' & H1' & H2' & H3').
    rewrite Ec in H2'. eauto.
  - destruct (Hk (S (length l)) ltac:(lia) Ef) as (h' & H1' & H2' & H3'). rewrite Ec in H3'. eauto.
Qed.

Lemma triple_long (s : series) p : InTriple s p -> 3 <= length s.
Proof. intros (l & a & b & c & r & E & _). rewrite E, app_length. cbn. lia. Qed.

Lemma pieces_triple k drop (s : series) ps p : GoodSeries s -> pieces_of k drop s = Some ps -> InTriple s p ->
  exists c, In c ps /\ In p c.
Proof.
  intros Hs HP Hp. assert (Hn := triple_long s p Hp). revert HP. unfold pieces_of.
  destruct (row_dt k (np_diff (map fst s))) as [d|] eqn:Ed.
  - intros E. injection E as <-. exists s. split; [left; reflexivity|].
    destruct Hp as (l & a & b & c & r & -> & _ & Hp). apply in_or_app. right. cbn in *. tauto.
  - destruct (Nat.eqb_spec (length s) 1) as [E1|E1]; [lia|]. destruct drop.
    + intros E. injection E as <-. destruct (Nat.eqb_spec (length (concat (filter big (chunks s)))) 2) as [E2|E2].
      * exfalso. destruct Hp as (l & a & b & c & r & E & Hd & _).
        assert (Hin : incl [a; b; c] (concat (filter big (chunks s)))).
        { intros q Hq. destruct (triple_big s q Hn) as (h & H1 & H2); [exists l, a, b, c, r; auto|].
          apply in_concat. eauto. }
        assert (Hnd : NoDup [a; b; c]).
        { destruct Hs as (_ & _ & Hs). rewrite E, map_app in Hs.
          assert (Hs' : StronglySorted Z.lt (map fst [a; b; c])) by (apply (sorted_sub (map fst l) _ (map fst r)); exact Hs).
          apply (NoDup_map_inv fst). apply sorted_lt_NoDup. exact Hs'. }
        assert (H := NoDup_incl_length Hnd Hin). rewrite E2 in H. cbn in H. lia.
      * apply triple_big; assumption.
    + destruct (forallb big (chunks s)) eqn:Ef; [|discriminate]. intros E. injection E as <-.
      destruct (triple_big s p Hn Hp) as (h & H1 & H2). apply filter_In in H1. exists h. tauto.
Qed.

Lemma pieces_total k (s : series) : exists ps, pieces_of k true s = Some ps.
Proof.
  unfold pieces_of. destruct (row_dt k _); [eauto|]. destruct (length s =? 1); eauto.
Qed.

Lemma pieces_all k (s : series) ps : GoodSeries s -> pieces_of k false s = Some ps -> concat ps = s.
Proof.
  intros Hs. unfold pieces_of. destruct (row_dt k (np_diff (map fst s))) as [d|] eqn:Ed.
  - intros E. injection E as <-. cbn. apply app_nil_r.
  - destruct (Nat.eqb_spec (length s) 1) as [E1|E1]; [discriminate|].
    destruct (forallb big (chunks s)); [|discriminate]. intros E. injection E as <-.
    apply chunks_concat. destruct (Nat.eq_dec (length s) 2) as [E2|E2]; [destruct (short_regular k s E2 Ed)|].
    destruct Hs as [Hs _]. destruct s as [|p s']; [congruence|]. cbn in *. lia.
Qed.

Lemma pieces_exists k (s : series) : k <> KFloat -> GoodSeries s ->
  Equidistant s \/ (forall p, In p s -> InTriple s p) -> exists ps, pieces_of k false s = Some ps.
Proof.
  intros Hk Hs H. unfold pieces_of. rewrite row_dt_not_float by exact Hk.
  destruct (row_dt_exact (np_diff (map fst s))) as [d|] eqn:Ed; [eauto|].
  destruct H as [[d H]|H]; [apply exact_equidistant in H; congruence|].
  assert (Hn : 3 <= length s).
  { destruct Hs as [Hs _]. destruct s as [|p s']; [congruence|]. apply (triple_long _ p), H. left; reflexivity. }
  destruct (Nat.eqb_spec (length s) 1) as [E1|E1]; [lia|].
  replace (forallb big (chunks s)) with true; [eauto|]. symmetry. apply forallb_forall. intros c Hc.
  assert (Hne := cutl_nonempty _ _ _ Hc). destruct c as [|p [|q c]]; [congruence| |reflexivity]. exfalso.
  assert (Es := chunks_concat s Hn). assert (Hps : In p s) by (rewrite <- Es; apply in_concat; exists [p]; split; [exact Hc|left; reflexivity]).
  destruct (triple_big s p Hn (H p Hps)) as (h & H1 & H2). apply filter_In in H1. destruct H1 as [H1 Hb].
  assert (Hhp : h = [p]); [|rewrite Hhp in Hb; discriminate].
  assert (Hsd : StronglySorted Z.lt (map fst (concat (chunks s)))) by (rewrite Es; apply Hs).
  revert Hc H1 H2 Hsd. generalize (chunks s). intros cs. clear. induction cs as [|x cs IH]; intros Hc H1 H2 Hsd; [destruct Hc|].
  cbn [concat] in Hsd. rewrite map_app in Hsd.
  assert (Hx : forall u v, In u x -> In v (concat cs) -> (fst u < fst v)%Z).
  { intros u v Hu Hv. apply in_split in Hu, Hv. destruct Hu as (u1 & u2 & ->), Hv as (v1 & v2 & Ev). rewrite Ev in Hsd.
    rewrite !map_app in Hsd. cbn [map] in Hsd. rewrite <- app_assoc in Hsd. cbn in Hsd.
    rewrite app_assoc in Hsd.
    apply (sorted_split _ Hsd (map fst u1) (fst u) (map fst u2 ++ map fst v1) (fst v) (map fst v2)).
    reflexivity. }
  destruct Hc as [->|Hc], H1 as [->|H1].
  - reflexivity.
  - exfalso. specialize (Hx p p (or_introl eq_refl) ltac:(apply in_concat; eauto)). lia.
  - exfalso. specialize (Hx p p H2 ltac:(apply in_concat; exists [p]; split; [exact Hc|left; reflexivity])). lia.
  - apply IH; auto. apply (sorted_sub (map fst x) _ []). rewrite app_nil_r. exact Hsd.
Qed.

Lemma pieces_regular k drop (s : series) ps : k <> KFloat -> Equidistant s -> pieces_of k drop s = Some ps -> ps = [s].
Proof.
  intros Hk [d H]. unfold pieces_of. rewrite row_dt_not_float by exact Hk.
  apply exact_equidistant in H. rewrite H. intros E. injection E as <-. reflexivity.
Qed.

End Loop.
