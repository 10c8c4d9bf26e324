(** * Proofs: closed control loop. *)

From Coq Require Import List ZArith Bool Arith Lia Sorted Permutation.
Import ListNotations.
From Verif Require Import Np NpFacts TscModel TscSpec TscProofs TscBlocks TscOps TscRegular DerList AccModel AccSpec AccProofs
  BldModel BldSpec BldBuild BldShift AsgLoop LoopModel LoopSpec.
Open Scope Z_scope.

(** ** Sampled series *)

Section Sampled.
Context {A : Type}.
Implicit Types (t d : Z) (l : list A).

Lemma sampled_length t d l : length (sampled t d l) = length l.
Proof. revert t. induction l as [|v l IH]; intros t; cbn; [reflexivity|]. rewrite IH. reflexivity. Qed.

Lemma sampled_app t d l l' : sampled t d (l ++ l') = sampled t d l ++ sampled (t + Z.of_nat (length l) * d) d l'.
Proof.
  revert t. induction l as [|v l IH]; intros t; cbn [sampled app length].
  - f_equal. lia.
  - rewrite IH. do 3 f_equal. lia.
Qed.

Lemma sampled_rval t d l : to_numpy (sampled t d l) = l.
Proof. revert t. induction l as [|v l IH]; intros t; cbn; [reflexivity|]. f_equal. apply IH. Qed.

Lemma sampled_only t d l : OnlySeries (sampled t d l) 0.
Proof. revert t. induction l as [|v l IH]; intros t r; cbn; [intros []|]. intros [<-|H]; [reflexivity|]. apply (IH _ _ H). Qed.

Lemma sampled_times_lt t d l : 0 < d -> forall r, In r (sampled t d l) -> t <= rtime r.
Proof.
  intros Hd. revert t. induction l as [|v l IH]; intros t r; cbn; [intros []|]. intros [<-|H]; [cbn; lia|].
  specialize (IH _ _ H). lia.
Qed.

Lemma sampled_times_before t d l : 0 < d -> forall r, In r (sampled t d l) -> rtime r < t + Z.of_nat (length l) * d.
Proof.
  intros Hd. revert t. induction l as [|v l IH]; intros t r; cbn [sampled length In]; [intros []|]. intros [<-|H]; [cbn [rtime]; nia|].
  specialize (IH _ _ H). lia.
Qed.

Lemma sampled_sorted t d l : 0 < d -> StronglySorted Z.lt (map rtime (sampled t d l)).
Proof.
  intros Hd. revert t. induction l as [|v l IH]; intros t; cbn; [constructor|]. constructor; [apply IH|].
  rewrite Forall_forall. intros x Hx. apply in_map_iff in Hx. destruct Hx as (r & <- & Hr).
  assert (H := sampled_times_lt (t + d) d l Hd r Hr). lia.
Qed.

Lemma sampled_rows t d l : sampled t d l = series_rows 0 (map (fun r => (rtime r, rval r)) (sampled t d l)).
Proof. revert t. induction l as [|v l IH]; intros t; cbn; [reflexivity|]. f_equal. apply IH. Qed.

Lemma sampled_valid t d l : 0 <= t -> 0 < d -> l <> [] -> ValidRows (sampled t d l).
Proof.
  intros Ht Hd Hl. rewrite sampled_rows. apply series_rows_valid; [lia|]. split; [|split].
  - destruct l; [congruence|discriminate].
  - intros p Hp. apply in_map_iff in Hp. destruct Hp as (r & <- & Hr). cbn. assert (H := sampled_times_lt t d l Hd r Hr). lia.
  - rewrite map_map. cbn. apply sampled_sorted, Hd.
Qed.

Lemma sampled_next t d l a b : Next (sampled t d l) a b -> rtime b - rtime a = d.
Proof.
  intros (p & q & E). revert t l E. induction p as [|c p IH]; intros t [|v [|w l]] E; cbn in E; try discriminate.
  - injection E as <- <- _. cbn. lia.
  - destruct p; discriminate.
  - injection E as _ E. apply (IH (t + d) (w :: l) E).
Qed.

Lemma sampled_regular t d l : (2 <= length l)%nat -> Regular (sampled t d l) 0 d.
Proof.
  intros Hl. split.
  - unfold rows_of. rewrite filter_all_true; [rewrite sampled_length; exact Hl|].
    intros r Hr. rewrite (sampled_only t d l r Hr). reflexivity.
  - intros a b H _ _. apply (sampled_next t d l a b H).
Qed.

Lemma sampled_skipn t d l k : skipn k (sampled t d l) = sampled (t + Z.of_nat k * d) d (skipn k l).
Proof.
  revert t l. induction k as [|k IH]; intros t l; [cbn; f_equal; lia|]. destruct l as [|v l]; [reflexivity|].
  cbn [skipn sampled]. rewrite IH. f_equal. lia.
Qed.

Lemma sampled_firstn t d l k : firstn k (sampled t d l) = sampled t d (firstn k l).
Proof. revert t l. induction k as [|k IH]; intros t l; [reflexivity|]. destruct l as [|v l]; [reflexivity|]. cbn. f_equal. apply IH. Qed.

Lemma sampled_repeat t d (v : A) k :
  sampled t d (repeat v k) = series_rows 0 (map (fun j => (t + Z.of_nat j * d, v)) (seq 0 k)).
Proof.
  assert (H : forall k a, sampled (t + Z.of_nat a * d) d (repeat v k) = series_rows 0 (map (fun j => (t + Z.of_nat j * d, v)) (seq a k))).
  { clear k. induction k as [|k IH]; intros a; [reflexivity|]. cbn [repeat sampled seq map series_rows]. f_equal.
    change (sampled (t + Z.of_nat a * d + d) d (repeat v k) = series_rows 0 (map (fun j => (t + Z.of_nat j * d, v)) (seq (Datatypes.S a) k))).
    rewrite <- IH. f_equal. lia. }
  specialize (H k 0%nat). rewrite <- H. f_equal. lia.
Qed.

Lemma sampled_time_values t d l : 0 < d -> time_values (sampled t d l) = map rtime (sampled t d l).
Proof. intros Hd. apply np_unique_of_sorted. apply sampled_sorted, Hd. Qed.

Lemma sampled_removelast t d l : t :: removelast (map rtime (sampled (t + d) d l)) = map rtime (sampled t d l) \/ l = [].
Proof.
  revert t. induction l as [|v l IH]; intros t; [right; reflexivity|]. left. cbn [sampled map].
  destruct l as [|w l]; [reflexivity|]. destruct (IH (t + d)) as [E|E]; [|discriminate].
  rewrite <- E. reflexivity.
Qed.

(** ** Padding of the reference *)

Lemma fill_sampled k t d l h : k <> KDatetime -> 0 <= t -> 0 < d -> (2 <= length l)%nat -> (length l < h)%nat ->
  fill_timeseries_with_last_state k h (sampled t d l) = Ok (sampled t d (window h l)).
Proof.
  intros Hk Ht Hd H2 Hh. destruct (exists_last (l:=l)) as (l' & v & ->); [destruct l; [cbn in H2; lia|discriminate]|].
  assert (E : sampled t d (l' ++ [v]) = sampled t d l' ++ [mkRow 0 (t + Z.of_nat (length l') * d) v]) by apply sampled_app.
  assert (HV : ValidRows (sampled t d (l' ++ [v]))) by (apply sampled_valid; [lia|lia|destruct l'; discriminate]).
  assert (HO := sampled_only t d (l' ++ [v])). assert (HR := sampled_regular t d (l' ++ [v]) H2).
  assert (HL := sampled_length t d (l' ++ [v])). rewrite E in HV, HO, HR, HL |- *.
  destruct (fill_zero k h _ _ d HV HO HR ltac:(rewrite HL; exact Hh) Hk) as (EF & _). rewrite EF. f_equal.
  unfold window. rewrite firstn_all2 by lia. rewrite rev_app_distr. cbn [rev app]. rewrite sampled_app, E. f_equal.
  unfold attached. rewrite HL, sampled_repeat. cbn [rtime rval]. unfold series_rows. rewrite !map_map. apply map_ext. intros j.
  f_equal. rewrite app_length. cbn [length]. cbn [fst]; rewrite Nat2Z.inj_add; lia.
Qed.

Lemma window_length h l : l <> [] -> length (window h l) = h.
Proof.
  intros Hl. destruct (exists_last Hl) as (l' & v & ->). unfold window. rewrite rev_app_distr. cbn [rev app].
  rewrite app_length, firstn_length, repeat_length. lia.
Qed.

Lemma reference_ok k h pre t d l : k <> KDatetime -> 0 <= t -> 0 < d -> (2 <= length l)%nat ->
  reference_window k h (pre ++ sampled t d l) (length pre) = Ok (sampled t d (window h l)).
Proof.
  intros Hk Ht Hd H2. unfold reference_window, iloc_slice.
  replace (length pre + h - length pre)%nat with h by lia.
  rewrite skipn_app, skipn_all, Nat.sub_diag. cbn [skipn app]. rewrite sampled_firstn, sampled_length, firstn_length.
  destruct (le_lt_dec h (length l)) as [H|H].
  - rewrite Nat.min_l by lia. rewrite Nat.eqb_refl. cbn [negb]. do 2 f_equal. unfold window.
    replace (h - length l)%nat with 0%nat by lia. cbn [repeat]. destruct (rev l); rewrite app_nil_r; reflexivity.
  - rewrite Nat.min_r by lia. destruct (Nat.eqb_spec (length l) h); [lia|]. cbn [negb]. rewrite firstn_all2 by lia.
    apply fill_sampled; assumption.
Qed.

(** ** Appending rows *)

Lemma only_sorted (F : list (row A)) i : ValidRows F -> OnlySeries F i -> StronglySorted Z.lt (map rtime F).
Proof.
  intros HV HO. rewrite (only_block F i HV HO). unfold series_rows. rewrite map_map. cbn [rtime].
  apply series_good; [exact HV|]. destruct F as [|r F]; [destruct (vr_nonempty _ HV eq_refl)|].
  exists r. split; [left; reflexivity|]. apply HO. left; reflexivity.
Qed.

Lemma sorted_app (a b : list Z) : StronglySorted Z.lt a -> StronglySorted Z.lt b ->
  (forall x y, In x a -> In y b -> x < y) -> StronglySorted Z.lt (a ++ b).
Proof.
  intros Ha Hb H. induction a as [|x a IH]; [exact Hb|]. cbn. apply StronglySorted_inv in Ha. destruct Ha as [Ha Hx].
  constructor.
  - apply IH; [exact Ha|]. intros u y Hu Hy. apply H; [right; exact Hu|exact Hy].
  - rewrite Forall_forall in *. intros y Hy. apply in_app_or in Hy. destruct Hy as [Hy|Hy]; [apply Hx, Hy|].
    apply H; [left; reflexivity|exact Hy].
Qed.

Lemma append_valid (F : list (row A)) t v : ValidRows F -> OnlySeries F 0 -> (forall r, In r F -> rtime r < t) ->
  ValidRows (F ++ [mkRow 0 t v]).
Proof.
  intros HV HO HT. apply (only_valid_app F _ 0 HV HO).
  - intros r [<-|[]]. reflexivity.
  - rewrite map_app. apply sorted_app; [apply (only_sorted F 0 HV HO)|repeat constructor|].
    intros x y Hx [<-|[]]. apply in_map_iff in Hx. destruct Hx as (r & <- & Hr). apply HT, Hr.
Qed.

Lemma last_times (F : list (row A)) t v : ValidRows (F ++ [mkRow 0 t v]) -> OnlySeries (F ++ [mkRow 0 t v]) 0 ->
  forall r, In r (F ++ [mkRow 0 t v]) -> rtime r <= t.
Proof.
  intros HV HO r Hr. apply in_app_or in Hr. destruct Hr as [Hr|[<-|[]]]; [|cbn; lia].
  apply in_split in Hr. destruct Hr as (l1 & l2 & ->).
  assert (H := vr_inc _ HV r (mkRow 0 t v) ltac:(exists l1, l2, []; rewrite <- app_assoc; reflexivity)).
  rewrite (HO r) in H by (apply in_or_app; left; apply in_or_app; right; left; reflexivity). specialize (H eq_refl). cbn in H. lia.
Qed.

Lemma tail_latest (l : list A) n t d : iloc_tail n (sampled t d l) = sampled (t + Z.of_nat (length l - n) * d) d (latest n l).
Proof. unfold iloc_tail, latest. rewrite sampled_length, sampled_skipn. reflexivity. Qed.

Lemma tail_one (F : list A) r : iloc_tail 1 (F ++ [r]) = [r].
Proof. unfold iloc_tail. rewrite app_length. cbn. replace (length F + 1 - 1)%nat with (length F) by lia. rewrite skipn_app, skipn_all, Nat.sub_diag. reflexivity. Qed.

End Sampled.

Lemma from_array_sampled {C R} t d (U : list C) (refs : list R) : 0 <= t -> 0 < d -> length U = length refs -> U <> [] ->
  from_array U (Some (t :: removelast (time_values (sampled (t + d) d refs)))) None = Ok (sampled t d U).
Proof.
  intros Ht Hd HL HU. rewrite sampled_time_values by exact Hd.
  destruct (sampled_removelast t d refs) as [E|E]; [|subst; destruct U; [congruence|discriminate]]. rewrite E.
  assert (ET : forall (l : list C) (l' : list R) t, length l = length l' -> map rtime (sampled t d l') = map rtime (sampled t d l)).
  { clear. induction l as [|v l IH]; intros [|w l'] t H; cbn in *; try lia; [reflexivity|]. f_equal. apply IH. lia. }
  rewrite (ET U refs t HL).
  assert (EC : combine (map rtime (sampled t d U)) U = map (fun r => (rtime r, rval r)) (sampled t d U)).
  { clear. revert t. induction U as [|v U IH]; intros t; cbn; [reflexivity|]. f_equal. apply IH. }
  apply from_array_spec. cbv beta zeta. rewrite map_length, sampled_length. split; [reflexivity|]. rewrite EC, <- sampled_rows.
  split; [|split; [reflexivity|apply sampled_sorted, Hd]].
  split; [lia|]. rewrite map_map. cbn [fst]. split; [destruct U; [congruence|discriminate]|]. split.
  - apply sorted_lt_NoDup, sampled_sorted, Hd.
  - intros x Hx. apply in_map_iff in Hx. destruct Hx as (r & <- & Hr). assert (H := sampled_times_lt t d U Hd r Hr). lia.
Qed.

Lemma augment_two {S C} (s s' : S) (u : C) t t' : 0 <= t -> t < t' ->
  augment_control_input [mkRow 0 t s; mkRow 0 t' s'] [mkRow 0 t u] = Ok [mkRow 0 t (s, None); mkRow 0 t' (s', Some u)].
Proof.
  intros Ht Htt. assert (HV : ValidRows [mkRow 0 t s; mkRow 0 t' s']).
  { replace t' with (t + (t' - t)) by lia. apply (sampled_valid t (t' - t) [s; s']); [lia|lia|discriminate]. }
  rewrite (augment_ok _ _ [mkRow 0 t u] HV); [|discriminate|reflexivity]. f_equal. cbn. unfold pair_eqb. cbn.
  rewrite Z.eqb_refl. destruct (Z.eqb_spec t t'); [lia|]. reflexivity.
Qed.

(** ** The loop *)

Section Loop.
Context {S V L C R : Type}.
Variable kind : tkind.
Variable lift : list (row V) -> result (list (row L)).
Variable repr : list V -> L.
Variable solve : L -> list R -> option (list C).
Variable plant : list (row S) -> list (row C) -> list Z -> result (list (row S)).
Variable step : S -> C -> option S.
Variable features : S -> option C -> V.
Variable n : nat.
Variable d : Z.
Variable h : nat.
Hypothesis Hk : kind <> KDatetime.
Hypothesis Hd : 0 < d.
Hypothesis Hn : (1 <= n)%nat.
Hypothesis Hh : (1 <= h)%nat.
Hypothesis HL : Lifts lift repr n d.
Hypothesis HP : Plans solve h.
Hypothesis HS : Plant plant step.

Notation plan := (fun past refs => solve (repr past) refs).
Notation loop m s past refs := (closed_loop plan step (fun s u => features s (Some u)) n h m s past refs).

Lemma sequence_ok tx past refs : 0 <= tx -> (n <= length past)%nat -> refs <> [] ->
  let t := tx + (Z.of_nat (length past) - 1) * d in
  control_sequence_horizon lift solve d h (iloc_tail n (sampled tx d past)) (sampled (t + d) d (window h refs)) =
  match plan (latest n past) (window h refs) with
  | None => Err ValueError
  | Some U => Ok (sampled t d U)
  end.
Proof.
  intros Ht Hp Hr t. unfold control_sequence_horizon. rewrite tail_latest.
  assert (HN : length (latest n past) = n) by (unfold latest; rewrite skipn_length; lia).
  rewrite HL; [|nia|exact HN]. cbn [bind].
  assert (HW := window_length h refs Hr).
  replace (tx + Z.of_nat (length past - n) * d + (Z.of_nat n - 1) * d) with t by (unfold t; nia).
  assert (Et : hd 0 (time_values [mkRow 0 t (repr (latest n past))]) = t) by reflexivity. rewrite Et.
  rewrite sampled_time_values by exact Hd.
  assert (Er : hd 0 (map rtime (sampled (t + d) d (window h refs))) = t + d).
  { destruct (window h refs); [cbn in HW; lia|]. reflexivity. }
  rewrite Er, Z.eqb_refl. cbn [negb]. rewrite sampled_length, HW, Nat.eqb_refl. cbn [negb rval].
  rewrite sampled_rval. destruct (solve _ _) as [U|] eqn:ES; [|reflexivity].
  assert (HU := HP _ _ U HW ES). rewrite <- (sampled_time_values (t + d) d (window h refs) Hd).
  apply from_array_sampled; [unfold t; nia|exact Hd|lia|]. destruct U; [cbn in HU; lia|discriminate].
Qed.

Definition joined (Uo : option (list (row C))) (t : Z) (us : list C) : option (list (row C)) :=
  match us, Uo with
  | [], _ => Uo
  | _, None => Some (sampled t d us)
  | _, Some U => Some (U ++ sampled t d us)
  end.

Lemma control_loop_ok : forall m X_ref pre refs s past t tx (P : list (row S)) Uo,
  X_ref = pre ++ sampled (t + d) d refs -> (m < length refs)%nat ->
  0 <= tx -> (n <= length past)%nat -> t = tx + (Z.of_nat (length past) - 1) * d ->
  ValidRows (P ++ [mkRow 0 t s]) -> OnlySeries (P ++ [mkRow 0 t s]) 0 ->
  match Uo with None => True | Some U => ValidRows U /\ OnlySeries U 0 /\ (forall r, In r U -> rtime r < t) end ->
  control_loop kind lift solve plant features n d h true X_ref (seq (length pre) m) (P ++ [mkRow 0 t s]) (sampled tx d past) Uo =
  match loop m s past refs with
  | None => Err ValueError
  | Some l => Ok ((P ++ [mkRow 0 t s]) ++ sampled (t + d) d (map snd l), joined Uo t (map fst l))
  end.
Proof.
  induction m as [|m IH]; intros X_ref pre refs s past t tx P Uo EX Hm Htx Hp Et HV HO HU.
  - cbn. rewrite app_nil_r. reflexivity.
  - assert (Ht : 0 <= t) by nia.
    cbn [seq control_loop closed_loop]. rewrite EX at 1. rewrite (reference_ok kind h pre (t + d) d refs) by (assumption || lia).
    cbn [bind]. assert (Hr : refs <> []) by (destruct refs; [cbn in Hm; lia|discriminate]).
    assert (HQ := sequence_ok tx past refs Htx Hp Hr). cbv zeta in HQ. rewrite <- Et in HQ. rewrite HQ. clear HQ.
    destruct (solve (repr (latest n past)) (window h refs)) as [us|] eqn:ES; [|reflexivity]. cbn [bind].
    assert (HUL := HP _ _ us (window_length h refs Hr) ES). destruct us as [|u us]; [cbn in HUL; lia|].
    cbn [sampled firstn]. rewrite tail_one. rewrite sampled_time_values by exact Hd.
    assert (Er : hd 0 (map rtime (sampled (t + d) d (window h refs))) = t + d).
    { assert (HW := window_length h refs Hr). destruct (window h refs); [cbn in HW; lia|]. reflexivity. }
    rewrite Er. change (hd 0 (time_values [mkRow 0 t u])) with t. rewrite HS.
    destruct (step s u) as [s'|].
    2:{ cbn. rewrite app_nil_r. reflexivity. }
    unfold edmd_rows. rewrite augment_two by lia. cbn [bind]. 
    change (iloc_tail 1 [mkRow 0 t (s, None); mkRow 0 (t + d) (s', Some u)]) with [mkRow 0 (t + d) (s', Some u)].
    change (iloc_tail 1 [mkRow 0 t s; mkRow 0 (t + d) s']) with [mkRow 0 (t + d) s'].
    cbn [map fst snd rid rtime rval].
    assert (HV' : ValidRows ((P ++ [mkRow 0 t s]) ++ [mkRow 0 (t + d) s'])).
    { apply append_valid; [exact HV|exact HO|]. intros r Hr'. assert (H := last_times P t s HV HO r Hr'). lia. }
    rewrite (proj2 (tsc_ok ((P ++ [mkRow 0 t s]) ++ [mkRow 0 (t + d) s']) _) (conj HV' eq_refl)). cbn [bind].
    assert (EU : match Uo with None => Ok [mkRow 0 t u] | Some U => tsc (U ++ [mkRow 0 t u]) end =
                 Ok (match Uo with None => [mkRow 0 t u] | Some U => U ++ [mkRow 0 t u] end)).
    { destruct Uo as [U|]; [|reflexivity]. destruct HU as (H1 & H2 & H3). apply tsc_ok. split; [|reflexivity].
      apply append_valid; assumption. }
    rewrite EU. cbn [bind].
    assert (EXS : sampled tx d past ++ [mkRow 0 (t + d) (features s' (Some u))] = sampled tx d (past ++ [features s' (Some u)])).
    { rewrite sampled_app. cbn [sampled]. do 3 f_equal. rewrite Et. lia. }
    rewrite EXS. rewrite (proj2 (tsc_ok (sampled tx d (past ++ [features s' (Some u)])) (sampled tx d (past ++ [features s' (Some u)])))); [|split; [|reflexivity]; apply sampled_valid; [lia|lia|destruct past; discriminate]].
    cbn [bind].
    destruct refs as [|r0 refs]; [congruence|]. cbn [tl] in *. cbn [length] in Hm.
    assert (EL : Datatypes.S (length pre) = length (pre ++ [mkRow 0 (t + d) r0])) by (rewrite app_length; cbn; lia).
    rewrite EL.
    rewrite (IH X_ref (pre ++ [mkRow 0 (t + d) r0]) refs s' (past ++ [features s' (Some u)]) (t + d) tx (P ++ [mkRow 0 t s])).
    + destruct (closed_loop _ _ _ n h m s' _ refs) as [l|]; [|reflexivity]. f_equal. cbn [map fst snd sampled]. f_equal.
      * rewrite <- app_assoc. reflexivity.
      * unfold joined. destruct l as [|[u1 s1] l]; cbn [map fst].
        -- destruct Uo; reflexivity.
        -- destruct Uo; cbn [sampled app]; [rewrite <- app_assoc|]; reflexivity.
    + rewrite EX, <- app_assoc. reflexivity.
    + lia.
    + exact Htx.
    + rewrite app_length. lia.
    + rewrite app_length, Et. cbn [length]. lia.
    + exact HV'.
    + intros r Hr'. apply in_app_or in Hr'. destruct Hr' as [Hr'|[<-|[]]]; [apply HO, Hr'|reflexivity].
    + destruct Uo as [U|].
      * destruct HU as (H1 & H2 & H3). split; [apply append_valid; assumption|]. split.
        -- intros r Hr'. apply in_app_or in Hr'. destruct Hr' as [Hr'|[<-|[]]]; [apply H2, Hr'|reflexivity].
        -- intros r Hr'. apply in_app_or in Hr'. destruct Hr' as [Hr'|[<-|[]]]; [specialize (H3 r Hr'); lia|cbn; lia].
      * split; [apply (sampled_valid t d [u]); [lia|lia|discriminate]|]. split.
        -- intros r [<-|[]]. reflexivity.
        -- intros r [<-|[]]. cbn. lia.
Qed.

End Loop.
