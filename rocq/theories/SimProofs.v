(** * Proofs about simulated systems. *)

From Coq Require Import List ZArith Bool Arith QArith Sorted Permutation Lia.
Import ListNotations.
From Verif Require Import Np NpFacts TscModel TscSpec TscProofs TscBlocks TscBuild TscDt TscOps CvWindow ChkModel ChkSpec ChkProofs AccProofs
  PredModel PredSpec PredProofs BldModel BldSpec BldBuild SimModel SimSpec.
Close Scope Q_scope.
Open Scope Z_scope.

(** ** Collections built from solutions *)

Section Frames.
Context {V : Type}.
Notation frame := (list (row V)).

Lemma times_series_rows i (s : list (Z * V)) : map rtime (series_rows i s) = map fst s.
Proof. unfold series_rows. rewrite map_map. reflexivity. Qed.

Lemma pairs_series_rows i (s : list (Z * V)) : map (fun r => (rtime r, rval r)) (series_rows i s) = s.
Proof. unfold series_rows. rewrite map_map. cbn. induction s as [|[a b] s IH]; cbn; congruence. Qed.

Lemma from_array_sorted (ys : list V) tv oi F : StronglySorted Z.lt tv ->
  from_array ys (Some tv) oi = Ok F ->
  length ys = length tv /\ F = series_rows (match oi with None => 0 | Some i => i end) (combine tv ys) /\ ValidRows F /\
  0 <= match oi with None => 0 | Some i => i end.
Proof.
  intros HS E. apply from_array_spec in E. destruct E as (Hl & HG & HP & HF).
  set (i := match oi with None => 0 | Some i => i end) in *.
  assert (EF : F = series_rows i (combine tv ys)).
  { apply sorted_rows_unique; [exact HP|exact HF|]. rewrite times_series_rows, map_fst_combine_eq by exact Hl. exact HS. }
  split; [lia|]. split; [exact EF|]. split; [|exact (proj1 HG)]. rewrite EF. apply good_series_rows. split; [exact (proj1 HG)|].
  destruct HG as (_ & Hne & _ & Hp). unfold GoodSeries. split; [exact Hne|split].
  - intros p Hin. apply Hp. apply in_map. exact Hin.
  - rewrite map_fst_combine_eq by lia. exact HS.
Qed.

Lemma split_single i (s : list (Z * V)) : s <> [] -> split_item (Collection (series_rows i s)) = [s].
Proof.
  intros Hne. unfold split_item.
  assert (E : ids (series_rows i s) = [i]).
  { unfold ids. rewrite <- (np_unique_of_sorted [i]) by (repeat constructor). apply np_unique_ext. intros x.
    unfold ids_index, series_rows. rewrite map_map. cbn. rewrite in_map_iff. split.
    - intros (p & <- & _). left. reflexivity.
    - intros [<-|[]]. destruct s as [|p s]; [congruence|]. exists p. split; [reflexivity|left; reflexivity]. }
  rewrite E. cbn [length Nat.ltb Nat.leb]. rewrite pairs_series_rows. reflexivity.
Qed.

(** The collection of solutions. *)
Lemma collect_spec (ls : list Z) (parts : list (list (Z * V))) G :
  length ls = length parts -> (forall s, In s parts -> GoodSeries s) -> (forall i, In i ls -> 0 <= i) ->
  from_items (map Collection (map (fun p => series_rows (fst p) (snd p)) (combine ls parts))) None = Ok G ->
  ValidRows G /\ (forall i, Occurs G i <-> 0 <= i < Z.of_nat (length parts)) /\
  forall k s, nth_error parts k = Some s -> rows_of G (Z.of_nat k) = series_rows (Z.of_nat k) s.
Proof.
  intros Hl Hg Hn E.
  assert (Hsp : forall ls (parts : list (list (Z * V))), length ls = length parts -> (forall s, In s parts -> s <> []) ->
    flat_map split_item (map Collection (map (fun p => series_rows (fst p) (snd p)) (combine ls parts))) = parts).
  { clear. induction ls as [|i ls IH]; intros [|s parts] Hl Hne; try discriminate; [reflexivity|].
    cbn [combine map flat_map]. cbn [fst snd]. rewrite split_single by (apply Hne; left; reflexivity).
    rewrite IH by (first [cbn in Hl; lia|intros s' Hs'; apply Hne; right; exact Hs']). reflexivity. }
  assert (Hne : forall s, In s parts -> s <> []) by (intros s Hs; apply Hg; exact Hs).
  assert (HV : ValidRows G).
  { unfold from_items in E. destruct (map Collection _); [discriminate|]. unfold from_frame_list in E.
    destruct (flat_map split_item _) in E; [discriminate|]. cbv zeta in E. destruct (negb _ || negb _) in E; [discriminate|].
    destruct (map_result _ _) in E; [|discriminate]. apply tsc_ok in E. destruct E as [E ->]. exact E. }
  apply from_items_spec in E.
  2:{ intros x Hx. apply in_map_iff in Hx. destruct Hx as (F & <- & HF). apply in_map_iff in HF. destruct HF as ([i s] & <- & His).
      cbn. apply good_series_rows. split; [apply Hn; eapply in_combine_l; exact His|apply Hg; eapply in_combine_r; exact His]. }
  destruct E as (_ & parts' & labels & HP & EL & _ & _ & _ & EG).
  apply split_allparts in HP.
  2:{ intros x Hx. apply in_map_iff in Hx. destruct Hx as (F & <- & HF). apply in_map_iff in HF. destruct HF as ([i s] & <- & His).
      cbn. apply good_series_rows. split; [apply Hn; eapply in_combine_l; exact His|apply Hg; eapply in_combine_r; exact His]. }
  rewrite (Hsp ls parts Hl Hne) in HP. subst parts'. rewrite EL in EG. clear EL labels.
  assert (HR : forall (parts : list (list (Z * V))) a i, (forall s, In s parts -> s <> []) ->
    (forall k s, nth_error parts k = Some s -> i = Z.of_nat (a + k) ->
       rows_of (flat_map (fun p => series_rows (fst p) (snd p)) (combine (map Z.of_nat (seq a (length parts))) parts)) i = series_rows i s) /\
    ((i < Z.of_nat a \/ Z.of_nat (a + length parts) <= i) ->
       rows_of (flat_map (fun p => series_rows (fst p) (snd p)) (combine (map Z.of_nat (seq a (length parts))) parts)) i = [])).
  { clear. induction parts as [|s parts IH]; intros a i Hne.
    - split; [intros [|k] s' E; discriminate|]. intros _. reflexivity.
    - destruct (IH (S a) i) as [H1 H2]; [intros s' Hs'; apply Hne; right; exact Hs'|].
      cbn [length seq map combine flat_map fst snd].
      assert (Happ : forall A B : frame, rows_of (A ++ B) i = rows_of A i ++ rows_of B i) by (intros; apply filter_app).
      rewrite Happ.
      assert (Hs : rows_of (series_rows (Z.of_nat a) s) i = if Z.of_nat a =? i then series_rows i s else []).
      { clear. unfold rows_of, series_rows. destruct (Z.eqb_spec (Z.of_nat a) i) as [<-|Hna].
        - induction s as [|p s IHs]; [reflexivity|]. cbn [map filter rid]. rewrite Z.eqb_refl. f_equal. exact IHs.
        - induction s as [|p s IHs]; [reflexivity|]. cbn [map filter rid]. destruct (Z.eqb_spec (Z.of_nat a) i) as [|_]; [contradiction|].
          exact IHs. }
      rewrite Hs. split.
      + intros [|k] s' Ek Ei; cbn in Ek.
        * injection Ek as <-. rewrite Nat.add_0_r in Ei. subst i. rewrite Z.eqb_refl.
          assert (H3 := H2 ltac:(left; lia)). rewrite H3. apply app_nil_r.
        * destruct (Z.eqb_spec (Z.of_nat a) i) as [|_]; [lia|]. cbn. apply (H1 k s' Ek). lia.
      + intros Hi. destruct (Z.eqb_spec (Z.of_nat a) i) as [|_]; [lia|]. cbn. apply H2. lia. }
  unfold np_arange in EG. split; [exact HV|]. split.
  - intros i. rewrite rows_of_nonempty. rewrite EG. destruct (HR parts 0%nat i Hne) as [H1 H2]. split.
    + intros H. destruct (Z.lt_ge_cases i 0); [destruct H; apply H2; left; lia|].
      destruct (Z.lt_ge_cases i (Z.of_nat (length parts))); [lia|]. destruct H. apply H2. right. lia.
    + intros Hi. destruct (nth_error parts (Z.to_nat i)) as [s|] eqn:Es.
      2:{ apply nth_error_None in Es. lia. }
      rewrite (H1 (Z.to_nat i) s Es) by lia. apply nth_error_In in Es. specialize (Hne s Es).
      destruct s; [congruence|]. discriminate.
  - intros k s Ek. rewrite EG. apply (proj1 (HR parts 0%nat (Z.of_nat k) Hne) k s Ek). reflexivity.
Qed.

End Frames.

(** ** Time values *)

Section Times.
Context {V W : Type}.

Lemma sorted_snoc_Z l x : StronglySorted Z.lt l -> (forall y, In y l -> y < x) -> StronglySorted Z.lt (l ++ [x]).
Proof.
  induction l as [|a l IH]; intros HS H; cbn; [repeat constructor|].
  apply StronglySorted_inv in HS. destruct HS as [HS Hf]. constructor.
  - apply IH; [exact HS|]. intros y Hy. apply H. right. exact Hy.
  - apply Forall_app. split; [exact Hf|]. constructor; [apply H; left; reflexivity|constructor].
Qed.

Lemma sorted_filter_Z f l : StronglySorted Z.lt l -> StronglySorted Z.lt (filter f l).
Proof.
  induction 1 as [|x l HS IH Hf]; cbn; [constructor|]. destruct (f x); [|exact IH]. constructor; [exact IH|].
  rewrite Forall_forall in *. intros y Hy. apply filter_In in Hy. apply Hf. apply Hy.
Qed.

Lemma filter_length_le {A} (f : A -> bool) l : (length (filter f l) <= length l)%nat.
Proof. induction l as [|x l IH]; cbn; [lia|]. destruct (f x); cbn; lia. Qed.

Lemma filter_length_all {A} (f : A -> bool) l : length (filter f l) = length l -> filter f l = l.
Proof.
  induction l as [|x l IH]; cbn; [reflexivity|]. destruct (f x); cbn; intros H.
  - f_equal. apply IH. lia.
  - assert (H2 := filter_length_le f l). lia.
Qed.

Lemma arange_step_sorted a b d : 0 < d -> StronglySorted Z.lt (arange_step a b d).
Proof.
  intros Hd. unfold arange_step.
  assert (H : forall m k, StronglySorted Z.lt (map (fun j => a + Z.of_nat j * d) (seq k m))).
  { induction m as [|m IH]; intros k; cbn [seq map]; [constructor|]. constructor; [apply IH|]. apply Forall_forall. intros y Hy.
    apply in_map_iff in Hy. destruct Hy as (j & <- & Hj). apply in_seq in Hj. nia. }
  apply H.
Qed.

Lemma ptv_sorted dt (X : xarg V) (U : uarg W) tvo tv :
  (tvo = None -> 0 < dt) ->
  predict_time_values KInt 0 0 dt false X U tvo = Ok tv -> StronglySorted Z.lt tv.
Proof.
  intros Hdt. unfold predict_time_values. destruct (reference_time KInt 0 X U) as [r|]; [|discriminate]. cbn [bind].
  assert (Htol : tolerance KInt 0 X U = 0) by reflexivity. rewrite Htol.
  destruct tvo as [l|].
  - destruct (validate_time_values_format KInt l) as [l'|] eqn:El; [|discriminate]. cbn [bind].
    apply format_spec in El. destruct El as (-> & HS & _).
    destruct (match U with UNone => _ | _ => _ end) as [l''|] eqn:E2; [|discriminate]. cbn [bind].
    assert (l'' = l) as ->.
    { destruct U; try (injection E2 as <-; reflexivity).
      - destruct (match filter _ _ with [] => _ | _ => _ end) in E2; [|discriminate]. cbn [bind] in E2.
        destruct (_ && _) in E2; [|discriminate]. injection E2 as <-. reflexivity.
      - destruct (_ =? _)%nat in E2; [|discriminate]. injection E2 as <-. reflexivity. }
    destruct X; [|intros H; injection H as <-; exact HS].
    destruct (existsb _ l) eqn:Ex; [discriminate|]. rewrite existsb_false_forall in Ex.
    destruct l as [|t0 l]; [discriminate|]. destruct (0 <? Z.abs (r - t0)) eqn:Ea; intros H; injection H as <-; [|exact HS].
    constructor; [exact HS|]. assert (Hr := Ex t0 (or_introl eq_refl)). cbn in Hr.
    apply StronglySorted_inv in HS. destruct HS as [_ Hf]. rewrite Forall_forall in *. intros y [<-|Hy]; [lia|]. specialize (Hf y Hy). lia.
  - specialize (Hdt eq_refl). destruct U as [|G|n|].
    + intros H. injection H as <-. repeat constructor. lia.
    + match goal with |- match filter ?f ?l with _ => _ end = _ -> _ => assert (HS : StronglySorted Z.lt (filter f l)) end.
      { apply sorted_filter_Z. apply sorted_snoc_Z; [apply np_unique_sorted|]. intros y Hy.
        assert (H := sorted_last_max _ y (np_unique_sorted _) Hy). fold (time_values G) in H. lia. }
      destruct (filter _ _); [discriminate|]. intros H. injection H as <-. exact HS.
    + intros H. injection H as <-. apply arange_step_sorted. exact Hdt.
    + discriminate.
Qed.

Lemma zabs_eq_lists (a b : list Z) : length a = length b ->
  forallb (fun p => Z.abs (fst p - snd p) <=? 0) (combine a b) = true -> a = b.
Proof.
  revert b. induction a as [|x a IH]; intros [|y b] Hl H; try discriminate; [reflexivity|].
  cbn in H. apply andb_true_iff in H. destruct H as [H1 H2]. f_equal; [lia|]. apply IH; [cbn in Hl; lia|exact H2].
Qed.

(** The grid on which the control is given: its own times, or the reference between its
    first two times. *)
Lemma grid_spec dt (X : xarg V) (U : list (row W)) tvo tv :
  predict_time_values KInt 0 0 dt false X (UFrame U) tvo = Ok tv ->
  length (time_values U) = (length tv - 1)%nat ->
  tv <> [] /\
  (removelast tv = time_values U \/
   exists u0 us r, time_values U = u0 :: us /\ removelast tv = r :: us /\ u0 < r).
Proof.
  set (t := time_values U). assert (HSt : StronglySorted Z.lt t) by apply np_unique_sorted.
  unfold predict_time_values. destruct (reference_time KInt 0 X (UFrame U)) as [r|] eqn:Er; [|discriminate]. cbn [bind].
  assert (Htol : tolerance KInt 0 X (UFrame U) = 0) by (destruct X; reflexivity). rewrite Htol. fold t.
  assert (Hrl : forall (l : list Z) x, removelast (l ++ [x]) = l) by (intros; apply removelast_last).
  destruct tvo as [l|].
  - destruct (validate_time_values_format KInt l) as [l'|] eqn:El; [|discriminate]. cbn [bind].
    apply format_spec in El. destruct El as (-> & HS & _).
    set (req := filter (fun x => r - 0 <=? x) t). destruct req as [|q0 req'] eqn:Ereq; [discriminate|]. cbn [bind].
    rewrite <- Ereq. destruct ((length l =? length (req ++ [(last req 0 + dt)%Z]))%nat && _) eqn:Ec; [|discriminate]. cbn [bind].
    apply andb_true_iff in Ec. destruct Ec as [Ec1 Ec2]. apply Nat.eqb_eq in Ec1.
    apply zabs_eq_lists in Ec2; [|exact Ec1]. subst l. clear Ec1.
    assert (Hle := filter_length_le (fun x => r - 0 <=? x) t). fold req in Hle.
    assert (Hplain : tv = req ++ [last req 0 + dt] -> length t = (length tv - 1)%nat -> tv <> [] /\ (removelast tv = t \/
       exists u0 us r0, t = u0 :: us /\ removelast tv = r0 :: us /\ u0 < r0)).
    { intros -> Hl. split; [intros Hx; apply app_eq_nil in Hx; destruct Hx; discriminate|]. left. rewrite Hrl. apply filter_length_all. fold req.
      rewrite app_length in Hl. cbn in Hl. lia. }
    destruct X.
    2:{ intros H Hl. apply Hplain; [injection H as <-; reflexivity|exact Hl]. }
    destruct (existsb _ _); [discriminate|].
    destruct (req ++ [last req 0 + dt]) as [|t0 rest] eqn:Et; [discriminate|].
    destruct (0 <? Z.abs (r - t0)) eqn:Ea; intros H Hl; injection H as <-.
    2:{ apply Hplain; [reflexivity|exact Hl]. }
    split; [discriminate|]. right. rewrite <- Et in Hl. cbn [length] in Hl. rewrite app_length in Hl. cbn [length] in Hl.
    (* exactly one time of the control lies before the reference *)
    destruct t as [|u0 us] eqn:Etu; [cbn in Hl; lia|].
    exists u0, us, r. split; [reflexivity|].
    assert (Hu : (r - 0 <=? u0) = false).
    { destruct (r - 0 <=? u0) eqn:Hu; [|reflexivity]. exfalso.
      assert (Hall : forall x, In x (u0 :: us) -> (r - 0 <=? x) = true).
      { intros x Hx. apply StronglySorted_inv in HSt. destruct HSt as [_ Hf]. rewrite Forall_forall in Hf.
        destruct Hx as [<-|Hx]; [exact Hu|]. specialize (Hf x Hx). lia. }
      assert (length req = length (u0 :: us)) by (unfold req; f_equal; apply filter_every; exact Hall). lia. }
    assert (Hus : req = us).
    { unfold req. cbn [filter]. rewrite Hu. apply filter_length_all.
      unfold req in Hl. cbn [filter] in Hl. rewrite Hu in Hl. cbn [length] in Hl. lia. }
    rewrite <- Et. split; [|lia]. cbn [removelast]. destruct (req ++ [last req 0 + dt]) eqn:E3; [destruct req; discriminate|].
    rewrite <- E3. rewrite Hrl, Hus. reflexivity.
  - destruct (filter _ _) as [|q0 q'] eqn:Ef; [discriminate|]. intros H Hl. injection H as <-. split; [discriminate|]. left.
    assert (Hpos : (1 <= length (q0 :: q'))%nat) by (cbn; lia).
    rewrite <- Ef in *. rewrite filter_length_all; [apply Hrl|].
    assert (Hle := filter_length_le (fun x => r - 0 <=? x) (t ++ [last t 0 + dt])).
    rewrite app_length in *. cbn [length] in *. lia.
Qed.

End Times.

(** ** Zero-order hold *)

Section Hold.
Context {R : Type}.
Notation vec := (list R).
Notation frame := (list (row (list R))).

Lemma previous_hold (f : row vec -> R) (rows : frame) t : forall acc,
  StronglySorted Z.lt (map rtime rows) ->
  (forall r, In r rows -> (inject_Z (rtime r) <= t)%Q ->
     (forall r', In r' rows -> (inject_Z (rtime r') <= t)%Q -> rtime r' <= rtime r) ->
     previous acc (map rtime rows) (map f rows) t = f r) /\
  ((forall r, In r rows -> ~ (inject_Z (rtime r) <= t)%Q) -> previous acc (map rtime rows) (map f rows) t = acc).
Proof.
  induction rows as [|r0 rows IH]; intros acc HS; cbn [map previous].
  - split; [intros r []|reflexivity].
  - cbn in HS. apply StronglySorted_inv in HS. destruct HS as [HS Hf]. rewrite Forall_forall in Hf.
    destruct (Qle_bool (inject_Z (rtime r0)) t) eqn:E0.
    + apply Qle_bool_iff in E0. destruct (IH (f r0) HS) as [H1 H2]. split.
      * intros r Hr Ht Hmax. destruct Hr as [<-|Hr].
        -- apply H2. intros r' Hr' Ht'. specialize (Hmax r' (or_intror Hr') Ht'). specialize (Hf _ (in_map rtime _ _ Hr')). lia.
        -- apply H1; [exact Hr|exact Ht|]. intros r' Hr'. apply Hmax. right. exact Hr'.
      * intros H. destruct (H r0 (or_introl eq_refl) E0).
    + split; [|reflexivity]. intros r Hr Ht _. exfalso.
      assert (Hn : ~ (inject_Z (rtime r0) <= t)%Q) by (rewrite <- Qle_bool_iff; congruence). apply Hn.
      destruct Hr as [<-|Hr]; [exact Ht|]. eapply Qle_trans; [|exact Ht]. rewrite <- Zle_Qle. specialize (Hf _ (in_map rtime _ _ Hr)). lia.
Qed.

(** The position of the first grid point does not matter for later times. *)
Lemma previous_first acc acc' (a b : Z) ts (us : list R) t :
  (inject_Z a <= t)%Q -> (inject_Z b <= t)%Q -> us <> [] -> previous acc (a :: ts) us t = previous acc' (b :: ts) us t.
Proof.
  intros Ha Hb Hne. destruct us as [|u us]; [congruence|]. cbn.
  apply Qle_bool_iff in Ha, Hb. rewrite Ha, Hb. reflexivity.
Qed.

Lemma grid_hold (U : frame) id (f : row vec -> R) acc (ts : list Z) t r : ValidRows U -> times_of U id = time_values U ->
  (ts = time_values U \/ exists u0 us q, time_values U = u0 :: us /\ ts = q :: us /\ u0 < q) ->
  (inject_Z (hd 0%Z ts) <= t)%Q -> HeldAt U id t r ->
  previous acc ts (map f (group U id)) t = f r.
Proof.
  intros HV HT HG Ht (Hr & Hrt & Hmax).
  assert (HS : StronglySorted Z.lt (map rtime (rows_of U id))) by (apply times_of_sorted; exact HV).
  assert (Hp : previous acc (map rtime (rows_of U id)) (map f (rows_of U id)) t = f r).
  { apply previous_hold; assumption. }
  change (group U id) with (rows_of U id).
  change (map rtime (rows_of U id)) with (times_of U id) in Hp. rewrite HT in Hp.
  destruct HG as [->|(u0 & us & q & E & -> & Hlt)]; [exact Hp|]. rewrite E in Hp. rewrite <- Hp.
  cbn in Ht. apply previous_first; [exact Ht| |].
  - eapply Qle_trans; [|exact Ht]. rewrite <- Zle_Qle. lia.
  - intros Hn. apply map_eq_nil in Hn. rewrite Hn in Hr. destruct Hr.
Qed.

End Hold.

(** ** The simulation *)

Section Sim.
Context {R : Type}.
Notation vec := (list R).
Notation frame := (list (row (list R))).
Notation law := (Q -> vec -> vec).
Variables zero nan : R.
Variables n_features_in n_control_in : nat.
Variable default_step : Z.
Variable solve : law -> vec -> list Z -> option (list vec).

Notation simulate := (simulate zero nan n_features_in n_control_in default_step solve).
Notation control_law := (control_law zero nan n_control_in).
Notation solve_one := (solve_one zero nan n_control_in solve).
Notation complete_control := (complete_control zero n_control_in).
Notation step_size := (step_size default_step).

(** The solutions of all initial conditions. *)
Lemma solutions_spec (law_of : nat -> law -> Prop) U tv (ics : list vec) sols S : StronglySorted Z.lt tv ->
  (forall k g, (k < length ics)%nat -> control_law U tv k = Ok g -> law_of k g) ->
  map_result (fun p => solve_one U tv (fst p) (snd p)) (combine (seq 0 (length ics)) ics) = Ok sols ->
  from_items (map Collection sols) None = Ok S -> Simulated solve ics tv law_of S.
Proof.
  intros HS Hlaw E ES. apply map_result_inv in E.
  assert (H : forall (ics : list vec) a sols,
    Forall2 (fun p F => solve_one U tv (fst p) (snd p) = Ok F) (combine (seq a (length ics)) ics) sols ->
    exists parts, length parts = length ics /\
      sols = map (fun p => series_rows (fst p) (snd p)) (combine (repeat 0 (length ics)) parts) /\
      (forall s, In s parts -> GoodSeries s) /\
      forall k x, nth_error ics k = Some x -> exists g ys, control_law U tv (a + k) = Ok g /\
        solve g x tv = Some ys /\ length ys = length tv /\ nth_error parts k = Some (combine tv ys)).
  { clear - HS. induction ics as [|x ics IH]; intros a sols HF.
    - inversion HF; subst. exists []. split; [reflexivity|]. split; [reflexivity|]. split; [intros s []|intros [|k] x E; discriminate].
    - cbn [length seq combine] in HF. inversion HF as [|p F ps Fs H1 H2]; subst. cbn [fst snd] in H1.
      destruct (IH _ _ H2) as (parts & Hl & -> & Hg & Hk).
      unfold SimModel.solve_one in H1. destruct (control_law U tv a) as [g|] eqn:Eg; [|discriminate]. cbn [bind] in H1.
      destruct (solve g x tv) as [ys|] eqn:Ey; [|discriminate].
      destruct (from_array_sorted ys tv None F HS H1) as (Hly & -> & HV & _).
      apply good_series_rows in HV.
      exists (combine tv ys :: parts). split; [cbn; lia|]. split; [reflexivity|]. split.
      + intros s [<-|Hs]; [apply HV|apply Hg; exact Hs].
      + intros [|k] x' Ek; cbn in Ek.
        * injection Ek as <-. exists g, ys. rewrite Nat.add_0_r. repeat split; assumption.
        * destruct (Hk k x' Ek) as (g' & ys' & H3). exists g', ys'. replace (a + Datatypes.S k)%nat with (Datatypes.S a + k)%nat by lia. exact H3. }
  destruct (H ics 0%nat sols E) as (parts & Hl & -> & Hg & Hk). clear H E.
  destruct (collect_spec (repeat 0 (length ics)) parts S) as (HV & HO & HR); try assumption.
  { rewrite repeat_length. lia. }
  { intros i Hi. apply repeat_spec in Hi. lia. }
  split; [exact HV|]. split.
  { intros i. rewrite HO, Hl. reflexivity. }
  intros k x Ek. destruct (Hk k x Ek) as (g & ys & Hg1 & Hg2 & Hg3 & Hg4). exists g, ys.
  split; [apply Hlaw; [apply nth_error_Some; congruence|exact Hg1]|]. split; [exact Hg2|]. split; [exact Hg3|].
  rewrite (HR k _ Hg4). apply pairs_series_rows.
Qed.

(** What a successful simulation went through. *)
Lemma simulate_inv X U tvo S G : simulate X U tvo = Ok (S, G) ->
  exists dt U1 tv U2 sols,
    match U with UA l => width n_control_in l | UF F => width n_control_in (map rval F) | _ => true end = true /\
    step_size U tvo = Ok dt /\ complete_control (length (x_values X)) U tvo = Ok U1 /\
    predict_time_values KInt 0 0 dt false (xarg_of X) (uarg_of U1) tvo = Ok tv /\
    control_frame U1 tv = Ok U2 /\
    map_result (fun p => solve_one U2 tv (fst p) (snd p)) (combine (seq 0 (length (x_values X))) (x_values X)) = Ok sols /\
    from_items (map Collection sols) None = Ok S /\
    match U2 with
    | UC f => exists B, drop_last_n_samples S 1 = Ok B /\
        tsc (map (fun r => mkRow (rid r) (rtime r) (f (inject_Z (rtime r)) (rval r))) B) = Ok G
    | UF F => G = F
    | _ => False
    end.
Proof.
  unfold SimModel.simulate. intros E.
  destruct (negb _) eqn:E1 in E; [discriminate|]. apply negb_false_iff in E1. destruct (negb _) in E; [discriminate|]. cbv zeta in E.
  destruct (step_size U tvo) as [dt|] eqn:E2; [|discriminate]. cbn [bind] in E.
  destruct (complete_control _ U tvo) as [U1|] eqn:E3; [|discriminate]. cbn [bind] in E.
  destruct (predict_time_values _ _ _ _ _ _ _ _) as [tv|] eqn:E4; [|discriminate]. cbn [bind] in E.
  destruct (control_frame U1 tv) as [U2|] eqn:E5; [|discriminate]. cbn [bind] in E.
  destruct (map_result _ _) as [sols|] eqn:E6; [|discriminate]. cbn [bind] in E.
  destruct (from_items _ _) as [S'|] eqn:E7; [|discriminate]. cbn [bind] in E.
  exists dt, U1, tv, U2, sols. destruct U2 as [|l|F|f]; try discriminate.
  - injection E as <- <-. repeat split; assumption.
  - destruct (drop_last_n_samples S' 1) as [B|] eqn:E8; [|discriminate]. cbn [bind] in E.
    destruct (tsc _) as [G'|] eqn:E9; [|discriminate]. injection E as <- <-. repeat split; try assumption. exists B. split; assumption.
Qed.

Lemma map_snd_combine_eq {A B} (l : list A) : forall m : list B, length l = length m -> map snd (combine l m) = m.
Proof. induction l as [|x l IH]; intros [|y m] H; cbn in *; try discriminate; [reflexivity|]. f_equal. apply IH. lia. Qed.

Lemma sorted_app_l (l m : list Z) : StronglySorted Z.lt (l ++ m) -> StronglySorted Z.lt l.
Proof.
  induction l as [|x l IH]; cbn; intros H; [constructor|]. apply StronglySorted_inv in H. destruct H as [H Hf].
  constructor; [apply IH; exact H|]. apply Forall_app in Hf. apply Hf.
Qed.

Lemma ptv_array_times dt (X : xin R) (U : uarg vec) l tv :
  predict_time_values KInt 0 0 dt false (xarg_of X) U (Some l) = Ok tv ->
  (tv = l \/ exists r, tv = r :: l /\ r < hd 0 l /\ exists F, X = XF F).
Proof.
  unfold predict_time_values. destruct (reference_time KInt 0 _ U) as [r|]; [|discriminate]. cbn [bind].
  assert (Htol : tolerance KInt 0 (xarg_of X) U = 0) by reflexivity. rewrite Htol.
  destruct (validate_time_values_format KInt l) as [l'|] eqn:El; [|discriminate]. cbn [bind]. apply format_spec in El. destruct El as (-> & _).
  destruct (match U with UNone => _ | _ => _ end) as [l''|] eqn:E2; [|discriminate]. cbn [bind].
  assert (l'' = l) as ->.
  { destruct U; try (injection E2 as <-; reflexivity).
    - destruct (match filter _ _ with [] => _ | _ => _ end) in E2; [|discriminate]. cbn [bind] in E2.
      destruct (_ && _) in E2; [|discriminate]. injection E2 as <-. reflexivity.
    - destruct (_ =? _)%nat in E2; [|discriminate]. injection E2 as <-. reflexivity. }
  destruct X as [ll|F]; cbn [xarg_of]; [intros H; injection H as <-; left; reflexivity|].
  destruct (existsb _ l) eqn:Ex; [discriminate|]. rewrite existsb_false_forall in Ex.
  destruct l as [|t0 l]; [discriminate|]. destruct (0 <? Z.abs (r - t0)) eqn:Ea; intros H; injection H as <-; [|left; reflexivity].
  right. exists r. split; [reflexivity|]. assert (H := Ex t0 (or_introl eq_refl)). cbn in *. split; [lia|]. exists F. reflexivity.
Qed.

(** *** Control laws *)

Lemma callable_spec X f tvo S G : simulate X (UC f) tvo = Ok (S, G) ->
  exists l tv, tvo = Some l /\ (tv = l \/ exists r, tv = r :: l /\ r < hd 0 l /\ exists F, X = XF F) /\ (2 <= length tv)%nat /\
    Simulated solve (x_values X) tv (fun _ g => g = f) S /\
    ValidRows G /\ (forall i, Occurs G i <-> Occurs S i) /\
    forall i, rows_of G i = map (fun r => mkRow i (rtime r) (f (inject_Z (rtime r)) (rval r))) (removelast (rows_of S i)).
Proof.
  intros E. apply simulate_inv in E. destruct E as (dt & U1 & tv & U2 & sols & _ & E2 & E3 & E4 & E5 & E6 & E7 & E8).
  injection E3 as <-. injection E5 as <-. destruct E8 as (B & EB & EG).
  destruct tvo as [l|].
  2:{ unfold predict_time_values in E4. destruct (reference_time _ _ _ _); discriminate. }
  assert (HS : StronglySorted Z.lt tv) by (eapply ptv_sorted; [|exact E4]; discriminate).
  assert (HT := ptv_array_times _ _ _ _ _ E4).
  assert (Hlen : (2 <= length tv)%nat).
  { assert (2 <= length l)%nat by (destruct l as [|? [|? ?]]; cbn in E2 |- *; try discriminate; lia).
    destruct HT as [->|(r & -> & _)]; cbn; lia. }
  assert (HSim : Simulated solve (x_values X) tv (fun _ g => g = f) S).
  { eapply solutions_spec; [exact HS| |exact E6|exact E7]. intros k g _ Eg. injection Eg as <-. reflexivity. }
  exists l, tv. split; [reflexivity|]. split; [exact HT|]. split; [exact Hlen|]. split; [exact HSim|].
  destruct HSim as (HV & HO & HR).
  assert (Hl : forall i, Occurs S i -> length (rows_of S i) = length tv).
  { intros i Hi. apply HO in Hi. destruct (nth_error (x_values X) (Z.to_nat i)) as [x|] eqn:Ex.
    2:{ apply nth_error_None in Ex. lia. }
    destruct (HR _ _ Ex) as (g & ys & _ & _ & Hly & Hp). replace (Z.of_nat (Z.to_nat i)) with i in Hp by lia.
    apply (f_equal (@length _)) in Hp. rewrite map_length, combine_length in Hp. lia. }
  destruct (drop_last_spec S 1 HV) as (B' & EB' & HVB & _ & HB).
  { intros i Hi. rewrite (Hl i Hi). lia. }
  rewrite EB in EB'. injection EB' as <-. apply tsc_ok in EG. destruct EG as [HVG ->].
  assert (HRG : forall i, rows_of (map (fun r => mkRow (rid r) (rtime r) (f (inject_Z (rtime r)) (rval r))) B) i =
     map (fun r => mkRow i (rtime r) (f (inject_Z (rtime r)) (rval r))) (rows_of B i)).
  { intros i. unfold rows_of. clear. induction B as [|r B IH]; [reflexivity|]. cbn [map filter rid].
    destruct (Z.eqb_spec (rid r) i) as [<-|]; cbn; [f_equal|]; exact IH. }
  assert (HRB : forall i, rows_of B i = removelast (rows_of S i)).
  { intros i. rewrite HB. destruct (rows_of S i) as [|r0 rs]; [reflexivity|].
    rewrite removelast_firstn_len. f_equal. cbn. lia. }
  split; [exact HVG|]. split.
  - intros i. rewrite !rows_of_nonempty. rewrite HRG, HRB. split.
    + intros H H0. rewrite H0 in H. apply H. reflexivity.
    + intros H H0. apply map_eq_nil in H0. rewrite <- rows_of_nonempty in H. specialize (Hl i H).
      destruct (rows_of S i) as [|a [|b rs]]; cbn in Hl, H0; try lia. discriminate.
  - intros i. rewrite HRG, HRB. reflexivity.
Qed.

(** The checks on a control collection. *)
Lemma control_frame_inv (F : frame) tv U2 : ValidRows F -> control_frame (UF F) tv = Ok U2 ->
  U2 = UF F /\ CommonTimes F (time_values F) /\ length (time_values F) = (length tv - 1)%nat.
Proof.
  intros HV. cbn [control_frame]. destruct (is_same_time_values F) eqn:E; [|discriminate]. cbn [negb].
  destruct (check_required_n_timesteps F (length tv - 1)) as [[]|] eqn:Es; [|discriminate]. cbn [bind]. intros H. injection H as <-.
  split; [reflexivity|]. assert (HC := same_times_common F HV E). split; [exact HC|].
  destruct (steps_decides F (length tv - 1) (vr_nonempty _ HV)) as [[H _]|[_ H]]; [|congruence].
  destruct (valid_occurs F HV) as (i & Hi). rewrite <- (HC i Hi). unfold times_of. rewrite map_length. apply H. exact Hi.
Qed.

Lemma grid_of dt (X : xin R) (F : frame) tvo tv : ValidRows F ->
  predict_time_values KInt 0 0 dt false (xarg_of X) (UFrame F) tvo = Ok tv ->
  length (time_values F) = (length tv - 1)%nat -> GridOf F tv.
Proof.
  intros HV E Hl. destruct (grid_spec dt _ F tvo tv E Hl) as [Hne HG].
  destruct (valid_occurs F HV) as (i & Hi).
  assert (Htn : time_values F <> []).
  { intros H0. destruct Hi as (r & Hr & _).
    assert (H1 : In (rtime r) (time_values F)) by (apply in_np_unique; apply in_map; exact Hr). rewrite H0 in H1. destruct H1. }
  destruct HG as [HG|(u0 & us & r & Eu & HG & Hlt)].
  - destruct (time_values F) as [|t0 ts] eqn:Et; [congruence|]. exists t0, ts, t0, (last tv 0).
    split; [exact Et|]. split; [|lia]. rewrite (app_removelast_last 0 Hne) at 1. rewrite HG. reflexivity.
  - exists u0, us, r, (last tv 0). split; [exact Eu|]. split; [|lia]. rewrite (app_removelast_last 0 Hne) at 1. rewrite HG. reflexivity.
Qed.

Lemma removelast_grid (F : frame) tv : GridOf F tv ->
  removelast tv = time_values F \/ exists u0 us q, time_values F = u0 :: us /\ removelast tv = q :: us /\ u0 < q.
Proof.
  intros (t0 & ts & t0' & tend & Et & -> & Hle).
  assert (E : removelast (t0' :: ts ++ [tend]) = t0' :: ts) by (apply (removelast_last (t0' :: ts))).
  rewrite E. destruct (Z.eq_dec t0 t0') as [<-|Hn]; [left; congruence|]. right. exists t0, ts, t0'. repeat split; try assumption. lia.
Qed.

(** The k-th stored row of a collection of single samples with increasing IDs. *)
Lemma single_rows (F : frame) k r : ValidRows F -> IdsSorted F -> (forall i, Occurs F i -> length (rows_of F i) = 1%nat) ->
  nth_error F k = Some r -> nth_error (ids F) k = Some (rid r) /\ rows_of F (rid r) = [r].
Proof.
  intros HV HI H1 Ek.
  assert (HS : StronglySorted Z.lt (ids_index F)).
  { clear Ek. assert (HN : NoDup (ids_index F)).
    { assert (Hnd : forall l : frame, (forall i, (length (rows_of l i) <= 1)%nat) -> NoDup (map rid l)).
      { induction l as [|q l IH]; intros Hc; [constructor|]. cbn. constructor.
        - intros Hin. apply in_map_iff in Hin. destruct Hin as (q' & Eq & Hq').
          specialize (Hc (rid q)). unfold rows_of in Hc. cbn in Hc. rewrite Z.eqb_refl in Hc. cbn in Hc.
          assert (Hf : In q' (filter (fun r => rid r =? rid q) l)) by (apply filter_In; split; [exact Hq'|lia]).
          destruct (filter _ l); [destruct Hf|cbn in Hc; lia].
        - apply IH. intros i. specialize (Hc i). unfold rows_of in *. cbn in Hc. destruct (rid q =? i); cbn in Hc; lia. }
      apply Hnd. intros i. destruct (rows_of F i) as [|q qs] eqn:Eq; [cbn; lia|].
      rewrite <- Eq. rewrite H1; [lia|]. apply rows_of_nonempty. rewrite Eq. discriminate. }
    apply sorted_le_lt; [|exact HN].
    unfold ids_index. clear -HI. induction F as [|q F IH]; [constructor|]. cbn. constructor.
    - apply IH. intros a b Hb. apply HI. destruct Hb as (l1 & l2 & l3 & ->). exists (q :: l1), l2, l3. reflexivity.
    - apply Forall_forall. intros y Hy. apply in_map_iff in Hy. destruct Hy as (q' & <- & Hq'). apply HI.
      apply in_split in Hq'. destruct Hq' as (l2 & l3 & ->). exists [], l2, l3. reflexivity. }
  assert (Eid : ids F = ids_index F) by (unfold ids; apply np_unique_of_sorted; exact HS).
  split.
  - rewrite Eid. unfold ids_index. rewrite nth_error_map, Ek. reflexivity.
  - assert (Hin : In r (rows_of F (rid r))) by (apply filter_In; split; [eapply nth_error_In; exact Ek|lia]).
    specialize (H1 (rid r)). assert (Ho : Occurs F (rid r)) by (apply rows_of_nonempty; destruct (rows_of F (rid r)); [destruct Hin|discriminate]).
    specialize (H1 Ho). destruct (rows_of F (rid r)) as [|a [|b l]]; cbn in H1; try discriminate. destruct Hin as [<-|[]]. reflexivity.
Qed.

Lemma map_const_seq {A} (c : A) n : forall a, map (fun _ => c) (seq a n) = repeat c n.
Proof. induction n as [|n IH]; intros a; cbn; [reflexivity|]. f_equal. apply IH. Qed.

(** Given samples: the law of initial condition [k]. *)
Lemma frame_law (F : frame) tv k g : ValidRows F -> CommonTimes F (time_values F) ->
  length (time_values F) = (length tv - 1)%nat -> GridOf F tv -> width n_control_in (map rval F) = true ->
  control_law (UF F) tv k = Ok g ->
  ((length tv = 2)%nat -> exists r, nth_error F k = Some r /\ forall t x, g t x = rval r) /\
  ((length tv <> 2)%nat -> exists id, nth_error (ids F) k = Some id /\
     forall t x r, (inject_Z (hd 0%Z tv) <= t)%Q -> HeldAt F id t r ->
       g t x = repeat (nth (n_control_in - 1) (rval r) zero) n_control_in).
Proof.
  intros HV HC Hl HG HW. cbn [SimModel.control_law]. destruct (Nat.eqb_spec (length tv) 2) as [E2|E2].
  - destruct (nth_error F k) as [r|] eqn:Er; [|discriminate]. intros H. injection H as <-.
    split; [|congruence]. intros _. exists r. split; reflexivity.
  - destruct (nth_error (ids F) k) as [id|] eqn:Ei; [|discriminate]. intros H. injection H as <-.
    split; [congruence|]. intros _. exists id. split; [reflexivity|]. intros t x r Ht Hr.
    assert (Hp : previous nan (removelast tv) (map (fun r0 => nth (n_control_in - 1) (rval r0) zero) (group F id)) t =
                 nth (n_control_in - 1) (rval r) zero).
    { apply (grid_hold F id (fun r0 => nth (n_control_in - 1) (rval r0) zero) nan (removelast tv) t r HV).
      - apply HC. apply in_ids. eapply nth_error_In. exact Ei.
      - apply removelast_grid. exact HG.
      - destruct HG as (t0 & ts & t0' & tend & _ & -> & _). change (t0' :: ts ++ [tend]) with ((t0' :: ts) ++ [tend]).
        rewrite removelast_last. exact Ht.
      - exact Hr. }
    rewrite Hp. apply map_const_seq.
Qed.

Lemma width_in n (F : frame) r : width n (map rval F) = true -> In r F -> length (rval r) = n.
Proof.
  intros HW Hr. unfold width in HW. rewrite forallb_forall in HW. apply Nat.eqb_eq. apply HW. apply in_map. exact Hr.
Qed.

Lemma held_in (F : frame) i t r : HeldAt F i t r -> In r F /\ rid r = i.
Proof. intros (H & _). apply filter_In in H. destruct H as [H1 H2]. split; [exact H1|lia]. Qed.

(** Simulation with a collection of control samples. *)
Lemma frame_core X (F : frame) dt tvo tv U2 sols S : ValidRows F -> (tvo = None -> 0 < dt) ->
  predict_time_values KInt 0 0 dt false (xarg_of X) (uarg_of (UF F)) tvo = Ok tv ->
  control_frame (UF F) tv = Ok U2 ->
  map_result (fun p => solve_one U2 tv (fst p) (snd p)) (combine (seq 0 (length (x_values X))) (x_values X)) = Ok sols ->
  from_items (map Collection sols) None = Ok S ->
  U2 = UF F /\ GridOf F tv /\ CommonTimes F (time_values F) /\ length (time_values F) = (length tv - 1)%nat /\
  forall law_of : nat -> law -> Prop, (forall k g, control_law (UF F) tv k = Ok g -> law_of k g) -> Simulated solve (x_values X) tv law_of S.
Proof.
  intros HV Hd E4 E5 E6 E7. destruct (control_frame_inv F tv U2 HV E5) as (-> & HC & Hl).
  assert (HS : StronglySorted Z.lt tv) by (eapply ptv_sorted; eassumption).
  split; [reflexivity|]. split; [eapply grid_of; eassumption|]. split; [exact HC|]. split; [exact Hl|].
  intros law_of Hlaw. eapply solutions_spec; [exact HS| |exact E6|exact E7]. intros k g _ Hg. apply Hlaw. exact Hg.
Qed.

Lemma frame_inv X (F : frame) tvo S G : ValidRows F -> SmallSteps F -> 0 < default_step ->
  simulate X (UF F) tvo = Ok (S, G) ->
  exists tv, G = F /\ GridOf F tv /\ CommonTimes F (time_values F) /\ length (time_values F) = (length tv - 1)%nat /\
    width n_control_in (map rval F) = true /\
    forall law_of : nat -> law -> Prop, (forall k g, control_law (UF F) tv k = Ok g -> law_of k g) -> Simulated solve (x_values X) tv law_of S.
Proof.
  intros HV HSm Hd E. apply simulate_inv in E. destruct E as (dt & U1 & tv & U2 & sols & E1 & E2 & E3 & E4 & E5 & E6 & E7 & E8).
  injection E3 as <-.
  assert (Hdt : tvo = None -> 0 < dt).
  { intros ->. unfold SimModel.step_size in E2. destruct (1 <? length F)%nat; [|injection E2 as <-; exact Hd].
    exact (proj1 (regular_small F dt HV HSm (proj1 (const_dt_ok F dt HV HSm) E2))). }
  destruct (frame_core X F dt tvo tv U2 sols S HV Hdt E4 E5 E6 E7) as (-> & HG & HC & Hl & HSim).
  exists tv. do 5 (split; [assumption|]). exact HSim.
Qed.

Lemma one_sample (F : frame) : ValidRows F -> CommonTimes F (time_values F) -> length (time_values F) = 1%nat ->
  forall i, Occurs F i -> length (rows_of F i) = 1%nat.
Proof. intros HV HC Hl i Hi. rewrite <- Hl, <- (HC i Hi). unfold times_of. symmetry. apply map_length. Qed.

Lemma hold_spec X (F : frame) tvo S G : ValidRows F -> SmallSteps F -> 0 < default_step ->
  IdsSorted F -> (n_control_in <= 1)%nat \/ length (time_values F) = 1%nat ->
  simulate X (UF F) tvo = Ok (S, G) ->
  G = F /\ exists tv, GridOf F tv /\
    Simulated solve (x_values X) tv (fun k g => exists i, nth_error (ids F) k = Some i /\ HoldsFrom (hd 0 tv) F i g) S.
Proof.
  intros HV HSm Hd HI Hc E. destruct (frame_inv _ _ _ _ _ HV HSm Hd E) as (tv & -> & HG & HC & Hl & HW & HSim).
  split; [reflexivity|]. exists tv. split; [exact HG|]. apply HSim. intros k g Hg.
  destruct (frame_law F tv k g HV HC Hl HG HW Hg) as [H2 Hn].
  destruct (Nat.eq_dec (length tv) 2) as [E2|E2].
  - destruct (H2 E2) as (r & Er & Eg).
    destruct (single_rows F k r HV HI) as [Hi Hr]; [apply one_sample; [exact HV|exact HC|lia]|exact Er|].
    exists (rid r). split; [exact Hi|]. intros t x q _ Hq. rewrite Eg. destruct Hq as (Hq & _). rewrite Hr in Hq. destruct Hq as [<-|[]]. reflexivity.
  - destruct (Hn E2) as (i & Ei & Eg). exists i. split; [exact Ei|]. intros t x r Ht Hr. rewrite (Eg t x r Ht Hr).
    assert (Hc' : (n_control_in <= 1)%nat).
    { destruct Hc as [Hc|Hc]; [exact Hc|]. destruct HG as (t0 & ts & t0' & tend & Et & -> & _). rewrite Et in Hc, Hl. cbn in Hc, Hl, E2.
      rewrite app_length in Hl, E2. cbn in Hl, E2. lia. }
    assert (Hlen := width_in _ _ r HW (proj1 (held_in _ _ _ _ Hr))). clear -Hlen Hc'.
    destruct n_control_in as [|[|m]]; [|  |lia]; destruct (rval r) as [|a [|b v]]; cbn in *; try discriminate; reflexivity.
Qed.

Lemma one_step_frame X (F : frame) tvo : ValidRows F -> SmallSteps F ->
  (2 <= length F)%nat -> length (time_values F) = 1%nat ->
  Forall (fun r => length (rval r) = n_control_in) F -> Forall (fun x => length x = n_features_in) (x_values X) ->
  simulate X (UF F) tvo = Err TSCException.
Proof.
  intros HV HSm H2 H1 HW HX. unfold SimModel.simulate.
  assert (Hw : width n_control_in (map rval F) = true).
  { unfold width. rewrite forallb_forall. intros v Hv. apply in_map_iff in Hv. destruct Hv as (r & <- & Hr).
    rewrite Forall_forall in HW. apply Nat.eqb_eq. apply HW. exact Hr. }
  assert (Hx : width n_features_in (x_values X) = true).
  { unfold width. rewrite forallb_forall. intros v Hv. rewrite Forall_forall in HX. apply Nat.eqb_eq. apply HX. exact Hv. }
  rewrite Hw, Hx. cbn [negb]. unfold SimModel.step_size. replace (1 <? length F)%nat with true by (symmetry; apply Nat.ltb_lt; lia).
  destruct (const_decides F HV HSm) as [[(d & Hd) _]|[_ H]].
  - exfalso. destruct (valid_occurs F HV) as (i & Hi). specialize (Hd i Hi). apply (regular_times F i d HV Hi) in Hd. destruct Hd as [Hl _].
    assert (Hle : (length (times_of F i) <= length (time_values F))%nat); [|lia].
    apply NoDup_incl_length; [apply sorted_lt_NoDup, times_of_sorted, HV|]. intros t Ht. apply in_np_unique. apply in_map_iff in Ht.
    destruct Ht as (r & <- & Hr). apply in_map. apply filter_In in Hr. apply Hr.
  - destruct (check_const_time_delta KInt F); [discriminate|]. cbn [drop_value] in H. injection H as ->. reflexivity.
Qed.

Lemma channels_spec X (F : frame) tvo S G : ValidRows F -> SmallSteps F -> 0 < default_step ->
  (2 <= length (time_values F))%nat ->
  simulate X (UF F) tvo = Ok (S, G) ->
  G = F /\ exists tv, GridOf F tv /\
    Simulated solve (x_values X) tv (fun k g => exists i, nth_error (ids F) k = Some i /\
      forall t x r, (inject_Z (hd 0%Z tv) <= t)%Q -> HeldAt F i t r ->
        g t x = repeat (nth (n_control_in - 1) (rval r) zero) n_control_in) S.
Proof.
  intros HV HSm Hd H1 E. destruct (frame_inv _ _ _ _ _ HV HSm Hd E) as (tv & -> & HG & HC & Hl & HW & HSim).
  split; [reflexivity|]. exists tv. split; [exact HG|]. apply HSim. intros k g Hg.
  destruct (frame_law F tv k g HV HC Hl HG HW Hg) as [H2 Hn]. apply Hn. lia.
Qed.

(** Control given as an array with one row per initial condition. *)
Lemma one_step_spec X (l : list vec) tvo S G : length l = length (x_values X) ->
  simulate X (UA l) tvo = Ok (S, G) ->
  exists t0 t1, tvo = Some [t0; t1] /\
    Simulated solve (x_values X) [t0; t1] (fun k g => exists u, nth_error l k = Some u /\ forall t x, g t x = u) S /\
    ValidRows G /\ G = map (fun p => mkRow (fst p) t0 (snd p)) (combine (np_arange (length l)) l).
Proof.
  intros Hn E. apply simulate_inv in E. destruct E as (dt & U1 & tv & U2 & sols & E1 & E2 & E3 & E4 & E5 & E6 & E7 & E8).
  cbn [SimModel.complete_control] in E3. rewrite Hn, Nat.eqb_refl in E3. destruct tvo as [l0|]; [|discriminate].
  destruct (tsc _) as [F|] eqn:EF; [|discriminate]. injection E3 as <-. apply tsc_ok in EF. destruct EF as [HV HF]. rewrite <- HF in HV. rewrite <- Hn in HF.
  destruct (frame_core X F dt (Some l0) tv U2 sols S HV ltac:(discriminate) E4 E5 E6 E7) as (-> & HG & HC & Hl & HSim). subst G.
  assert (HT := ptv_array_times _ _ _ _ _ E4).
  assert (Hvals : map rval F = l).
  { rewrite HF, map_map. cbn. apply map_snd_combine_eq. unfold np_arange. rewrite map_length, seq_length. reflexivity. }
  assert (HW : width n_control_in (map rval F) = true) by (rewrite Hvals; exact E1).
  assert (Htv : time_values F = [hd 0 l0]).
  { assert (Hne := vr_nonempty _ HV). unfold time_values. rewrite <- (np_unique_of_sorted [hd 0 l0]) by (repeat constructor).
    apply np_unique_ext. intros x. unfold time_index. rewrite in_map_iff. split.
    - intros (r & <- & Hr). rewrite HF in Hr. apply in_map_iff in Hr. destruct Hr as (p & <- & _). left. reflexivity.
    - intros [<-|[]]. destruct F as [|r F]; [congruence|]. exists r. split; [|left; reflexivity].
      assert (Hr : In r (r :: F)) by (left; reflexivity). rewrite HF in Hr. apply in_map_iff in Hr. destruct Hr as (p & <- & _). reflexivity. }
  rewrite Htv in Hl. cbn [length] in Hl.
  unfold SimModel.step_size in E2. destruct l0 as [|t0 [|t1 l1]]; try discriminate. 
  assert (Htv2 : tv = [t0; t1]).
  { destruct HT as [->|(r & -> & _)]; cbn in Hl; [|lia]. destruct l1; [reflexivity|cbn in Hl; lia]. }
  assert (l1 = []) as ->.
  { destruct HT as [Ht|(r & Ht & _)]; rewrite Htv2 in Ht; injection Ht; intros; subst; congruence. }
  subst tv. exists t0, t1. split; [reflexivity|]. split; [|split; [exact HV|exact HF]].
  apply HSim. intros k g Hg.
  destruct (frame_law F [t0; t1] k g HV HC ltac:(rewrite Htv; reflexivity) HG HW Hg) as [H2 _].
  destruct (H2 eq_refl) as (r & Er & Eg). exists (rval r). split; [|exact Eg].
  rewrite <- Hvals, nth_error_map, Er. reflexivity.
Qed.

(** No control. *)
Lemma previous_const (c : R) ts : forall us acc t, (forall u, In u us -> u = c) -> acc = c -> previous acc ts us t = c.
Proof.
  induction ts as [|t0 ts IH]; intros [|u us] acc t Hu Ha; cbn; try exact Ha.
  destruct (Qle_bool _ _); [|exact Ha]. apply IH; [intros v Hv; apply Hu; right; exact Hv|apply Hu; left; reflexivity].
Qed.

Lemma uncontrolled_spec X tvo S G : simulate X UN tvo = Ok (S, G) ->
  exists l, tvo = Some l /\
    Simulated solve (x_values X) l (fun _ g => forall t x, (inject_Z (hd 0%Z l) <= t)%Q -> g t x = repeat zero n_control_in) S /\
    (forall i, Occurs G i -> Occurs S i) /\
    forall r, In r G -> rval r = repeat zero n_control_in /\ In (rtime r) (removelast l).
Proof.
  intros E. apply simulate_inv in E. destruct E as (dt & U1 & tv & U2 & sols & E1 & E2 & E3 & E4 & E5 & E6 & E7 & E8).
  cbn [SimModel.complete_control] in E3. destruct tvo as [l|]; [|discriminate].
  set (tensor := repeat (repeat (repeat zero n_control_in) (length l - 1)) (length (x_values X))) in *.
  destruct (from_tensor tensor _ _ _) as [F|] eqn:EF; [|discriminate]. injection E3 as <-.
  assert (Hl2 : (2 <= length l)%nat).
  { unfold SimModel.step_size in E2. destruct l as [|a [|b l]]; cbn; try discriminate; lia. }
  assert (Hrl : length (removelast l) = (length l - 1)%nat).
  { destruct l as [|a l]; [reflexivity|]. rewrite removelast_firstn_len, firstn_length. lia. }
  assert (Hx : x_values X <> []).
  { intros H0. rewrite H0 in E6. cbn in E6. injection E6 as <-. discriminate. }
  assert (Hfmt : StronglySorted Z.lt l /\ forall t, In t l -> 0 <= t).
  { unfold predict_time_values in E4. destruct (reference_time _ _ _ _); [|discriminate]. cbn [bind] in E4.
    destruct (validate_time_values_format KInt l) eqn:Ef; [|discriminate]. apply format_spec in Ef. destruct Ef as (_ & Hs & [Hk|Hp]); [discriminate|].
    split; assumption. }
  destruct Hfmt as [HSl Hpos].
  assert (Hsub : forall t, In t (removelast l) -> In t l).
  { intros t Ht. destruct l as [|a l]; [destruct Ht|]. rewrite removelast_firstn_len in Ht. eapply in_firstn. exact Ht. }
  assert (HSr : StronglySorted Z.lt (removelast l)).
  { assert (Hne : l <> []) by (destruct l; [cbn in Hl2; lia|discriminate]). rewrite (app_removelast_last 0 Hne) in HSl.
    eapply sorted_app_l. exact HSl. }
  destruct (from_tensor_spec tensor (length l - 1) None (Some (removelast l))) as (F' & EF' & HV & HI & _ & HIn).
  { unfold tensor. destruct (x_values X); [congruence|discriminate]. }
  { lia. }
  { intros s Hs. apply repeat_spec in Hs. subst s. apply repeat_length. }
  { cbn. unfold np_arange. rewrite map_length, seq_length. reflexivity. }
  { cbn. unfold np_arange. apply sorted_lt_NoDup. apply np_arange_sorted_lt. }
  { cbn. unfold np_arange. intros i Hi. apply in_map_iff in Hi. destruct Hi as (j & <- & _). lia. }
  { cbn. exact Hrl. }
  { cbn. apply sorted_lt_NoDup. exact HSr. }
  { cbn. intros t Ht. apply Hpos, Hsub, Ht. }
  rewrite EF in EF'. injection EF' as <-. cbn [opt_ids] in HIn.
  assert (Hrow : forall r, In r F -> rval r = repeat zero n_control_in /\ In (rtime r) (removelast l) /\ 0 <= rid r < Z.of_nat (length (x_values X))).
  { intros r Hr. apply HIn in Hr. destruct Hr as (a & b & s & Ha & Hs & Hb & Hv). split; [|split].
    - apply nth_error_In in Hs. apply repeat_spec in Hs. subst s. apply nth_error_In in Hv. apply repeat_spec in Hv. exact Hv.
    - eapply nth_error_In. exact Hb.
    - apply nth_error_In in Ha. unfold np_arange, tensor in Ha. rewrite repeat_length in Ha. apply in_map_iff in Ha. destruct Ha as (j & <- & Hj).
      apply in_seq in Hj. lia. }
  destruct (frame_core X F dt (Some l) tv U2 sols S HV ltac:(discriminate) E4 E5 E6 E7) as (-> & HG & HC & Hl & HSim). subst G.
  assert (Htv : time_values F = removelast l).
  { rewrite <- (np_unique_of_sorted (removelast l) HSr). apply np_unique_ext. intros t. unfold time_index. rewrite in_map_iff. split.
    - intros (r & <- & Hr). apply Hrow. exact Hr.
    - intros Ht. apply In_nth_error in Ht. destruct Ht as (b & Hb).
      exists (mkRow 0 t (repeat zero n_control_in)). split; [reflexivity|]. apply HIn. exists 0%nat, b, (repeat (repeat zero n_control_in) (length l - 1)).
      cbn [rid rtime rval]. unfold tensor. destruct (x_values X) as [|x xs]; [congruence|]. cbn [length repeat]. repeat split; [exact Hb|].
      apply nth_error_repeat. rewrite <- Hrl. apply nth_error_Some. congruence. }
  assert (tv = l) as ->.
  { destruct (ptv_array_times _ _ _ _ _ E4) as [Ht|(r & Ht & _)]; [exact Ht|]. rewrite Htv, Hrl, Ht in Hl. cbn in Hl. lia. }
  exists l. split; [reflexivity|]. split; [|split].
  - apply HSim. intros k g Hg t x Ht. cbn [SimModel.control_law] in Hg. destruct (length l =? 2)%nat.
    + destruct (nth_error F k) as [r|] eqn:Er; [|discriminate]. injection Hg as <-. apply Hrow. eapply nth_error_In. exact Er.
    + destruct (nth_error (ids F) k) as [id|] eqn:Ei; [|discriminate]. injection Hg as <-.
      assert (Hp : previous nan (removelast l) (map (fun r0 => nth (n_control_in - 1) (rval r0) zero) (group F id)) t = zero).
      { assert (Hc : forall u, In u (map (fun r0 => nth (n_control_in - 1) (rval r0) zero) (group F id)) -> u = zero).
        { intros u Hu. apply in_map_iff in Hu. destruct Hu as (r & <- & Hr). apply filter_In in Hr. destruct Hr as [Hr _].
          rewrite (proj1 (Hrow r Hr)). apply nth_repeat. }
        assert (Hgn : group F id <> []).
        { change (group F id) with (rows_of F id). apply rows_of_nonempty. apply in_ids. eapply nth_error_In. exact Ei. }
        destruct l as [|a [|b l]]; [cbn in Hl2; lia|cbn in Hl2; lia|]. cbn [hd] in Ht. apply Qle_bool_iff in Ht.
        change (removelast (a :: b :: l)) with (a :: removelast (b :: l)).
        destruct (group F id) as [|r0 rs]; [congruence|]. cbn [map previous] in Hc |- *. rewrite Ht.
        apply previous_const; [intros u Hu; apply Hc; right; exact Hu|apply Hc; left; reflexivity]. }
      rewrite Hp. apply map_const_seq.
  - intros i (r & Hr & <-). specialize (HSim (fun _ _ => True) (fun _ _ _ => I)). destruct HSim as (_ & HO & _). apply HO. apply Hrow. exact Hr.
  - intros r Hr. split; apply Hrow; exact Hr.
Qed.

End Sim.

(** ** Systems without control *)

Section Ode.
Context {R : Type}.
Notation vec := (list R).
Notation frame := (list (row (list R))).
Variable n_features_in : nat.
Variable solve0 : vec -> list Z -> option (list vec).
Variable finite : vec -> bool.

Notation ode_predict := (ode_predict n_features_in solve0 finite).

Lemma ode_frame_spec (F : frame) tv S : ValidRows F -> ode_predict (XF F) tv = Ok S ->
  exists l ics, prepare tv = Ok l /\ Forall2 (fun i x => exists t, rows_of F i = [mkRow i t x]) (ids F) ics /\
    Simulated (fun _ => solve0) ics l (fun _ _ => True) S.
Proof.
  intros HV. unfold SimModel.ode_predict. destruct (prepare tv) as [l|]; [|discriminate]. cbn [bind].
  destruct (validate_time_values_format KInt l) as [l'|] eqn:Ef; [|discriminate]. cbn [bind]. apply format_spec in Ef. destruct Ef as (-> & HS & _).
  destruct (check_tsc _ _ _ _ F) as [F'|] eqn:Ec; [|discriminate]. cbn [bind].
  assert (H1 : forall i, Occurs F i -> length (rows_of F i) = 1%nat).
  { clear -Ec HV. unfold check_tsc in Ec. 
    match type of Ec with match ?e with _ => _ end = _ => destruct e as [u|] eqn:E; [|discriminate] end. clear Ec.
    destruct (steps_decides F 1 (vr_nonempty _ HV)) as [[H _]|[_ H]]; [exact H|].
    exfalso. cbn [ensure_n_timesteps ensure_min_timesteps ensure_no_degenerate_ts ensure_dtype_time when] in E. rewrite H in E.
    cbn [also] in E. repeat match type of E with context [also ?a _] => destruct a; cbn [also] in E; try discriminate end. }
  assert (F' = F) as ->.
  { clear -Ec. unfold check_tsc in Ec. match type of Ec with match ?e with _ => _ end = _ => destruct e; [|discriminate] end. injection Ec as <-. reflexivity. }
  destruct (map_result _ (ids F)) as [sols|] eqn:Em; [|discriminate]. cbn [bind]. intros ES.
  apply map_result_inv in Em.
  assert (Hids : forall i, In i (ids F) -> Occurs F i) by (intros i Hi; apply in_ids; exact Hi).
  assert (H : forall L sols, (forall i, In i L -> Occurs F i) ->
    Forall2 (fun i G => match group F i with [] => Err ValueError | r :: _ => match solve0 (rval r) l with None => Err ValueError | Some ys => from_array ys (Some l) (Some i) end end = Ok G) L sols ->
    exists ics parts, Forall2 (fun i x => exists t, rows_of F i = [mkRow i t x]) L ics /\ length parts = length L /\
      sols = map (fun p => series_rows (fst p) (snd p)) (combine L parts) /\
      (forall s, In s parts -> GoodSeries s) /\ (forall i, In i L -> 0 <= i) /\
      Forall2 (fun x s => exists ys, solve0 x l = Some ys /\ length ys = length l /\ s = combine l ys) ics parts).
  { clear -H1 HS. induction L as [|i L IH]; intros sols HL HF; inversion HF as [|? G ? Gs Ha Hb]; subst.
    - exists [], []. split; [constructor|]. split; [reflexivity|]. split; [reflexivity|]. split; [intros s []|]. split; [intros s []|constructor].
    - destruct (IH Gs) as (ics & parts & Hi1 & Hi2 & -> & Hi4 & Hi5 & Hi6); [intros j Hj; apply HL; right; exact Hj|exact Hb|].
      change (group F i) with (rows_of F i) in Ha. assert (Hr1 := H1 i (HL i (or_introl eq_refl))).
      destruct (rows_of F i) as [|r [|? ?]] eqn:Er; try discriminate. clear Hr1.
      destruct (solve0 (rval r) l) as [ys|] eqn:Ey; [|discriminate].
      destruct (from_array_sorted ys l (Some i) G HS Ha) as (Hly & -> & HVG & Hi).
      apply good_series_rows in HVG. destruct HVG as [_ HVG].
      assert (Hri : rid r = i) by (assert (Hin : In r (rows_of F i)) by (rewrite Er; left; reflexivity); apply filter_In in Hin; lia).
      exists (rval r :: ics), (combine l ys :: parts). split.
      + constructor; [|exact Hi1]. exists (rtime r). rewrite Er, <- Hri. destruct r; reflexivity.
      + split; [cbn; lia|]. split; [reflexivity|]. split; [intros s [<-|Hs]; [exact HVG|apply Hi4; exact Hs]|].
        split; [intros j [<-|Hj]; [exact Hi|apply Hi5; exact Hj]|]. constructor; [|exact Hi6]. exists ys. repeat split; assumption. }
  destruct (H (ids F) sols Hids Em) as (ics & parts & Hi1 & Hi2 & -> & Hi4 & Hi5 & Hi6).
  destruct (collect_spec (ids F) parts S) as (HVS & HO & HR); try assumption; [lia|].
  assert (Hl : length parts = length ics) by (clear -Hi6; induction Hi6; cbn; lia).
  exists l, ics. split; [reflexivity|]. split; [exact Hi1|]. split; [exact HVS|]. split; [intros i; rewrite HO, Hl; reflexivity|].
  intros k x Ek. assert (Hk : exists s, nth_error parts k = Some s /\ exists ys, solve0 x l = Some ys /\ length ys = length l /\ s = combine l ys).
  { clear -Hi6 Ek. revert k Ek. induction Hi6 as [|x0 s0 xs ss H0 HF IH]; intros [|k] Ek; try discriminate; cbn in *.
    - injection Ek as <-. exists s0. split; [reflexivity|exact H0].
    - apply IH. exact Ek. }
  destruct Hk as (s & Es & ys & Hy1 & Hy2 & ->). exists (fun _ x => x), ys. split; [exact I|]. split; [exact Hy1|]. split; [exact Hy2|].
  rewrite (HR k _ Es). apply pairs_series_rows.
Qed.

Lemma ic_array_rows (xs : list vec) t F : ic_from_array finite n_features_in KInt xs t None = Ok F ->
  ValidRows F /\ F = map (fun p => mkRow (fst p) t (snd p)) (combine (np_arange (length xs)) xs).
Proof.
  unfold ic_from_array. destruct (negb _); [discriminate|]. destruct (tsc _) as [F'|] eqn:E; [|discriminate].
  destruct (ic_validate _ _ _ _ _ _); [|discriminate]. intros H. injection H as <-. apply tsc_ok in E. destruct E as [E ->]. split; [exact E|reflexivity].
Qed.

Lemma numbered_ids (xs : list vec) t : let F := map (fun p => mkRow (fst p) t (snd p)) (combine (np_arange (length xs)) xs) in
  ids F = np_arange (length xs) /\ Forall2 (fun i x => rows_of F i = [mkRow i t x]) (np_arange (length xs)) xs.
Proof.
  cbv zeta.
  assert (El : map fst (combine (np_arange (length xs)) xs) = np_arange (length xs)).
  { apply map_fst_combine_eq. unfold np_arange. rewrite map_length, seq_length. reflexivity. }
  split.
  - unfold ids, ids_index. rewrite map_map. cbn [rid]. change (np_unique (map fst (combine (np_arange (length xs)) xs)) = np_arange (length xs)).
    rewrite El. apply np_unique_of_sorted. apply np_arange_sorted_lt.
  - clear El. unfold np_arange.
    assert (H : forall (xs : list vec) a,
      (forall j, j < Z.of_nat a -> rows_of (map (fun p => mkRow (fst p) t (snd p)) (combine (map Z.of_nat (seq a (length xs))) xs)) j = []) /\
      Forall2 (fun i x => rows_of (map (fun p => mkRow (fst p) t (snd p)) (combine (map Z.of_nat (seq a (length xs))) xs)) i = [mkRow i t x])
        (map Z.of_nat (seq a (length xs))) xs).
    { clear. induction xs as [|x xs IH]; intros a; [split; [reflexivity|constructor]|]. destruct (IH (Datatypes.S a)) as [H1 H2].
      cbn [length seq map combine fst snd]. split.
      - intros j Hj. unfold rows_of in *. cbn [filter rid]. destruct (Z.eqb_spec (Z.of_nat a) j); [lia|]. apply H1. lia.
      - constructor.
        + unfold rows_of in *. cbn [filter rid]. rewrite Z.eqb_refl, H1 by lia. reflexivity.
        + assert (Hgt : forall i, In i (map Z.of_nat (seq (Datatypes.S a) (length xs))) -> Z.of_nat a < i).
          { intros i Hi. apply in_map_iff in Hi. destruct Hi as (j & <- & Hj). apply in_seq in Hj. lia. }
          revert Hgt H2. generalize (map (fun p : Z * vec => mkRow (fst p) t (snd p)) (combine (map Z.of_nat (seq (Datatypes.S a) (length xs))) xs)).
          generalize (map Z.of_nat (seq (Datatypes.S a) (length xs))). clear. intros L F Hgt H2. revert Hgt.
          induction H2 as [|i y is ys Ha Hb IH2]; intros Hgt; constructor.
          * unfold rows_of in *. cbn [filter rid]. specialize (Hgt i (or_introl eq_refl)). destruct (Z.eqb_spec (Z.of_nat a) i); [lia|]. exact Ha.
          * apply IH2. intros j Hj. apply Hgt. right. exact Hj. }
    apply (H xs 0%nat).
Qed.

Lemma ode_array_spec (xs : list vec) tv S : ode_predict (XA xs) tv = Ok S ->
  exists l, prepare tv = Ok l /\ Simulated (fun _ => solve0) xs l (fun _ _ => True) S.
Proof.
  intros E. destruct (prepare tv) as [l|] eqn:Ep; [|unfold SimModel.ode_predict in E; rewrite Ep in E; discriminate].
  assert (E' := E). unfold SimModel.ode_predict in E'. rewrite Ep in E'. cbn [bind] in E'.
  destruct (ic_from_array finite n_features_in KInt xs (hd 0 l) None) as [F|] eqn:EF; [|discriminate].
  assert (E2 : ode_predict (XF F) tv = Ok S).
  { unfold SimModel.ode_predict. rewrite Ep. exact E'. }
  destruct (ic_array_rows _ _ _ EF) as [HV HF].
  destruct (ode_frame_spec F tv S HV E2) as (l' & ics & El & HI & HSim). rewrite Ep in El. injection El as <-.
  exists l. split; [reflexivity|]. assert (ics = xs) as <-; [|exact HSim].
  destruct (numbered_ids xs (hd 0 l)) as [Hid HR]. rewrite <- HF in Hid, HR. rewrite Hid in HI.
  clear -HI HR. revert ics HI. induction HR as [|i x is xs Ha Hb IH]; intros ics HI; inversion HI as [|? y ? ys (t & Hc) Hd]; subst; [reflexivity|].
  f_equal; [|apply IH; exact Hd]. rewrite Ha in Hc. injection Hc. congruence.
Qed.

End Ode.
