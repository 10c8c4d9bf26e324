(** * C62-C64: normalised times, filling with the last state, augmentation with control inputs. *)

From Coq Require Import List ZArith Bool Arith Lia Sorted SpecFloat.
Import ListNotations.
From Coq Require Import ZifyBool ZifyNat.
From Verif Require Import Np NpFacts TscModel TscSpec TscBlocks TscProofs TscOps TscDt TscRegular AccModel AccSpec AccProofs.
Open Scope Z_scope.

Section Props.
Context {V W : Type}.
Notation frame := (list (row V)).

(** ** C09, continued *)

(** [drop_last_n_samples] removes the last [n] samples of each series and nothing else. *)
Theorem C09_drop_last (F : frame) n :
  ValidRows F -> (forall i, Occurs F i -> (n < length (rows_of F i))%nat) ->
  exists G, drop_last_n_samples F n = Ok G /\ ValidRows G /\ Subseq G F /\
            forall i, rows_of G i = firstn (length (rows_of F i) - n) (rows_of F i).
Proof. apply drop_last_spec. Qed.

(** ** C62 *)

(** If all series have the sampling interval [d], then [normalize_time] succeeds: the rows are kept
    in order with IDs and values, the earliest time [t0] becomes 0, all intervals become 1, and the
    new time of each row is the number of whole intervals since [t0]. *)
Theorem C62_normalize k (F : frame) d t0 :
  ValidRows F -> (forall i, Occurs F i -> Regular F i d) -> Earliest F t0 ->
  exists G, normalize_time k F = Ok G /\ ValidRows G /\ Normalized G /\
    Forall2 (fun r g => rid g = rid r /\ rval g = rval r /\
                        d * rtime g <= rtime r - t0 < d * (rtime g + 1)) F G.
Proof.
  intros HV HR HE. destruct (normalize_ok k F d HV HR) as (Hd & E & HG & HN).
  apply first_time_earliest in HE. destruct HE as [_ <-].
  eexists. split; [exact E|]. split; [exact HG|]. split; [exact HN|].
  assert (Hm : forall r, In r F -> first_time F <= rtime r).
  { apply (proj2 (first_time_earliest F (first_time F)) (conj (vr_nonempty _ HV) eq_refl)). }
  revert Hm. generalize (first_time F) as m. clear - Hd. intros m.
  induction F as [|r F IH]; intros Hm; cbn [map]; constructor; [|apply IH; intros q Hq; apply Hm; right; exact Hq].
  cbn [rid rval rtime]. split; [reflexivity|]. split; [reflexivity|].
  assert (H := Hm r (or_introl eq_refl)). assert (E := Z.quot_rem' (rtime r - m) d).
  assert (B := Z.rem_bound_pos (rtime r - m) d ltac:(lia) Hd). lia.
Qed.

(** Whatever the input, a result of [normalize_time] is valid, has the same IDs and values in the
    same order, starts at 0 and has interval 1 in every series. *)
Theorem C62_sound k (F G : frame) : normalize_time k F = Ok G -> ValidRows G /\ SameUpToTime F G /\ Normalized G.
Proof. apply normalize_sound. Qed.

(** Collections without a common sampling interval are rejected. *)
Theorem C62_rejects (F : frame) : ValidRows F -> SmallSteps F ->
  (~ exists d, forall i, Occurs F i -> Regular F i d) -> normalize_time KInt F = Err TSCException.
Proof.
  intros HV HS Hno. unfold normalize_time.
  destruct (valid_blocks F HV) as (bs & EF & Wb). destruct (dt_table_total bs Wb) as (t & Ht).
  destruct (delta_time KInt F) as [[[d|]|l]|e] eqn:E; [|reflexivity|reflexivity|].
  - exfalso. apply Hno. exists d. apply (delta_time_scalar_some F d HV HS). exact E.
  - exfalso. revert E. unfold delta_time. rewrite EF, Ht. repeat (match goal with |- context [if ?c then _ else _] => destruct c end); discriminate.
Qed.

(** ** C63 *)

(** A regular series with ID 0 and less than [n] samples is continued to [n] samples with the same
    interval; all new samples have the last state. *)
Theorem C63_fill k n (F : frame) d : ValidRows F -> OnlySeries F 0 -> Regular F 0 d ->
  (length F < n)%nat -> k <> KDatetime ->
  exists tail r F', fill_timeseries_with_last_state k n F = Ok (F ++ tail) /\ F = F' ++ [r] /\
    length (F ++ tail) = n /\ ValidRows (F ++ tail) /\ OnlySeries (F ++ tail) 0 /\ Regular (F ++ tail) 0 d /\
    (forall q, In q tail -> rval q = rval r).
Proof.
  intros HV HO HR Hn Hk. destruct (snoc_cases F (vr_nonempty _ HV)) as (F' & r & ->).
  destruct (fill_zero k n F' r d HV HO HR Hn Hk) as (E & H1 & H2 & H3).
  exists (attached F' r d n), r, F'. split; [exact E|]. split; [reflexivity|]. split; [|split; [exact H1|split; [exact H2|split; [exact H3|]]]].
  - unfold attached, series_rows. rewrite app_length, !map_length, seq_length. lia.
  - unfold attached, series_rows. intros q Hq. rewrite map_map in Hq. apply in_map_iff in Hq. destruct Hq as (j & <- & _). reflexivity.
Qed.

(** The remaining inputs are rejected. *)
Theorem C63_rejects k n (F : frame) : ValidRows F ->
  ((forall i, ~ OnlySeries F i) -> fill_timeseries_with_last_state k n F = Err NotImplementedError) /\
  (forall i, OnlySeries F i -> (n <= length F)%nat -> fill_timeseries_with_last_state k n F = Err TSCException).
Proof.
  intros HV. split.
  - intros Hno. unfold fill_timeseries_with_last_state.
    destruct (Nat.eqb_spec (n_timeseries F) 1) as [E|E]; [|reflexivity]. exfalso.
    destruct (valid_blocks F HV) as (bs & EF & Wb). rewrite EF, (n_timeseries_blocks _ Wb) in E.
    destruct bs as [|[i s] [|]]; try discriminate. apply (Hno i). rewrite EF, series_rows_flatten.
    intros q Hq. apply in_map_iff in Hq. destruct Hq as (p & <- & _). reflexivity.
  - intros i HO Hn. destruct (only_counts F i HV HO) as [E1 E2]. unfold fill_timeseries_with_last_state.
    rewrite E1, E2. cbn [Nat.eqb negb nsteps_values existsb]. destruct (Nat.leb_spec n (length F)); [reflexivity|lia].
Qed.

(** A series with another ID is not continued: the new samples form a second series with ID 0.  With
    datetime times the function always fails. *)
Theorem C63_fill_refuted k n (F : frame) i d : ValidRows F -> OnlySeries F i -> Regular F i d -> (length F < n)%nat ->
  (k <> KDatetime -> i <> 0 -> exists G, fill_timeseries_with_last_state k n F = Ok G /\ rows_of G i = F /\ Occurs G 0) /\
  (k = KDatetime -> fill_timeseries_with_last_state k n F = Err TypeError).
Proof.
  intros HV HO HR Hn. split.
  - intros Hk Hi. destruct (snoc_cases F (vr_nonempty _ HV)) as (F' & r & ->).
    assert (Ei : rid r = i) by (apply HO; apply in_or_app; right; left; reflexivity). subst i.
    eexists. exact (fill_other k n F' r d HV HO HR Hn Hk Hi).
  - intros ->. destruct (only_counts F i HV HO) as [E1 E2]. unfold fill_timeseries_with_last_state.
    rewrite E1, E2. cbn [Nat.eqb negb nsteps_values existsb]. destruct (Nat.leb_spec n (length F)); [lia|]. cbn [orb].
    unfold check_const_time_delta. rewrite (delta_time_regular KDatetime F d HV); [reflexivity|].
    intros j (q & Hq & <-). rewrite (HO q Hq). exact HR.
Qed.

(** ** C64 *)

(** If the control input has the index of the states without the last sample of each series, then
    each state gets the control input of the sample before it in the same series; first samples get
    nan.  (The first ID must not be 1, see below.) *)
Theorem C64_augment (X : frame) (U : list (row W)) (a : row V) X' : ValidRows X -> X = a :: X' -> rid a <> 1 ->
  index U = index_but_last X ->
  exists G, augment_control_input X U = Ok G /\ ValidRows G /\ length G = length X /\
    forall n y, nth_error X n = Some y -> exists c, nth_error G n = Some (mkRow (rid y) (rtime y) (rval y, c)) /\
      (FirstOfSeries X y -> c = None) /\
      (forall x u, Next X x y -> rid x = rid y -> In (mkRow (rid x) (rtime x) u) U -> c = Some u).
Proof.
  intros HV -> H1 EU. assert (E := augment_ok a X' U HV H1 EU). destruct (augment_values a X' U HV EU) as [H2 H3].
  eexists. split; [exact E|]. split; [|split; [apply map_length|]].
  - assert (E' := E). unfold augment_control_input in E'.
    repeat (match type of E' with context [if ?c then _ else _] => destruct c; [discriminate|] end).
    apply tsc_ok in E'. destruct E' as [HG Eg]. rewrite Eg. exact HG.
  - intros n y Hy. eexists. split; [erewrite map_nth_error by exact Hy; reflexivity|]. split.
    + apply H3.
    + intros x u. apply H2.
Qed.

(** Every state that is not the first of its series gets a control input. *)
Theorem C64_covered (X : frame) (U : list (row W)) x y : index U = index_but_last X ->
  Next X x y -> rid x = rid y -> exists u, In (mkRow (rid x) (rtime x) u) U.
Proof.
  intros EU (l & r & ->) Er.
  assert (H : In (rid x, rtime x) (index U)).
  { rewrite EU. clear EU. induction l as [|b l IH].
    - cbn. rewrite Er, Z.eqb_refl. left. reflexivity.
    - assert (H : forall q m, In q (index_but_last m) -> In q (index_but_last (b :: m))).
      { intros q [|c m] Hq; [destruct Hq|].
        change (index_but_last (b :: c :: m)) with (if rid b =? rid c then (rid b, rtime b) :: index_but_last (c :: m) else index_but_last (c :: m)).
        destruct (rid b =? rid c); [right|]; exact Hq. }
      apply (H _ _ IH). }
  apply in_map_iff in H. destruct H as (u & Eu & Hu). exists (rval u). injection Eu as E1 E2.
  rewrite <- E1, <- E2. destruct u. exact Hu.
Qed.

(** Any other index is rejected. *)
Theorem C64_mismatch (X : frame) (U : list (row W)) : index U <> index_but_last X ->
  augment_control_input X U = Err AssertionError.
Proof. apply augment_mismatch. Qed.

(** If the first series has ID 1, then the function always fails. *)
Theorem C64_augment_refuted (X : frame) (U : list (row W)) (a : row V) X' : X = a :: X' -> rid a = 1 ->
  index U = index_but_last X -> augment_control_input X U = Err ValueError.
Proof. intros ->. apply augment_one. Qed.

End Props.

(** In double precision [normalize_time] also fails for some regular time values: the four times
    0.2 + 0.7 i have three identical differences, but the last quotient is below 3, so that two
    samples get the same time and the index is rejected. *)
Definition fnum (p : positive) : f64 := SFdiv 53 1024 (S754_finite false p 0) (S754_finite false 1 0).
Definition times02 : list f64 :=
  let t := SFdiv 53 1024 (fnum 1) (fnum 5) in
  let d := SFdiv 53 1024 (fnum 7) (fnum 10) in
  map (fun i => SFadd 53 1024 t (SFmul 53 1024 i d)) [S754_zero false; fnum 1; fnum 2; fnum 3].

Theorem C62_float_refuted :
  (exists d, fdiff times02 = [d; d; d]) /\ normalize_floats times02 = Ok [0; 1; 2; 2] /\
  tsc (series_rows 0 (combine [0; 1; 2; 2] [tt; tt; tt; tt])) = Err AttributeError.
Proof. split; [eexists; vm_compute; reflexivity|]. split; vm_compute; reflexivity. Qed.

Print Assumptions C09_drop_last.
Print Assumptions C62_normalize.
Print Assumptions C62_sound.
Print Assumptions C62_rejects.
Print Assumptions C62_float_refuted.
Print Assumptions C63_fill.
Print Assumptions C63_rejects.
Print Assumptions C63_fill_refuted.
Print Assumptions C64_augment.
Print Assumptions C64_covered.
Print Assumptions C64_mismatch.
Print Assumptions C64_augment_refuted.

(** ** Concrete cases *)

Definition exA : list (row Z) := [mkRow 4 10 1; mkRow 4 13 2; mkRow 4 16 3; mkRow 2 14 4; mkRow 2 17 5].

Example exA_valid : ValidRows exA.
Proof. apply (tsc_ok exA exA). vm_compute. reflexivity. Qed.

Example exA_regular : forall i, Occurs exA i -> Regular exA i 3.
Proof.
  apply delta_time_scalar_some; [apply exA_valid| |vm_compute; reflexivity].
  intros a b (l & r & E) Er. assert (H : forall q, In q exA -> 10 <= rtime q <= 17) by (intros q Hq; cbn in Hq; intuition (subst q; cbn; lia)).
  assert (H1 := H a ltac:(rewrite E; apply in_or_app; right; left; reflexivity)).
  assert (H2 := H b ltac:(rewrite E; apply in_or_app; right; right; left; reflexivity)). lia.
Qed.

Example exA_earliest : Earliest exA 10.
Proof. split; [exists (mkRow 4 10 1); split; [left; reflexivity|reflexivity]|]. intros q Hq; cbn in Hq; intuition (subst q; cbn; lia). Qed.

Example exA_drop : drop_last_n_samples exA 1 = Ok [mkRow 4 10 1; mkRow 4 13 2; mkRow 2 14 4].
Proof. vm_compute. reflexivity. Qed.

(** The offset of one time unit of the second series is lost. *)
Example exA_normalized : normalize_time KInt exA = Ok [mkRow 4 0 1; mkRow 4 1 2; mkRow 4 2 3; mkRow 2 1 4; mkRow 2 2 5].
Proof. vm_compute. reflexivity. Qed.

Definition exB : list (row Z) := [mkRow 0 10 1; mkRow 0 13 2].

Example exB_filled : fill_timeseries_with_last_state KInt 4 exB = Ok [mkRow 0 10 1; mkRow 0 13 2; mkRow 0 16 2; mkRow 0 19 2].
Proof. vm_compute. reflexivity. Qed.

Example exB_hypotheses : ValidRows exB /\ OnlySeries exB 0 /\ (length exB < 4)%nat /\ Regular exB 0 3.
Proof.
  assert (HV : ValidRows exB) by (apply (tsc_ok exB exB); vm_compute; reflexivity).
  assert (HO : OnlySeries exB 0) by (intros q Hq; cbn in Hq; intuition (subst q; reflexivity)).
  split; [exact HV|]. split; [exact HO|]. split; [cbn; lia|].
  apply (delta_time_small exB 3 HV); [lia|vm_compute; reflexivity|]. exists (mkRow 0 10 1). split; [left|]; reflexivity.
Qed.

(** The same series with ID 7: the new samples form a second series. *)
Example exB_other : fill_timeseries_with_last_state KInt 4 [mkRow 7 10 1; mkRow 7 13 2] =
  Ok [mkRow 7 10 1; mkRow 7 13 2; mkRow 0 16 2; mkRow 0 19 2].
Proof. vm_compute. reflexivity. Qed.

Definition exU : list (row bool) := [mkRow 4 10 true; mkRow 4 13 false; mkRow 2 14 true].

Example exU_index : index exU = index_but_last exA.
Proof. reflexivity. Qed.

Example exU_augmented : augment_control_input exA exU =
  Ok [mkRow 4 10 (1, None); mkRow 4 13 (2, Some true); mkRow 4 16 (3, Some false); mkRow 2 14 (4, None); mkRow 2 17 (5, Some true)].
Proof. vm_compute. reflexivity. Qed.

Example exU_one : augment_control_input [mkRow 1 10 1; mkRow 1 13 2] [mkRow 1 10 true] = Err ValueError.
Proof. vm_compute. reflexivity. Qed.
