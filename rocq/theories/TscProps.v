(** * Properties C01-C11 of time series collections.

    The statements use the model functions (TscModel.v), which carry the names
    of the API, and the vocabulary of TscSpec.v. *)

From Coq Require Import List ZArith Bool Arith Lia Sorted Permutation.
Import ListNotations.
From Verif Require Import Np TscModel TscSpec TscProofs TscDt TscRegular TscShift TscOps TscBuild.
Close Scope Z_scope.
Open Scope nat_scope.

Notation rw i t v := (mkRow i%Z t%Z v%Z) (only parsing).

(** Two series with IDs stored in the order 5, 2 (lengths 3 and 3), regularly
    sampled with interval 2. *)
Definition ex_unsorted : list (row Z) :=
  [rw 5 0 10; rw 5 2 11; rw 5 4 12; rw 2 1 20; rw 2 3 21; rw 2 5 22].

(** Three series of unequal length, IDs sorted, interval 1. *)
Definition ex_unequal : list (row Z) :=
  [rw 0 0 10; rw 0 1 11; rw 0 2 12; rw 3 4 20; rw 3 5 21; rw 7 0 30; rw 7 1 31; rw 7 2 32; rw 7 3 33].

Ltac valid := match goal with |- ValidRows ?F => apply (proj1 (tsc_ok F F)); reflexivity end.

Lemma ex_unsorted_valid : ValidRows ex_unsorted.
Proof. valid. Qed.
Lemma ex_unequal_valid : ValidRows ex_unequal.
Proof. valid. Qed.

(** ** C01 *)
Theorem C01_construct_iff_valid :
  forall (V : Type) (rows F : list (row V)), tsc rows = Ok F <-> ValidRows rows /\ F = rows.
Proof. exact @tsc_ok. Qed.
Print Assumptions C01_construct_iff_valid.

Theorem C01_construct_total :
  forall (V : Type) (rows : list (row V)),
    (ValidRows rows /\ tsc rows = Ok rows) \/ (~ ValidRows rows /\ exists e, tsc rows = Err e).
Proof. exact @tsc_cases. Qed.
Print Assumptions C01_construct_total.

Example C01_accepts : exists F, tsc ex_unsorted = Ok F /\ length F = 6.
Proof. exists ex_unsorted. split; reflexivity. Qed.
Example C01_rejects_split_series : exists e, tsc [rw 0 0 1; rw 1 0 2; rw 0 1 3] = Err e.
Proof. eexists. reflexivity. Qed.

(** ** C02 *)
Theorem C02_ids :
  forall (V : Type) (F : list (row V)),
    StronglySorted Z.lt (ids F) /\ (forall i, In i (ids F) <-> Occurs F i) /\ n_timeseries F = length (ids F).
Proof. exact (fun V F => conj (ids_sorted F) (conj (in_ids F) eq_refl)). Qed.
Print Assumptions C02_ids.

Theorem C02_n_timesteps_int :
  forall (V : Type) (F : list (row V)) n, F <> [] ->
    (n_timesteps F = NInt n <-> (forall i, In i (ids F) -> length (rows_of F i) = n)).
Proof. exact @n_timesteps_int. Qed.
Print Assumptions C02_n_timesteps_int.

Theorem C02_n_timesteps_table :
  forall (V : Type) (F : list (row V)) l,
    n_timesteps F = NSeries l -> l = map (fun i => (i, length (rows_of F i))) (ids F).
Proof. exact @n_timesteps_series. Qed.
Print Assumptions C02_n_timesteps_table.

Theorem C02_counts_sum_to_rows :
  forall (V : Type) (F : list (row V)), F <> [] ->
    match n_timesteps F with
    | NInt n => n_timeseries F * n
    | NSeries l => list_sum (map snd l)
    end = length F.
Proof. exact @n_timesteps_total. Qed.
Print Assumptions C02_counts_sum_to_rows.

Example C02_example_int : n_timesteps ex_unsorted = NInt 3 /\ ids ex_unsorted = [2; 5]%Z.
Proof. split; reflexivity. Qed.
Example C02_example_table : n_timesteps ex_unequal = NSeries [(0%Z, 3); (3%Z, 2); (7%Z, 4)].
Proof. reflexivity. Qed.

(** ** C03 *)
Theorem C03_scalar_iff_regular :
  forall (V : Type) (F : list (row V)) d, ValidRows F -> SmallSteps F ->
    (delta_time KInt F = Ok (DtScalar (Some d)) <-> (forall i, Occurs F i -> Regular F i d)).
Proof. exact @delta_time_scalar_some. Qed.
Print Assumptions C03_scalar_iff_regular.

(** C03: whatever the kind of the time index and however large the interval, a collection whose
    series are all sampled with [d] has this [delta_time]. *)
Theorem C03_regular_any_kind :
  forall (V : Type) (k : tkind) (F : list (row V)) d, ValidRows F ->
    (forall i, Occurs F i -> Regular F i d) -> delta_time k F = Ok (DtScalar (Some d)).
Proof. exact @delta_time_regular. Qed.
Print Assumptions C03_regular_any_kind.

Theorem C03_nan_iff_no_regular_series :
  forall (V : Type) (F : list (row V)), ValidRows F ->
    (delta_time KInt F = Ok (DtScalar None) <-> (forall i d, Occurs F i -> ~ Regular F i d)).
Proof. exact @delta_time_scalar_none. Qed.
Print Assumptions C03_nan_iff_no_regular_series.

Theorem C03_table_entries :
  forall (V : Type) (F : list (row V)) l,
    ValidRows F -> (IdsSorted F \/ is_equal_length F = false) ->
    delta_time KInt F = Ok (DtSeries l) ->
    map fst l = ids F /\ (forall i o, In (i, o) l -> forall d, o = Some d <-> Regular F i d).
Proof. exact @delta_time_series. Qed.
Print Assumptions C03_table_entries.

Theorem C03_never_fails :
  forall (V : Type) (F : list (row V)), ValidRows F -> exists r, delta_time KInt F = Ok r.
Proof. exact @delta_time_int_total. Qed.
Print Assumptions C03_never_fails.

Example C03_scalar_example : delta_time KInt ex_unsorted = Ok (DtScalar (Some 2%Z)).
Proof. reflexivity. Qed.
Example C03_small_steps_example : SmallSteps ex_unsorted /\ (forall i, Occurs ex_unsorted i -> Regular ex_unsorted i 2).
Proof.
  assert (Hs : SmallSteps ex_unsorted).
  { assert (Hb : forall r, In r ex_unsorted -> (0 <= rtime r < 100)%Z).
    { intros r Hr. simpl in Hr.
      repeat (destruct Hr as [<-|Hr]; [simpl; lia|]). destruct Hr. }
    intros a b (l & r & E) _.
    assert (Ha : In a ex_unsorted) by (rewrite E; apply in_or_app; right; left; reflexivity).
    assert (Hb' : In b ex_unsorted) by (rewrite E; apply in_or_app; right; right; left; reflexivity).
    apply Hb in Ha. apply Hb in Hb'. lia. }
  split; [exact Hs|]. apply (delta_time_scalar_some ex_unsorted 2 ex_unsorted_valid Hs). reflexivity.
Qed.
Example C03_table_example :
  delta_time KInt [rw 1 0 0; rw 1 1 0; rw 1 2 0; rw 4 0 0; rw 4 3 0]
  = Ok (DtSeries [(1%Z, Some 1%Z); (4%Z, Some 3%Z)]).
Proof. reflexivity. Qed.

(** The float branch ignores the first step: times 0, 5, 6, 7. *)
Theorem C03_float_refuted :
  exists F : list (row Z), ValidRows F /\ delta_time KFloat F = Ok (DtScalar (Some 1%Z)) /\ ~ SampledWith F 1.
Proof.
  exists [rw 0 0 0; rw 0 5 0; rw 0 6 0; rw 0 7 0]. split; [valid|]. split; [reflexivity|].
  intros H. specialize (H (rw 0 0 0) (rw 0 5 0)). simpl in H.
  assert (E : (5 - 0 = 1)%Z); [|discriminate]. apply H; [|reflexivity].
  exists [], [rw 0 6 0; rw 0 7 0]. reflexivity.
Qed.
Print Assumptions C03_float_refuted.

(** IDs stored as 5, 2 with intervals 1 and 7: the table assigns them the wrong
    way round. *)
Theorem C03_unsorted_ids_refuted :
  exists (F : list (row Z)) l, ValidRows F /\ delta_time KInt F = Ok (DtSeries l) /\
    In (2, Some 1)%Z l /\ ~ Regular F 2 1.
Proof.
  exists [rw 5 0 0; rw 5 1 0; rw 2 0 0; rw 2 7 0], [(2, Some 1); (5, Some 7)]%Z.
  split; [valid|]. split; [reflexivity|]. split; [left; reflexivity|].
  intros [_ H]. specialize (H (rw 2 0 0) (rw 2 7 0)). simpl in H.
  assert (E : (7 - 0 = 1)%Z); [|discriminate]. apply H; try reflexivity.
  exists [rw 5 0 0; rw 5 1 0], []. reflexivity.
Qed.
Print Assumptions C03_unsorted_ids_refuted.

(** Datetime index: two series with different intervals are reported with one
    scalar. *)
Theorem C03_datetime_refuted :
  exists (F : list (row Z)), ValidRows F /\ delta_time KDatetime F = Ok (DtScalar (Some 1%Z)) /\ ~ SampledWith F 1.
Proof.
  exists [rw 0 0 0; rw 0 1 0; rw 1 0 0; rw 1 7 0].
  split; [valid|]. split; [reflexivity|].
  intros H. specialize (H (rw 1 0 0) (rw 1 7 0)). simpl in H.
  assert (E : (7 - 0 = 1)%Z); [|discriminate]. apply H; [|reflexivity].
  exists [rw 0 0 0; rw 0 1 0], []. reflexivity.
Qed.
Print Assumptions C03_datetime_refuted.

(** Integer time values with intervals 10^12 and 10^12 + 1: the relative
    tolerance identifies them. *)
Theorem C03_large_steps_refuted :
  exists (F : list (row Z)), ValidRows F /\ delta_time KInt F = Ok (DtScalar (Some 1000000000000%Z))
    /\ ~ SampledWith F 1000000000000.
Proof.
  exists [rw 0 0 0; rw 0 1000000000000 0; rw 1 0 0; rw 1 1000000000001 0].
  split; [valid|]. split; [reflexivity|].
  intros H. specialize (H (rw 1 0 0) (rw 1 1000000000001 0)). simpl in H.
  assert (E : (1000000000001 - 0 = 1000000000000)%Z); [|discriminate]. apply H; [|reflexivity].
  exists [rw 0 0 0; rw 0 1000000000000 0], []. reflexivity.
Qed.
Print Assumptions C03_large_steps_refuted.

(** Float time values, unequal lengths and a series with one row: delta_time
    raises. *)
Theorem C03_float_degenerate_refuted :
  exists (F : list (row Z)), ValidRows F /\ delta_time KFloat F = Err ValueError.
Proof. exists [rw 0 0 0; rw 0 1 0; rw 1 0 0]. split; [valid|reflexivity]. Qed.
Print Assumptions C03_float_degenerate_refuted.

(** ** C04 *)
Theorem C04_is_equal_length :
  forall (V : Type) (F : list (row V)), F <> [] ->
    (is_equal_length F = true <->
     (forall i j, Occurs F i -> Occurs F j -> length (rows_of F i) = length (rows_of F j))).
Proof. exact @is_equal_length_spec. Qed.
Print Assumptions C04_is_equal_length.

Theorem C04_is_same_time_values :
  forall (V : Type) (F : list (row V)), ValidRows F ->
    (is_same_time_values F = true <->
     (forall i j, Occurs F i -> Occurs F j -> times_of F i = times_of F j)).
Proof. exact @is_same_time_values_spec. Qed.
Print Assumptions C04_is_same_time_values.

Example C04_example : is_equal_length ex_unsorted = true /\ is_same_time_values ex_unsorted = false.
Proof. split; reflexivity. Qed.
Example C04_example_true : is_same_time_values [rw 4 1 0; rw 4 3 0; rw 2 1 0; rw 2 3 0] = true.
Proof. reflexivity. Qed.

(** ** C05 *)
Theorem C05_pairs :
  forall (V : Type) (F : list (row V)) k L R,
    ValidRows F -> (IdsSorted F \/ is_equal_length F = true) ->
    shift_matrices k F = Ok (L, R) ->
    length L = length R /\ combine L R = snapshot_pairs F.
Proof. exact @shift_matrices_pairs. Qed.
Print Assumptions C05_pairs.

Theorem C05_succeeds :
  forall (V : Type) (F : list (row V)) d,
    ValidRows F -> SmallSteps F -> (forall i, Occurs F i -> Regular F i d) ->
    exists L R, shift_matrices KInt F = Ok (L, R).
Proof. exact (fun V F d H1 H2 H3 => ex_intro _ _ (ex_intro _ _
   (eq_trans (shift_matrices_ok F d H1 H2 H3) (f_equal Ok (surjective_pairing _))))). Qed.
Print Assumptions C05_succeeds.

(** unequal lengths, IDs stored as 5, 2: the left/right pairs cross series *)
Theorem C05_unsorted_unequal_refuted :
  exists (F : list (row Z)) L R, ValidRows F /\ shift_matrices KInt F = Ok (L, R) /\
    combine L R <> snapshot_pairs F.
Proof.
  exists [rw 5 0 50; rw 5 1 51; rw 2 0 20; rw 2 1 21; rw 2 2 22].
  eexists. eexists. split; [valid|]. split; [reflexivity|]. vm_compute. discriminate.
Qed.
Print Assumptions C05_unsorted_unequal_refuted.

Example C05_example_equal : shift_matrices KInt ex_unsorted = Ok ([10; 11; 20; 21], [11; 12; 21; 22])%Z.
Proof. reflexivity. Qed.
Example C05_example_unequal :
  shift_matrices KInt ex_unequal = Ok ([10; 11; 20; 30; 31; 32], [11; 12; 21; 31; 32; 33])%Z
  /\ IdsSorted ex_unequal.
Proof. split; [reflexivity|]. apply lexsorted_iff. reflexivity. Qed.

(** ** C06 *)
Theorem C06_round_trip :
  forall (V : Type) t0 t1 (L R : list V) F,
    L <> [] -> length L = length R -> (0 <= t0 < t1)%Z ->
    from_shift_matrices t0 t1 L R = Ok F ->
    ValidRows F /\ shift_raw F = (L, R) /\
    ((t1 - t0 < 100000000000)%Z -> shift_matrices KInt F = Ok (L, R)).
Proof. exact @shift_round_trip. Qed.
Print Assumptions C06_round_trip.

Theorem C06_construct_succeeds :
  forall (V : Type) t0 t1 (L R : list V),
    L <> [] -> length L = length R -> (0 <= t0 < t1)%Z ->
    exists F, from_shift_matrices t0 t1 L R = Ok F.
Proof. exact (fun V t0 t1 L R H1 H2 H3 => ex_intro _ _ (from_shift_ok t0 t1 L R H1 H2 H3)). Qed.
Print Assumptions C06_construct_succeeds.

Example C06_example : exists F, from_shift_matrices 0 1 [1; 2; 3]%Z [4; 5; 6]%Z = Ok F
  /\ shift_matrices KInt F = Ok ([1; 2; 3], [4; 5; 6])%Z.
Proof. eexists. split; reflexivity. Qed.

(** ** C07 *)
Theorem C07_from_tensor :
  forall (V : Type) (tensor : list (list V)) n oi ot,
  let i := match oi with None => np_arange (length tensor) | Some l => l end in
  let t := match ot with None => np_arange n | Some l => l end in
  tensor <> [] -> 1 <= n -> (forall s, In s tensor -> length s = n) ->
  length i = length tensor -> NoDup i -> (forall x, In x i -> (0 <= x)%Z) ->
  length t = n -> NoDup t -> (forall x, In x t -> (0 <= x)%Z) ->
  exists F, from_tensor tensor n oi ot = Ok F /\ ValidRows F /\ IdsSorted F /\
    length F = length tensor * n /\
    forall r, In r F <->
      exists a b s, nth_error i a = Some (rid r) /\ nth_error tensor a = Some s /\
                    nth_error t b = Some (rtime r) /\ nth_error s b = Some (rval r).
Proof. exact @from_tensor_spec. Qed.
Print Assumptions C07_from_tensor.

Theorem C07_duplicate_ids_rejected :
  forall (V : Type) (tensor : list (list V)) n l ot,
    length l = length tensor -> ~ NoDup l -> from_tensor tensor n (Some l) ot = Err ValueError.
Proof. exact @from_tensor_dup_ids. Qed.
Print Assumptions C07_duplicate_ids_rejected.

Example C07_example :
  from_tensor [[1; 2]; [3; 4]]%Z 2 (Some [9; 4]%Z) (Some [0; 3]%Z)
  = Ok [rw 4 0 3; rw 4 3 4; rw 9 0 1; rw 9 3 2].
Proof. reflexivity. Qed.

(** ** C08 *)
Theorem C08_insert_iff :
  forall (V : Type) (F : list (row V)) s o G,
    ValidRows F -> s <> [] ->
    (insert_ts F s o = Ok G <->
     (~ Occurs F (chosen_id F o) /\ (0 <= chosen_id F o)%Z /\ GoodSeries s
      /\ G = F ++ series_rows (chosen_id F o) s)).
Proof. exact @insert_ts_ok. Qed.
Print Assumptions C08_insert_iff.

Theorem C08_default_id_is_max_plus_one :
  forall (V : Type) (F : list (row V)), F <> [] ->
    exists m, chosen_id F None = (m + 1)%Z /\ Occurs F m /\ (forall j, Occurs F j -> (j <= m)%Z).
Proof. exact (fun V F H => ex_intro _ (zmax (ids F)) (conj eq_refl (max_id_spec F H))). Qed.
Print Assumptions C08_default_id_is_max_plus_one.

Theorem C08_present_id_rejected :
  forall (V : Type) (F : list (row V)) s i, Occurs F i -> insert_ts F s (Some i) = Err ValueError.
Proof. exact @insert_ts_present. Qed.
Print Assumptions C08_present_id_rejected.

Theorem C08_histories :
  forall (V : Type) ops (F G : list (row V)) log,
    ValidRows F -> insert_all F ops = Ok (G, log) ->
    ValidRows G /\ map snd log = map fst ops /\
    G = F ++ flat_map (fun p => series_rows (fst p) (snd p)) log /\
    (forall i s, In (i, s) log -> s <> [] -> rows_of G i = series_rows i s) /\
    (forall i, Occurs F i -> rows_of G i = rows_of F i) /\
    (forall i s, In (i, s) log -> s <> [] -> ~ Occurs F i).
Proof. exact @insert_all_spec. Qed.
Print Assumptions C08_histories.

Example C08_example : exists G log,
  insert_all ex_unsorted [([(0, 1); (4, 2)]%Z, None); ([(3, 7)]%Z, Some 0%Z); ([(3, 8)]%Z, None)] = Ok (G, log)
  /\ map fst log = [6; 0; 7]%Z /\ length G = 10.
Proof. eexists. eexists. split; [reflexivity|]. split; reflexivity. Qed.

(** ** C09 *)
Theorem C09_initial_states :
  forall (V : Type) (F : list (row V)) n,
    ValidRows F -> 1 <= n -> (forall i, Occurs F i -> n <= length (rows_of F i)) ->
    exists G, initial_states F n = Ok G /\ ValidRows G /\ Subseq G F /\
              forall i, rows_of G i = firstn n (rows_of F i).
Proof. exact @initial_states_spec. Qed.
Print Assumptions C09_initial_states.

Theorem C09_final_states :
  forall (V : Type) (F : list (row V)) n,
    ValidRows F -> 1 <= n -> (forall i, Occurs F i -> n <= length (rows_of F i)) ->
    exists G, final_states F n = Ok G /\ ValidRows G /\ Subseq G F /\
              forall i, rows_of G i = skipn (length (rows_of F i) - n) (rows_of F i).
Proof. exact @final_states_spec. Qed.
Print Assumptions C09_final_states.

Theorem C09_short_series_rejected :
  forall (V : Type) (F : list (row V)) n i,
    F <> [] -> Occurs F i -> length (rows_of F i) < n -> 1 <= n ->
    initial_states F n = Err TSCException /\ final_states F n = Err TSCException.
Proof. exact @states_rejected. Qed.
Print Assumptions C09_short_series_rejected.

Example C09_example :
  initial_states ex_unequal 2 = Ok [rw 0 0 10; rw 0 1 11; rw 3 4 20; rw 3 5 21; rw 7 0 30; rw 7 1 31]
  /\ final_states ex_unequal 1 = Ok [rw 0 2 12; rw 3 5 21; rw 7 3 33].
Proof. split; reflexivity. Qed.

(** ** C10 *)
Theorem C10_per_series :
  forall (V : Type) (F : list (row V)) w o k,
    ValidRows F -> (0 < w)%Z -> (0 < o)%Z ->
    forall d, check_const_time_delta k F = Ok d ->
    iter_timevalue_window k F w o true
    = Ok (flat_map (fun i => full_windows (Z.to_nat w) (Z.to_nat o) (rows_of F i)) (ids F)).
Proof. exact @iter_windows_per_series. Qed.
Print Assumptions C10_per_series.

Theorem C10_collection_wide :
  forall (V : Type) (F : list (row V)) w o k,
    ValidRows F -> (0 < w)%Z -> (0 < o)%Z -> IdsSorted F ->
    forall d, check_const_time_delta k F = Ok d ->
    iter_timevalue_window k F w o false
    = Ok (map (fun ts => filter (fun r => existsb (Z.eqb (rtime r)) ts) F)
              (full_windows (Z.to_nat w) (Z.to_nat o) (time_values F))).
Proof. exact @iter_windows_global. Qed.
Print Assumptions C10_collection_wide.

(** If the IDs are not stored in increasing order, the windows (of at least two time values)
    have the same rows, but ordered by time over all series. *)
Theorem C10_collection_wide_unsorted :
  forall (V : Type) (F : list (row V)) w o k,
    ValidRows F -> (1 < w)%Z -> (0 < o)%Z -> ~ IdsSorted F ->
    forall d, check_const_time_delta k F = Ok d ->
    iter_timevalue_window k F w o false
    = Ok (map (fun ts => flat_map (fun t => filter (fun r => (rtime r =? t)%Z) F) ts)
              (full_windows (Z.to_nat w) (Z.to_nat o) (time_values F))).
Proof. exact @iter_windows_unsorted. Qed.
Print Assumptions C10_collection_wide_unsorted.

Theorem C10_window_positions :
  forall (A : Type) w o (l x : list A), 1 <= w -> 1 <= o ->
    (In x (full_windows w o l) <->
     exists j, j * o + w <= length l /\ x = firstn w (skipn (j * o) l)).
Proof. exact (fun A w o l x H1 H2 => in_full_windows w o l x H1 H2). Qed.
Print Assumptions C10_window_positions.

Theorem C10_bad_parameters_rejected :
  forall (V : Type) (F : list (row V)) w o k b,
    (w <= 0 \/ o <= 0)%Z -> forall d, check_const_time_delta k F = Ok d ->
    iter_timevalue_window k F w o b = Err ValueError.
Proof. exact @iter_windows_rejects. Qed.
Print Assumptions C10_bad_parameters_rejected.

Example C10_example :
  iter_timevalue_window KInt ex_unequal 2 2 true
  = Ok [[rw 0 0 10; rw 0 1 11]; [rw 3 4 20; rw 3 5 21]; [rw 7 0 30; rw 7 1 31]; [rw 7 2 32; rw 7 3 33]].
Proof. reflexivity. Qed.

Example C10_unsorted_example :
  iter_timevalue_window KInt [rw 5 0 10; rw 5 1 11; rw 2 0 20; rw 2 1 21] 2 2 false
  = Ok [[rw 5 0 10; rw 2 0 20; rw 5 1 11; rw 2 1 21]].
Proof. reflexivity. Qed.

(** ** C11 *)
Theorem C11_train_test_ids :
  forall (V : Type) (F : list (row V)) train test Tr Te,
    assign_ids_train_test F train test = Ok (Tr, Te) ->
    exists new : nat -> Z,
      Relabelled F new train Tr /\ Relabelled F new test Te /\
      forall p q, p <= q -> In p (train ++ test) -> In q (train ++ test) ->
        (new p = new q <->
         forall k, p <= k <= q ->
           In k (train ++ test) /\ (In k train <-> In p train) /\
           option_map rid (nth_error F k) = option_map rid (nth_error F p)).
Proof. exact @train_test_spec. Qed.
Print Assumptions C11_train_test_ids.

Theorem C11_accepts_disjoint_index_sets :
  forall (V : Type) (F : list (row V)) train test,
    strictly_inc train = true -> strictly_inc test = true ->
    (forall x, In x train -> ~ In x test) -> (forall x, In x (train ++ test) -> x < length F) ->
    exists Tr Te, assign_ids_train_test F train test = Ok (Tr, Te).
Proof. exact @train_test_total. Qed.
Print Assumptions C11_accepts_disjoint_index_sets.

Example C11_example :
  assign_ids_train_test ex_unequal [0; 2; 3; 5; 6] [1; 7; 8]
  = Ok ([rw 0 0 10; rw 2 2 12; rw 3 4 20; rw 5 0 30; rw 5 1 31], [rw 1 1 11; rw 6 2 32; rw 6 3 33]).
Proof. reflexivity. Qed.
