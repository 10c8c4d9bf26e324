(** * Theorems: tables (C75), expansion (C76), constant sampling (C77), constructors
    (C78), shifts of time (C79) and checks of two collections (C80). *)

From Coq Require Import List ZArith Bool Arith Lia Sorted Permutation.
From Coq Require Import ZifyBool ZifyNat.
Import ListNotations.
From Verif Require Import Np TscModel TscSpec TscProofs AccSpec ChkSpec BldModel BldSpec BldProofs BldBuild BldShift.
Close Scope nat_scope.
Open Scope Z_scope.

(** ** C75: feature_to_array *)

(** The array has one row per series, in storage order, with the values of that
    series in the order of time; it is returned exactly if all series have the same
    time values. *)
Theorem C75_array :
  forall (V : Type) (F : list (row V)) (A : list (list V)), ValidRows F ->
  feature_to_array F = Ok A <->
  SameTimes F /\ exists l, StorageOrder F l /\ A = map (fun i => map rval (rows_of F i)) l.
Proof. exact (@feature_array_spec). Qed.
Print Assumptions C75_array.

Theorem C75_error :
  forall (V : Type) (F : list (row V)), ValidRows F -> ~ SameTimes F -> feature_to_array F = Err TSCException.
Proof. exact (@feature_array_other). Qed.
Print Assumptions C75_error.

(** With as_frame=True and series stored in the order of their IDs, the entry at
    row label [i] and column label [t] is the sample of series [i] at time [t]. *)
Theorem C75_frame :
  forall (V : Type) (F : list (row V)) (M : table), ValidRows F -> IdsSorted F -> feature_to_frame F = Ok M ->
  forall i t v, Entry M i t v <-> In (mkRow i t v) F.
Proof. exact (@feature_frame_spec). Qed.
Print Assumptions C75_frame.

Example C75_example :
  feature_to_frame [mkRow 2 5 10; mkRow 2 7 11; mkRow 4 5 20; mkRow 4 7 21]
  = Ok (mkTable [2; 4] [5; 7] [[10; 11]; [20; 21]]).
Proof. vm_compute. reflexivity. Qed.

(** Series stored in another order: the rows are labelled with the sorted IDs, so
    that an entry belongs to another series. *)
Theorem C75_frame_refuted :
  exists (F : list (row Z)) (M : table), tsc F = Ok F /\ feature_to_frame F = Ok M /\
    exists i t v, Entry M i t v /\ ~ In (mkRow i t v) F.
Proof.
  exists [mkRow 4 5 20; mkRow 2 5 10], (mkTable [2; 4] [5] [[20]; [10]]).
  split; [vm_compute; reflexivity|]. split; [vm_compute; reflexivity|].
  exists 2, 5, 20. split; [exists 0%nat, 0%nat, [20]; auto|].
  intros [H|[H|[]]]; discriminate.
Qed.
Print Assumptions C75_frame_refuted.

(** ** C76: expand_time_values *)

(** One series: succeeds exactly if there is at least one new time, none occurs
    twice and all are later than the last sample; the new samples follow the old
    ones. *)
Theorem C76_single :
  forall (V : Type) (F : list (row V)) (i : Z) (new : list Z) (fill : V) (G : list (row V)),
  ValidRows F -> OnlySeries F i ->
  expand_time_values F new fill = Ok G <->
  new <> [] /\ NoDup new /\ (forall r t, In r F -> In t new -> rtime r < t) /\
  ValidRows G /\ exists P, G = F ++ P /\ Permutation P (map (fun t => mkRow i t fill) new).
Proof. exact (@expand_single). Qed.
Print Assumptions C76_single.

Theorem C76_single_succeeds :
  forall (V : Type) (F : list (row V)) (i : Z) (new : list Z) (fill : V), ValidRows F -> OnlySeries F i ->
  new <> [] -> NoDup new -> (forall r t, In r F -> In t new -> rtime r < t) ->
  exists G, expand_time_values F new fill = Ok G.
Proof. exact (@expand_single_succeeds). Qed.
Print Assumptions C76_single_succeeds.

(** Several series stored in the order of their IDs with the same times: the result
    holds the old samples and, for every series and every new time, one sample with
    the fill value. *)
Theorem C76_many :
  forall (V : Type) (F : list (row V)) (new : list Z) (fill : V),
  ValidRows F -> IdsSorted F -> SameTimes F -> (forall i, ~ OnlySeries F i) ->
  NoDup new -> (forall t, In t new -> 0 <= t) -> (forall r, In r F -> ~ In (rtime r) new) ->
  exists G, expand_time_values F new fill = Ok G /\ ValidRows G /\ IdsSorted G /\
    forall r, In r G <-> In r F \/ (Occurs F (rid r) /\ In (rtime r) new /\ rval r = fill).
Proof. exact (@expand_many). Qed.
Print Assumptions C76_many.

Theorem C76_error :
  forall (V : Type) (F : list (row V)) (new : list Z) (fill : V),
  ValidRows F -> (forall i, ~ OnlySeries F i) -> ~ SameTimes F ->
  expand_time_values F new fill = Err TSCException.
Proof. exact (@expand_other). Qed.
Print Assumptions C76_error.

Example C76_example_single :
  expand_time_values [mkRow 3 1 10; mkRow 3 2 11] [7; 4] 0
  = Ok [mkRow 3 1 10; mkRow 3 2 11; mkRow 3 4 0; mkRow 3 7 0].
Proof. vm_compute. reflexivity. Qed.

Example C76_example_many :
  expand_time_values [mkRow 2 1 10; mkRow 2 5 11; mkRow 4 1 20; mkRow 4 5 21] [6; 3] 0
  = Ok [mkRow 2 1 10; mkRow 2 3 0; mkRow 2 5 11; mkRow 2 6 0; mkRow 4 1 20; mkRow 4 3 0; mkRow 4 5 21; mkRow 4 6 0].
Proof. vm_compute. reflexivity. Qed.

(** Series stored in another order exchange their samples. *)
Theorem C76_refuted :
  exists (F G : list (row Z)), tsc F = Ok F /\ SameTimes F /\ expand_time_values F [1] 0 = Ok G /\
    exists r, In r G /\ rtime r = 0 /\ ~ In r F.
Proof.
  exists [mkRow 1 0 10; mkRow 0 0 20], [mkRow 0 0 10; mkRow 0 1 0; mkRow 1 0 20; mkRow 1 1 0].
  split; [vm_compute; reflexivity|]. split.
  { intros i j (r & Hr & <-) (q & Hq & <-).
    destruct Hr as [<-|[<-|[]]]; destruct Hq as [<-|[<-|[]]]; reflexivity. }
  split; [vm_compute; reflexivity|]. exists (mkRow 0 0 10). split; [left; reflexivity|]. split; [reflexivity|].
  intros [H|[H|[]]]; discriminate.
Qed.
Print Assumptions C76_refuted.

(** A single series rejects a new time between its samples, two series accept it. *)
Theorem C76_between_refuted :
  exists (F H : list (row Z)), tsc F = Ok F /\ tsc H = Ok H /\
    (forall r, In r F -> In r H) /\
    expand_time_values F [1] 0 = Err AttributeError /\ exists G, expand_time_values H [1] 0 = Ok G.
Proof.
  exists [mkRow 0 0 1; mkRow 0 2 2], [mkRow 0 0 1; mkRow 0 2 2; mkRow 1 0 1; mkRow 1 2 2].
  split; [vm_compute; reflexivity|]. split; [vm_compute; reflexivity|]. split.
  { intros r [<-|[<-|[]]]; cbn; auto. }
  split; [vm_compute; reflexivity|]. eexists. vm_compute. reflexivity.
Qed.
Print Assumptions C76_between_refuted.

(** ** C77: const_sampled_time_values *)

(** The values [s, s + d, s + 2 d, ...] up to the latest time, increasing; [d] is
    the sampling interval of every series and [s] the earliest time. *)
Theorem C77_values :
  forall (V : Type) (F : list (row V)) (l : list Z), ValidRows F -> SmallSteps F ->
  const_sampled_time_values F = Ok l ->
  exists d s e, AllRegular F d /\ Earliest F s /\ Latest F e /\ StronglySorted Z.lt l /\
    forall t, In t l <-> t <= e /\ exists k, t = s + Z.of_nat k * d.
Proof. exact (@const_sampled_spec). Qed.
Print Assumptions C77_values.

Theorem C77_error :
  forall (V : Type) (F : list (row V)), ValidRows F -> SmallSteps F ->
  const_sampled_time_values F = Err TSCException <-> ~ exists d, AllRegular F d.
Proof. exact (@const_sampled_error). Qed.
Print Assumptions C77_error.

(** If the series are aligned, no time of the collection is missing. *)
Theorem C77_complete :
  forall (V : Type) (F : list (row V)) (l : list Z) (d : Z), ValidRows F -> SmallSteps F ->
  AllRegular F d -> Aligned F d -> const_sampled_time_values F = Ok l ->
  forall r, In r F -> In (rtime r) l.
Proof. exact (@const_sampled_complete). Qed.
Print Assumptions C77_complete.

Example C77_example :
  const_sampled_time_values [mkRow 0 1 0; mkRow 0 3 0; mkRow 1 9 0; mkRow 1 11 0] = Ok [1; 3; 5; 7; 9; 11].
Proof. vm_compute. reflexivity. Qed.

(** Series that are not aligned: times of the collection are missing. *)
Theorem C77_refuted :
  exists (F : list (row Z)) (l : list Z), tsc F = Ok F /\ const_sampled_time_values F = Ok l /\
    exists r, In r F /\ ~ In (rtime r) l.
Proof.
  exists [mkRow 0 0 0; mkRow 0 2 0; mkRow 0 4 0; mkRow 1 1 0; mkRow 1 3 0], [0; 2; 4].
  split; [vm_compute; reflexivity|]. split; [vm_compute; reflexivity|].
  exists (mkRow 1 1 0). split; [cbn; auto|]. cbn. lia.
Qed.
Print Assumptions C77_refuted.

(** ** C78: constructors *)

(** A frame of a single series is stored in the order of time under the given ID
    (default 0); it is accepted exactly if it is not empty and has distinct
    non-negative times and a non-negative ID. *)
Theorem C78_single :
  forall (V : Type) (s : list (Z * V)) (oi : option Z) (F : list (row V)),
  let i := match oi with None => 0 | Some i => i end in
  from_single_timeseries s oi = Ok F <->
  GoodPairs i s /\ Permutation F (map (fun p => mkRow i (fst p) (snd p)) s) /\
  StronglySorted Z.lt (map rtime F).
Proof. exact (@from_single_spec). Qed.
Print Assumptions C78_single.

Theorem C78_single_error :
  forall (V : Type) (s : list (Z * V)) (oi : option Z),
  let i := match oi with None => 0 | Some i => i end in
  s <> [] -> ~ GoodPairs i s -> from_single_timeseries s oi = Err AttributeError.
Proof. exact (@from_single_error). Qed.
Print Assumptions C78_single_error.

(** An array needs one time value per row. *)
Theorem C78_array :
  forall (V : Type) (rows : list V) (t : list Z) (oi : option Z) (F : list (row V)),
  let i := match oi with None => 0 | Some i => i end in
  from_array rows (Some t) oi = Ok F <->
  length t = length rows /\ GoodPairs i (combine t rows) /\
  Permutation F (map (fun p => mkRow i (fst p) (snd p)) (combine t rows)) /\
  StronglySorted Z.lt (map rtime F).
Proof. intros V rows t oi F. exact (from_array_spec rows (Some t) oi F). Qed.
Print Assumptions C78_array.

(** By default the times are 0, 1, 2, ... in the order of the rows. *)
Theorem C78_array_default :
  forall (V : Type) (rows : list V) (oi : option Z),
  let i := match oi with None => 0 | Some i => i end in
  rows <> [] -> 0 <= i ->
  from_array rows None oi = Ok (map (fun p => mkRow i (fst p) (snd p)) (combine (np_arange (length rows)) rows)).
Proof. exact (@from_array_default). Qed.
Print Assumptions C78_array_default.

(** A list of single series and collections: every series gets one label, in the
    order of the list and, inside a collection, of the IDs; accepted exactly if the
    labels are distinct and non-negative, one for each series, and every series is
    in the order of time. *)
Theorem C78_items :
  forall (V : Type) (xs : list item) (oi : option (list Z)) (G : list (row V)),
  (forall F, In (Collection F) xs -> ValidRows F) ->
  from_items xs oi = Ok G <->
  xs <> [] /\ exists parts labels, AllParts xs parts /\
    labels = match oi with Some l => l | None => np_arange (length parts) end /\
    length labels = length parts /\ NoDup labels /\
    (forall i s, In (i, s) (combine labels parts) -> 0 <= i /\ GoodSeries s) /\
    G = flat_map (fun p => map (fun q => mkRow (fst p) (fst q) (snd q)) (snd p)) (combine labels parts).
Proof.
  intros V xs oi G H. apply from_items_spec. intros [s|F] Hx; [exact I|]. apply H, Hx.
Qed.
Print Assumptions C78_items.

(** Rebuilding a collection with its own IDs lists the same series by their ID. *)
Theorem C78_roundtrip :
  forall (V : Type) (F : list (row V)), ValidRows F ->
  from_items [Collection F] (Some (ids F)) = Ok (flat_map (rows_of F) (ids F)) /\
  (IdsSorted F -> from_items [Collection F] (Some (ids F)) = Ok F).
Proof. intros V F HV. split; [apply roundtrip; exact HV|apply roundtrip_sorted; exact HV]. Qed.
Print Assumptions C78_roundtrip.

Example C78_example_single :
  from_single_timeseries [(5, 50); (1, 10); (3, 30)] (Some 7) = Ok [mkRow 7 1 10; mkRow 7 3 30; mkRow 7 5 50].
Proof. vm_compute. reflexivity. Qed.

Example C78_example_items :
  from_items [Collection [mkRow 4 0 40; mkRow 2 3 20; mkRow 2 4 21]; Single [(8, 80)]; Collection [mkRow 9 5 90]] None
  = Ok [mkRow 0 3 20; mkRow 0 4 21; mkRow 1 0 40; mkRow 2 8 80; mkRow 3 5 90].
Proof. vm_compute. reflexivity. Qed.

(** ** C79: shifts of the time values *)

(** All times are moved by the same value; the collection on which the method is
    called is changed, too. *)
Theorem C79_delta :
  forall (V : Type) (F : list (row V)) (s : Z), ValidRows F -> (forall r, In r F -> 0 <= rtime r + s) ->
  exists G, shift_time_by_delta F s = (G, Ok G) /\ ValidRows G /\ AllMoved F G s.
Proof. exact (@shift_delta_ok). Qed.
Print Assumptions C79_delta.

(** If a time became negative, the call fails and the collection is unchanged. *)
Theorem C79_delta_error :
  forall (V : Type) (F : list (row V)) (s : Z) (r : row V), ValidRows F -> In r F -> rtime r + s < 0 ->
  shift_time_by_delta F s = (F, Err AttributeError).
Proof. exact (@shift_delta_error). Qed.
Print Assumptions C79_delta_error.

(** One shift per series, for series stored in the order of their IDs. *)
Theorem C79_given :
  forall (V : Type) (F : list (row V)) (l : list (Z * Z)), ValidRows F -> IdsSorted F -> map fst l = ids F ->
  (forall r s, In r F -> In (rid r, s) l -> 0 <= rtime r + s) ->
  exists G, shift_per_series F (Some l) = (G, Ok G) /\ ValidRows G /\ StorageOrder G (ids F) /\
    forall i s, In (i, s) l -> Moved F G i s.
Proof. exact (@shift_given_ok). Qed.
Print Assumptions C79_given.

Theorem C79_given_error :
  forall (V : Type) (F : list (row V)) (l : list (Z * Z)) (r : row V) (s : Z),
  ValidRows F -> IdsSorted F -> map fst l = ids F -> In r F -> In (rid r, s) l -> rtime r + s < 0 ->
  shift_per_series F (Some l) = (F, Err AttributeError).
Proof. exact (@shift_given_error). Qed.
Print Assumptions C79_given_error.

Theorem C79_given_labels :
  forall (V : Type) (F : list (row V)) (l : list (Z * Z)), map fst l <> ids F ->
  shift_per_series F (Some l) = (F, Err ValueError).
Proof. exact (@shift_given_labels). Qed.
Print Assumptions C79_given_labels.

(** Without shift values every series is moved to start at zero, if the series are
    stored in the order of their IDs or have the same length. *)
Theorem C79_default :
  forall (V : Type) (F : list (row V)), ValidRows F -> (IdsSorted F \/ SameLength F) ->
  exists G, shift_per_series F None = (G, Ok G) /\ ValidRows G /\
    forall i, Occurs F i -> exists q, hd_error (rows_of F i) = Some q /\ Moved F G i (- rtime q).
Proof. exact (@shift_default). Qed.
Print Assumptions C79_default.

Example C79_example :
  shift_per_series [mkRow 2 5 0; mkRow 2 6 1; mkRow 2 9 2; mkRow 4 1 3; mkRow 4 2 4] (Some [(2, -5); (4, 3)])
  = (let G := [mkRow 2 0 0; mkRow 2 1 1; mkRow 2 4 2; mkRow 4 4 3; mkRow 4 5 4] in (G, Ok G)).
Proof. vm_compute. reflexivity. Qed.

Example C79_example_default :
  shift_per_series [mkRow 4 5 0; mkRow 4 6 1; mkRow 2 1 3; mkRow 2 2 4] None
  = (let G := [mkRow 4 0 0; mkRow 4 1 1; mkRow 2 0 3; mkRow 2 1 4] in (G, Ok G)).
Proof. vm_compute. reflexivity. Qed.

(** Series of the same length stored in another order receive the shift of another
    series. *)
Theorem C79_given_refuted :
  exists (F G : list (row Z)) (l : list (Z * Z)), tsc F = Ok F /\ map fst l = ids F /\
    shift_per_series F (Some l) = (G, Ok G) /\ exists i s, In (i, s) l /\ ~ Moved F G i s.
Proof.
  exists [mkRow 1 0 10; mkRow 0 0 20], [mkRow 1 5 10; mkRow 0 0 20], [(0, 5); (1, 0)].
  split; [vm_compute; reflexivity|]. split; [vm_compute; reflexivity|]. split; [vm_compute; reflexivity|].
  exists 0, 5. split; [left; reflexivity|]. unfold Moved. vm_compute. discriminate.
Qed.
Print Assumptions C79_given_refuted.

(** Series of different lengths stored in another order: after the normalisation
    the distance of two samples of one series has changed. *)
Theorem C79_default_refuted :
  exists (F G : list (row Z)), tsc F = Ok F /\ shift_per_series F None = (G, Ok G) /\
    forall s, ~ Moved F G 1 s.
Proof.
  exists [mkRow 1 1 0; mkRow 1 2 0; mkRow 1 10 0; mkRow 0 5 0; mkRow 0 6 0],
         [mkRow 1 0 0; mkRow 1 1 0; mkRow 1 5 0; mkRow 0 0 0; mkRow 0 1 0].
  split; [vm_compute; reflexivity|]. split; [vm_compute; reflexivity|].
  intros s H. apply (f_equal (map rtime)) in H. cbn -[Z.add] in H.
  assert (H2 := f_equal (fun l => nth 1 l 0) H). assert (H3 := f_equal (fun l => nth 2 l 0) H).
  cbn -[Z.add] in H2, H3. lia.
Qed.
Print Assumptions C79_default_refuted.

(** ** C80: checks of two collections *)

(** The required IDs are accepted exactly if they are the IDs of the collection,
    each once (check_order=False), or exactly in storage order (check_order=True);
    otherwise a TSCException is raised. *)
Theorem C80_required_ids :
  forall (V : Type) (F : list (row V)) (l : list Z),
  (check_contain_required_ids F l false = Ok tt <-> NoDup l /\ forall i, In i l <-> Occurs F i) /\
  (forall e, check_contain_required_ids F l false = Err e -> e = TSCException).
Proof. exact (@required_ids). Qed.
Print Assumptions C80_required_ids.

Theorem C80_required_order :
  forall (V : Type) (F : list (row V)) (l : list Z), ValidRows F ->
  (check_contain_required_ids F l true = Ok tt <-> StorageOrder F l) /\
  (forall e, check_contain_required_ids F l true = Err e -> e = TSCException).
Proof. exact (@required_order). Qed.
Print Assumptions C80_required_order.

(** With require_const=True two collections are accepted exactly if all series of
    both have the same sampling interval. *)
Theorem C80_equal_const :
  forall (V : Type) (X Y : list (row V)) (p : dt_result * dt_result),
  ValidRows X -> SmallSteps X -> ValidRows Y -> SmallSteps Y ->
  check_equal_delta_time X Y true = Ok p <->
  exists d, AllRegular X d /\ AllRegular Y d /\ p = (DtScalar (Some d), DtScalar (Some d)).
Proof. exact (@equal_dt_const). Qed.
Print Assumptions C80_equal_const.

Theorem C80_equal_const_error :
  forall (V : Type) (X Y : list (row V)) e, ValidRows X -> ValidRows Y ->
  check_equal_delta_time X Y true = Err e -> e = TSCException.
Proof. exact (@equal_dt_const_error). Qed.
Print Assumptions C80_equal_const_error.

(** Two collections with several sampling intervals each are accepted exactly if
    they have the same IDs and every series the same sampling. *)
Theorem C80_equal_series :
  forall (V : Type) (X Y : list (row V)),
  ValidRows X -> SmallSteps X -> IdsSorted X -> ValidRows Y -> SmallSteps Y -> IdsSorted Y ->
  (exists i d, Occurs X i /\ Regular X i d) -> ~ (exists d, AllRegular X d) ->
  (exists i d, Occurs Y i /\ Regular Y i d) -> ~ (exists d, AllRegular Y d) ->
  (exists p, check_equal_delta_time X Y false = Ok p) <->
  (forall i, Occurs X i <-> Occurs Y i) /\ (forall i d, Occurs X i -> (Regular X i d <-> Regular Y i d)).
Proof. exact (@equal_dt_series). Qed.
Print Assumptions C80_equal_series.

Definition exB_two : list (row Z) := [mkRow 0 0 0; mkRow 0 1 0; mkRow 1 0 0; mkRow 1 2 0].
Definition exB_one : list (row Z) := [mkRow 0 3 0; mkRow 0 4 0; mkRow 0 5 0].

Example C80_example :
  check_contain_required_ids [mkRow 4 0 0; mkRow 2 0 0] [2; 4] false = Ok tt /\
  check_contain_required_ids [mkRow 4 0 0; mkRow 2 0 0] [2; 4] true = Err TSCException /\
  check_contain_required_ids [mkRow 4 0 0; mkRow 2 0 0] [4; 2] true = Ok tt /\
  check_equal_delta_time exB_one exB_one true = Ok (DtScalar (Some 1), DtScalar (Some 1)) /\
  check_equal_delta_time exB_two exB_two false
    = Ok (DtSeries [(0, Some 1); (1, Some 2)], DtSeries [(0, Some 1); (1, Some 2)]) /\
  check_equal_delta_time exB_two exB_one true = Err TSCException.
Proof. vm_compute. repeat split. Qed.

(** Without require_const a mismatch raises the documented TSCException in one order
    of the arguments and an unrelated ValueError in the other one. *)
Theorem C80_symmetric_refuted :
  exists X Y : list (row Z), tsc X = Ok X /\ tsc Y = Ok Y /\
    check_equal_delta_time X Y false = Err TSCException /\ check_equal_delta_time Y X false = Err ValueError.
Proof. exists exB_two, exB_one. vm_compute. repeat split. Qed.
Print Assumptions C80_symmetric_refuted.

(** A single series that is not regularly sampled does not even match itself. *)
Theorem C80_reflexive_refuted :
  exists X : list (row Z), tsc X = Ok X /\ check_equal_delta_time X X false = Err TSCException.
Proof. exists [mkRow 0 0 0; mkRow 0 1 0; mkRow 0 5 0]. vm_compute. repeat split. Qed.
Print Assumptions C80_reflexive_refuted.
