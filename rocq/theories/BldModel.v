(** * Model: building, expanding, shifting and tabulating collections (proof-free).

    Source: datafold/pcfold/timeseries/collection.py 579-750, 1513-1588 (cited as
    collection.py) and datafold/pcfold/timeseries/accessor.py 192-210, 317-392,
    469-497, 523-637 (accessor.py).

    Simplifications
    - time values are integers;
    - a value of type [V] stands for one row (all features), so that the checks of
      the column names are not modelled; for [feature_to_array] it stands for the
      value of the selected feature. *)

From Coq Require Import List ZArith Bool Arith.
Import ListNotations.
From Verif Require Import Np TscModel CvModel ReconModel.
Open Scope Z_scope.

(** Elementwise comparison of two lists of the same length. *)
Fixpoint list_eqb {A : Type} (eqb : A -> A -> bool) (l m : list A) : bool :=
  match l, m with
  | [], [] => true
  | x :: l', y :: m' => eqb x y && list_eqb eqb l' m'
  | _, _ => false
  end.

Section Model.
Context {V : Type}.
Notation frame := (list (row V)).

(** ** Tables *)

(** A pandas.DataFrame with row labels and column labels. *)
Record table := mkTable { t_index : list Z; t_columns : list Z; t_array : list (list V) }.

(** collection.py 1576-1583 [feature_to_array(as_frame=False)]. *)
Definition feature_to_array (F : frame) : result (list (list V)) :=
  if negb (is_same_time_values F) then Err TSCException
  else match n_timesteps F with
       | NInt n => Ok (reshape (n_timeseries F) n (map rval F))
       | NSeries _ => Err TypeError
       end.

(** collection.py 1585-1586 [as_frame=True]. *)
Definition feature_to_frame (F : frame) : result table :=
  bind (feature_to_array F) (fun A => Ok (mkTable (ids F) (time_values F) A)).

(** ** Constant sampling *)

(** collection.py 1530-1543 [const_sampled_time_values] for integer times: the
    length of np.arange(start, nextafter(end), d), which numpy computes in floating
    point arithmetic, is taken to be exact: one more than the number of full steps
    between start and end. *)
Definition const_sampled_time_values (F : frame) : result (list Z) :=
  bind (delta_time KInt F) (fun dt =>
  match dt with
  | DtScalar (Some d) =>
      let t := time_values F in
      let start := hd 0 t in
      let n := Z.to_nat ((last t 0 - start) / d + 1) in
      Ok (map (fun k => start + Z.of_nat k * d) (seq 0 n))
  | _ => Err TSCException
  end).

(** ** Constructors *)

(** [df.sort_index(axis=0)] of a frame whose index holds the times. *)
Fixpoint insert_time (p : Z * V) (l : list (Z * V)) : list (Z * V) :=
  match l with
  | [] => [p]
  | q :: r => if fst p <=? fst q then p :: l else q :: insert_time p r
  end.

Definition sort_times (l : list (Z * V)) : list (Z * V) := fold_right insert_time [] l.

(** collection.py 579-623 [from_single_timeseries] of a frame with a
    one-dimensional index. *)
Definition from_single_timeseries (s : list (Z * V)) (ts_id : option Z) : result frame :=
  let i := match ts_id with None => 0 | Some i => i end in
  tsc (series_rows i (sort_times s)).

(** collection.py 625-653 [from_array] of a two-dimensional array; pandas raises
    ValueError if the number of time values does not match the number of rows. *)
Definition from_array (rows : list V) (tvals : option (list Z)) (ts_id : option Z)
  : result frame :=
  let t := match tvals with None => np_arange (length rows) | Some l => l end in
  if negb (length t =? length rows)%nat then Err ValueError
  else from_single_timeseries (combine t rows) ts_id.

(** An element of the list in [from_frame_list]: a frame of a single time series
    (its index holds the times) or a collection. *)
Inductive item := Single (s : list (Z * V)) | Collection (F : frame).

(** collection.py 697-722: a collection with more than one series is split by
    [itertimeseries] (1317-1322, in the order of the IDs); of a collection with one
    series only the times are kept. *)
Definition split_item (x : item) : list (list (Z * V)) :=
  match x with
  | Single s => [s]
  | Collection F =>
      if (1 <? length (ids F))%nat
      then map (fun i => map (fun r => (rtime r, rval r)) (group F i)) (ids F)
      else [map (fun r => (rtime r, rval r)) F]
  end.

(** collection.py 655-750 [from_frame_list]. *)
Definition from_items (l : list item) (ts_ids : option (list Z)) : result frame :=
  match l with
  | [] => Err ValueError
  | _ => from_frame_list (flat_map split_item l) ts_ids
  end.

(** ** Expanding *)

(** [np.pad(tensor, ((0,0), (0,k), (0,0)), constant_values=fill)]. *)
Definition pad (k : nat) (fill : V) (tensor : list (list V)) : list (list V) :=
  map (fun s => s ++ repeat fill k) tensor.

(** accessor.py 523-556 [expand_time_values]. *)
Definition expand_time_values (F : frame) (new : list Z) (fill : V) : result frame :=
  if (n_timeseries F =? 1)%nat then
    bind (from_array (repeat fill (length new)) (Some new) (Some (hd 0 (ids F)))) (fun P =>
    tsc (F ++ P))
  else if negb (is_same_time_values F) then Err TSCException
  else match n_timesteps F with
       | NInt n =>
           from_tensor (pad (length new) fill (reshape (n_timeseries F) n (map rval F)))
                       (n + length new) (Some (ids F)) (Some (time_values F ++ new))
       | NSeries _ => Err TypeError
       end.

(** ** Shifting.  The methods assign a new index to the collection they are called
    on; the first component of the result is the state of that collection after
    the call, the second one the returned collection.  The assignment validates
    the index (collection.py 358-360) and leaves the collection as it is if this
    fails. *)

Definition assign_index (F G : frame) : frame * result frame :=
  match tsc G with
  | Ok G' => (G', Ok G')
  | Err e => (F, Err e)
  end.

(** accessor.py 469-497 [shift_time_by_delta]. *)
Definition shift_time_by_delta (F : frame) (s : Z) : frame * result frame :=
  if s =? 0 then (F, Ok F)
  else assign_index F (map (fun r => mkRow (rid r) (rtime r + s) (rval r)) F).

(** accessor.py 591-609: the shift values; by default the negative first times, in
    storage order; a given series must be labelled with the IDs in their order. *)
Definition shift_values_of (F : frame) (given : option (list (Z * Z))) : result (list Z) :=
  match given with
  | None => bind (initial_states F 1) (fun I => Ok (map (fun t => - t) (time_index I)))
  | Some l => if list_eqb Z.eqb (map fst l) (ids F) then Ok (map snd l) else Err ValueError
  end.

(** accessor.py 558-637 [shift_time_per_time_series(ensure_identical_values=False)]. *)
Definition shift_per_series (F : frame) (given : option (list (Z * Z))) : frame * result frame :=
  match shift_values_of F given with
  | Err e => (F, Err e)
  | Ok shifts =>
      if existsb (fun s => negb (s =? 0)) shifts then
        let expanded := match n_timesteps F with
                        | NInt n => np_repeat shifts n
                        | NSeries l => np_repeat_each shifts (map snd l)
                        end in
        assign_index F (map (fun p => mkRow (rid (fst p)) (rtime (fst p) + snd p) (rval (fst p)))
                            (combine F expanded))
      else (F, Ok F)
  end.

(** ** Checks of two collections *)

(** accessor.py 197-210 [check_contain_required_ids]. *)
Definition check_contain_required_ids (F : frame) (required : list Z) (check_order : bool)
  : result unit :=
  if check_order then
    bind (initial_states F 1) (fun I =>
    if list_eqb Z.eqb (ids_index I) required then Ok tt else Err TSCException)
  else
    if list_eqb Z.eqb (ids F) (z_sort required) then Ok tt else Err TSCException.

(** accessor.py 317-368 [check_equal_delta_time] for integer times, atol < 1; the
    comparison of two series (assert_series_equal) is by ID and sampling interval.
    A missing sampling (nan) never equals a scalar, but equals nan in a series.
    365: with a series on the right only, the truth value of the comparison is
    ambiguous (ValueError). *)
Definition dt_pair_eqb (a b : Z * option Z) : bool :=
  (fst a =? fst b) && match snd a, snd b with
                      | Some x, Some y => x =? y
                      | None, None => true
                      | _, _ => false
                      end.

Definition check_equal_delta_time (X Y : frame) (require_const : bool)
  : result (dt_result * dt_result) :=
  bind (delta_time KInt X) (fun dx =>
  bind (delta_time KInt Y) (fun dy =>
  match dx, dy with
  | DtSeries a, DtSeries b =>
      if require_const then Err TSCException
      else if list_eqb dt_pair_eqb a b then Ok (dx, dy) else Err TSCException
  | DtSeries _, DtScalar _ => Err TSCException
  | DtScalar _, DtSeries _ => if require_const then Err TSCException else Err ValueError
  | DtScalar (Some x), DtScalar (Some y) =>
      if x =? y then Ok (dx, dy) else Err TSCException
  | DtScalar _, DtScalar _ => Err TSCException
  end)).

End Model.
