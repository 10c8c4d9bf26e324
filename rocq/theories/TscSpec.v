(** * Specification vocabulary for time series collections.

    Nothing here refers to the functions of the model, only to the row type.
    Every notion is stated directly on the list of rows in storage order. *)

From Coq Require Import List ZArith Bool Arith Sorted.
Import ListNotations.
From Verif Require Import Np TscModel.
Open Scope Z_scope.

Section Spec.
Context {V : Type}.
Notation frame := (list (row V)).

(** Row [a] is stored before row [b]. *)
Definition Before (F : frame) (a b : row V) : Prop :=
  exists l m r, F = l ++ a :: m ++ b :: r.

(** Row [b] is stored directly after row [a]. *)
Definition Next (F : frame) (a b : row V) : Prop :=
  exists l r, F = l ++ a :: b :: r.

(** The rows of an ID form one contiguous block: whatever lies between two rows
    of the same ID has that ID. *)
Definition Contiguous (F : frame) : Prop :=
  forall l a m b r c, F = l ++ a :: m ++ b :: r -> rid a = rid b -> In c m -> rid c = rid a.

(** Within an ID time strictly increases in storage order. *)
Definition TimeIncreasing (F : frame) : Prop :=
  forall a b, Before F a b -> rid a = rid b -> rtime a < rtime b.

(** What the documentation of TSCDataFrame demands of the row index. *)
Record ValidRows (F : frame) : Prop := {
  vr_nonempty : F <> [];
  vr_ids      : forall r, In r F -> 0 <= rid r;
  vr_times    : forall r, In r F -> 0 <= rtime r;
  vr_contig   : Contiguous F;
  vr_inc      : TimeIncreasing F
}.

(** All rows of one ID, in storage order. *)
Definition rows_of (F : frame) (i : Z) : frame := filter (fun r => rid r =? i) F.

(** IDs are stored in non-decreasing order. *)
Definition IdsSorted (F : frame) : Prop :=
  forall a b, Before F a b -> rid a <= rid b.

(** Every two consecutive rows of the same series are [d] apart in time. *)
Definition SampledWith (F : frame) (d : Z) : Prop :=
  forall a b, Next F a b -> rid a = rid b -> rtime b - rtime a = d.

(** Same, only for series [i]. *)
Definition SeriesSampledWith (F : frame) (i d : Z) : Prop :=
  forall a b, Next F a b -> rid a = i -> rid b = i -> rtime b - rtime a = d.

(** The pairs (value, next value) of neighbouring rows of the same series, in
    storage order: every snapshot pair exactly once, none across series. *)
Fixpoint snapshot_pairs (F : frame) : list (V * V) :=
  match F with
  | a :: ((b :: _) as F') =>
      if rid a =? rid b then (rval a, rval b) :: snapshot_pairs F' else snapshot_pairs F'
  | _ => []
  end.

(** Times of one ID. *)
Definition times_of (F : frame) (i : Z) : list Z := map rtime (rows_of F i).

Definition Occurs (F : frame) (i : Z) : Prop := exists r, In r F /\ rid r = i.

(** An order-preserving selection of rows. *)
Inductive Subseq : frame -> frame -> Prop :=
| sub_nil : Subseq [] []
| sub_keep : forall r G F, Subseq G F -> Subseq (r :: G) (r :: F)
| sub_drop : forall r G F, Subseq G F -> Subseq G (r :: F).

(** The contiguous blocks of [w] entries starting at positions 0, o, 2o, ...
    that fit into the list. *)
Definition full_windows {A : Type} (w o : nat) (l : list A) : list (list A) :=
  map (fun j => firstn w (skipn (j * o) l))
      (filter (fun j => (j * o + w <=? length l)%nat) (seq 0 (length l))).

(** A series that may be inserted into a collection: non-empty, non-negative and
    strictly increasing times. *)
Definition GoodSeries (s : list (Z * V)) : Prop :=
  s <> [] /\ (forall p, In p s -> 0 <= fst p) /\ StronglySorted Z.lt (map fst s).

(** A series is regularly sampled with [d]: at least two rows, all consecutive
    rows [d] apart. *)
Definition Regular (F : frame) (i d : Z) : Prop :=
  (2 <= length (rows_of F i))%nat /\ SeriesSampledWith F i d.

(** Sampling intervals below 1e11 (where the relative tolerance 3e-12 of the
    code cannot identify two different integers). *)
Definition SmallSteps (F : frame) : Prop :=
  forall a b, Next F a b -> rid a = rid b -> rtime b - rtime a < 100000000000.

(** [G] lists, for the positions [pos] of [F] in order, the row at that position
    with its ID replaced by [new]. *)
Definition Relabelled (F : frame) (new : nat -> Z) (pos : list nat) (G : frame) : Prop :=
  Forall2 (fun p g => exists r, nth_error F p = Some r /\ g = mkRow (new p) (rtime r) (rval r)) pos G.

End Spec.
