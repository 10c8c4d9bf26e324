(** * Specification vocabulary for cross-validation splits. *)

From Coq Require Import List ZArith Bool Arith Sorted Permutation.
Import ListNotations.
From Verif Require Import Np TscModel TscSpec.
Close Scope Z_scope.
Open Scope nat_scope.

(** Splits of the positions 0..N-1 into train and test. *)
Record LeakFree (N : nat) (splits : list (list nat * list nat)) : Prop := {
  lf_partition : forall tr te, In (tr, te) splits -> Permutation (tr ++ te) (seq 0 N);
  lf_sorted    : forall tr te, In (tr, te) splits -> StronglySorted lt tr /\ StronglySorted lt te;
  lf_nonempty  : forall tr te, In (tr, te) splits -> te <> [] /\ tr <> [];
  lf_cover     : Permutation (concat (map snd splits)) (seq 0 N)
}.

Section Spec.
Context {V : Type}.

(** ID and time of the row at a position. *)
Definition id_at (F : list (row V)) (p : nat) : option Z := option_map rid (nth_error F p).
Definition time_at (F : list (row V)) (p : nat) : option Z := option_map rtime (nth_error F p).

(** Positions of the rows of an ID, increasing. *)
Definition pos_of (F : list (row V)) (i : Z) : list nat :=
  filter (fun p => match nth_error F p with Some r => (rid r =? i)%Z | None => false end)
         (seq 0 (length F)).

(** Test windows of [w] rows, placed from the end of every series, a gap of [o]
    rows between two windows of a series; series visited by decreasing ID. *)
Definition windows_from_end (F : list (row V)) (w o : nat) (visited : list Z) : list (list nat) :=
  flat_map (fun i => map (@rev nat) (full_windows w (w + o) (rev (pos_of F i)))) visited.

(** [p] and [q] lie in the same piece of the training data: same series, and no
    position between them is outside of [train]. *)
Definition same_piece (F : list (row V)) (train : list nat) (p q : nat) : Prop :=
  forall k, (p <= k <= q \/ q <= k <= p) -> In k train /\ id_at F k = id_at F p.

End Spec.

Section Window.
Context {V : Type}.

Definition mem (x : nat) (l : list nat) : bool := existsb (Nat.eqb x) l.

Definition same_id (F : list (row V)) (p q : nat) : bool :=
  match nth_error F p, nth_error F q with
  | Some a, Some b => (rid a =? rid b)%Z
  | _, _ => false
  end.

(** The piece of the remaining data that contains position [p]: all [q] such
    that between [p] and [q] there is neither a test row nor another series. *)
Definition piece (F : list (row V)) (test : list nat) (p : nat) : list nat :=
  filter (fun q => forallb (fun k => negb (mem k test) && same_id F k p)
                           (seq (Nat.min p q) (Nat.max p q - Nat.min p q + 1)))
         (seq 0 (length F)).

(** Training positions of a test window: everything outside of the window, and
    with a minimum number of time steps only the long enough pieces. *)
Definition train_rows (F : list (row V)) (mn : option nat) (test : list nat) : list nat :=
  filter (fun p => negb (mem p test) &&
                   match mn with None => true | Some k => k <=? length (piece F test p) end)
         (seq 0 (length F)).

End Window.
