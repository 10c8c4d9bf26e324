(** * Specification of subsampling and removal of outliers. *)

From Coq Require Import List ZArith Permutation Sorted.
Import ListNotations.
Open Scope Z_scope.

Section Spec.
Context {P : Type}.
Variable eu : P -> P -> Z.

(** Random permutations of the indices. *)
Definition Permutes (perm : nat -> list nat) : Prop := forall n, Permutation (perm n) (seq 0 n).

(** The points with the indices [idx] (all valid). *)
Definition PointsAt (X : list P) (idx : list nat) (pts : list P) : Prop :=
  Forall2 (fun i x => nth_error X i = Some x) idx pts.

(** [l] is cut into [k] consecutive blocks of equal size, up to one element. *)
Definition SplitInto {A : Type} (k : nat) (l : list A) (bs : list (list A)) : Prop :=
  length bs = k /\ concat bs = l /\
  forall b, In b bs -> length b = (length l / k)%nat \/ length b = S (length l / k).

Definition Far (X : list P) (c : Z) (i j : nat) : Prop :=
  forall x y, nth_error X i = Some x -> nth_error X j = Some y -> c <= eu x y.
Definition Near (X : list P) (c : Z) (i j : nat) : Prop :=
  exists x y, nth_error X i = Some x /\ nth_error X j = Some y /\ eu x y < c.

(** The subsample [S] of the first [m] blocks with minimal distance [c]. *)
Record Subsampled (X : list P) (c : Z) (bs : list (list nat)) (m : nat) (S : list nat) : Prop := {
  ss_distinct : NoDup S;
  ss_first : forall b, nth_error bs 0 = Some b -> incl b S;
  ss_scanned : forall i, In i S -> exists k b, (k < m)%nat /\ nth_error bs k = Some b /\ In i b;
  ss_apart : forall k l bk bl i j, k <> l -> nth_error bs k = Some bk -> nth_error bs l = Some bl ->
    In i bk -> In j bl -> In i S -> In j S -> Far X c i j;
  ss_covered : forall k b i, (k < m)%nat -> nth_error bs k = Some b -> In i b -> In i S \/ exists j, In j S /\ Near X c j i }.

(** The scan stops early only after a block that contributed at most [a] points. *)
Definition StoppedAfter (bs : list (list nat)) (m : nat) (a : Z) (S : list nat) : Prop :=
  m = length bs \/ (exists b l, nth_error bs (m - 1) = Some b /\ (2 <= m <= length bs)%nat /\ NoDup l /\
                      (forall i, In i l <-> In i b /\ In i S) /\ Z.of_nat (length l) <= a).

(** The whole point cloud is represented. *)
Definition Covers (X : list P) (c : Z) (S : list nat) : Prop :=
  forall i, (i < length X)%nat -> In i S \/ exists j, In j S /\ Near X c j i.

(** Every two points of the subsample are apart. *)
Definition AllApart (X : list P) (c : Z) (S : list nat) : Prop :=
  forall i j, In i S -> In j S -> i <> j -> Far X c i j.

(** Number of points of the cloud within the distance [c] of [x] ([x] itself included), and number of
    points different from [x]. *)
Definition within (X : list P) (c : Z) (x : P) : nat := length (filter (fun y => eu y x <=? c) X).
Definition others (X : list P) (x : P) : nat := length (filter (fun y => 0 <? eu y x) X).

(** The points with fewer than [kmin] counted points are removed. *)
Definition Removes (count : P -> nat) (kmin : Z) (X Y : list P) (R : list nat) : Prop :=
  Y = filter (fun x => kmin <=? Z.of_nat (count x)) X /\ StronglySorted lt R /\
  forall i, In i R <-> exists x, nth_error X i = Some x /\ Z.of_nat (count x) < kmin.

End Spec.
