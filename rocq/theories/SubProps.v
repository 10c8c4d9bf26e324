(** * C97: subsampling of point clouds and removal of outliers (pointcloud.py, general.py). *)

From Coq Require Import List ZArith Bool Arith Lia Permutation Sorted.
Import ListNotations.
From Verif Require Import Np DistModel SubModel SubSpec SubProofs.
Open Scope Z_scope.

(** C97: the subsample consists of distinct points of the cloud.  The (shuffled) points are cut into blocks
    and scanned block by block: the first block is taken, later points are taken if and only if they keep
    the minimal distance to the points taken from earlier blocks, and every scanned point that is left out
    is close to a point taken.  The scan stops early only after a block that added at most
    [min_added_per_iteration] points. *)
Theorem C97_subsample :
  forall (P : Type) (eu : P -> P -> Z), (forall x y, 0 <= eu x y) -> forall inv, inv < 0 ->
  forall perm (X : list P) cut n c a pts S, Permutes perm -> (forall x y, eu x y = eu y x) -> 0 < c ->
    pcm_subsample eu inv perm X cut n (Some (Some c)) a = Ok (pts, S) ->
    PointsAt X S pts /\ exists bs m, SplitInto (Z.to_nat (Z.of_nat (length X) / n + 1)) (perm (length X)) bs /\
      (1 <= m <= length bs)%nat /\ Subsampled eu X c bs m S /\ StoppedAfter bs m a S.
Proof. exact @subsample_ok. Qed.
Print Assumptions C97_subsample.

(** C97: it does not fail for three points or more and blocks of at least two samples. *)
Theorem C97_subsample_accepts :
  forall (P : Type) (eu : P -> P -> Z), (forall x y, 0 <= eu x y) -> forall inv, inv < 0 ->
  forall perm (X : list P) cut n c a, Permutes perm -> (3 <= length X)%nat -> 2 <= n -> 0 < c ->
    exists r, pcm_subsample eu inv perm X cut n (Some (Some c)) a = Ok r.
Proof. exact @subsample_accepts. Qed.
Print Assumptions C97_subsample_accepts.

(** C97: with a negative number of points to be added the scan is complete, and every point of the cloud is
    taken or close to a point taken. *)
Theorem C97_covers :
  forall (P : Type) (eu : P -> P -> Z), (forall x y, 0 <= eu x y) -> forall inv, inv < 0 ->
  forall perm (X : list P) cut n c a pts S, Permutes perm -> (forall x y, eu x y = eu y x) -> 0 < c -> a < 0 ->
    pcm_subsample eu inv perm X cut n (Some (Some c)) a = Ok (pts, S) -> Covers eu X c S.
Proof. exact @subsample_covers. Qed.
Print Assumptions C97_covers.

(** C97: a cloud with fewer points than a block is returned completely, whatever the minimal distance. *)
Theorem C97_small_cloud :
  forall (P : Type) (eu : P -> P -> Z) inv perm (X : list P) cut n md a, Permutes perm -> Z.of_nat (length X) < n ->
    pcm_subsample eu inv perm X cut n md a = Ok (points_at X (perm (length X)), perm (length X)).
Proof. exact @subsample_all. Qed.
Print Assumptions C97_small_cloud.

Definition ex_eu (x y : Z) : Z := Z.abs (x - y).
Definition ex_perm (n : nat) : list nat := seq 0 n.
Definition ex_X : list Z := [0; 10; 20; 0; 10; 100; 200].

Lemma ex_permutes : Permutes ex_perm.
Proof. intros n. apply Permutation_refl. Qed.

(** The scan reaches the end with min_added_per_iteration = -1 and stops after the second block with 0; the
    points 100 and 101 of the last block are both taken. *)
Example C97_example :
  pcm_subsample ex_eu (-999) ex_perm ex_X None 3 (Some (Some 5)) (-1) = Ok ([0; 10; 20; 100; 200], [0; 1; 2; 5; 6]%nat) /\
  pcm_subsample ex_eu (-999) ex_perm ex_X None 3 (Some (Some 5)) 0 = Ok ([0; 10; 20], [0; 1; 2]%nat) /\
  pcm_subsample ex_eu (-999) ex_perm [0; 10; 20; 0; 50; 100; 101] None 3 (Some (Some 5)) (-1)
    = Ok ([0; 10; 20; 50; 100; 101], [0; 1; 2; 4; 5; 6]%nat).
Proof. repeat split. Qed.

(** C97: the minimal distance does not hold within a block, neither the first one nor a later one. *)
Theorem C97_apart_refuted :
  exists (X : list Z) pts S,
    pcm_subsample ex_eu (-999) ex_perm X None 3 (Some (Some 5)) (-1) = Ok (pts, S) /\ ~ AllApart ex_eu X 5 S.
Proof.
  exists [0; 10; 20; 0; 50; 100; 101], [0; 10; 20; 50; 100; 101], [0; 1; 2; 4; 5; 6]%nat. split; [reflexivity|]. intros H.
  specialize (H 5%nat 6%nat ltac:(cbn; auto 10) ltac:(cbn; auto 10) ltac:(lia) 100 101 eq_refl eq_refl). cbn in H. lia.
Qed.
Print Assumptions C97_apart_refuted.

(** C97: "setting it to zero iterates the entire point cloud" does not hold: a block that adds nothing ends
    the scan, and far points of later blocks are missed. *)
Theorem C97_entire_refuted :
  exists (X : list Z) pts S,
    pcm_subsample ex_eu (-999) ex_perm X None 3 (Some (Some 5)) 0 = Ok (pts, S) /\ ~ Covers ex_eu X 5 S.
Proof.
  exists ex_X, [0; 10; 20], [0; 1; 2]%nat. split; [reflexivity|]. intros H.
  destruct (H 5%nat ltac:(cbn; lia)) as [H1|(j & Hj & x & y & Ex & Ey & Hlt)].
  - cbn in H1. lia.
  - cbn in Ey. injection Ey as <-. cbn in Hj. destruct Hj as [<-|[<-|[<-|[]]]]; cbn in Ex; injection Ex as <-; cbn in Hlt; lia.
Qed.
Print Assumptions C97_entire_refuted.

(** C97: the minimal distance defaults to twice the cut-off of the point cloud. *)
Theorem C97_min_distance_default :
  forall (P : Type) (eu : P -> P -> Z) inv perm (X : list P) c n a,
    pcm_subsample eu inv perm X (Some c) n None a = pcm_subsample eu inv perm X (Some c) n (Some (Some (2 * c))) a.
Proof. intros. unfold pcm_subsample. cbn [option_map]. rewrite Z.mul_comm. reflexivity. Qed.
Print Assumptions C97_min_distance_default.

(** C97: without a minimal distance and with the default (infinite) cut-off of a point cloud there is no
    result for more than one block. *)
Theorem C97_default_refuted :
  exists X : list Z, pcm_subsample ex_eu (-999) ex_perm X None 3 None 1 = Err AttributeError.
Proof. exists ex_X. reflexivity. Qed.
Print Assumptions C97_default_refuted.

(** C97: with a finite cut-off the points removed are those with fewer than [kmin] points of the cloud within
    the cut-off, the point itself being counted; the others keep their order. *)
Theorem C97_outlier :
  forall (P : Type) (eu : P -> P -> Z) inv knn (X : list P) kmin c, 0 < c -> 0 < kmin -> (2 <= length X)%nat ->
    exists Y R, pcm_remove_outlier eu inv knn X kmin (Some c) = Ok (Y, R) /\ Removes (within eu X c) kmin X Y R.
Proof. exact @outlier_finite. Qed.
Print Assumptions C97_outlier.

(** C97: with an infinite cut-off the point itself and its duplicates are not counted. *)
Theorem C97_outlier_infinite :
  forall (P : Type) (eu : P -> P -> Z) inv knn (X : list P) kmin, (forall x y, 0 <= eu x y) -> 0 < kmin -> (2 <= length X)%nat ->
    exists Y R, pcm_remove_outlier eu inv knn X kmin None = Ok (Y, R) /\ Removes (others eu X) kmin X Y R.
Proof. exact @outlier_infinite. Qed.
Print Assumptions C97_outlier_infinite.

(** C97: a larger finite cut-off does not remove more points. *)
Theorem C97_outlier_monotone :
  forall (P : Type) (eu : P -> P -> Z) inv knn (X : list P) kmin c c' Y R Y' R',
    0 < c <= c' -> 0 < kmin -> (2 <= length X)%nat ->
    pcm_remove_outlier eu inv knn X kmin (Some c) = Ok (Y, R) -> pcm_remove_outlier eu inv knn X kmin (Some c') = Ok (Y', R') ->
    incl R' R.
Proof.
  intros P eu inv knn X kmin c c' Y R Y' R' Hc Hk HX H H'.
  destruct (outlier_finite eu inv knn X kmin c ltac:(lia) Hk HX) as (Y0 & R0 & E & _ & _ & HR).
  destruct (outlier_finite eu inv knn X kmin c' ltac:(lia) Hk HX) as (Y1 & R1 & E' & _ & _ & HR').
  rewrite E in H. rewrite E' in H'. injection H as -> ->. injection H' as -> ->. intros i Hi. apply HR' in Hi. destruct Hi as (x & Ex & Hx).
  apply HR. exists x. split; [exact Ex|]. assert (Hm := within_mono eu X c c' x ltac:(lia)). lia.
Qed.
Print Assumptions C97_outlier_monotone.

(** C97: every point counts as its own neighbour: [kmin = 1] removes nothing. *)
Theorem C97_outlier_one :
  forall (P : Type) (eu : P -> P -> Z) inv knn (X : list P) c, (forall x, eu x x = 0) -> 0 < c -> (2 <= length X)%nat ->
    pcm_remove_outlier eu inv knn X 1 (Some c) = Ok (X, []).
Proof.
  intros P eu inv knn X c H0 Hc HX. destruct (outlier_finite eu inv knn X 1 c Hc ltac:(lia) HX) as (Y & R & E & -> & _ & HR). rewrite E. f_equal.
  f_equal.
  - assert (H : forall l, incl l X -> filter (fun x => 1 <=? Z.of_nat (within eu X c x)) l = l).
    { induction l as [|x l IH]; intros Hl; [reflexivity|]. cbn [filter].
      assert (Hx := within_self eu X c x H0 Hc (Hl x (or_introl eq_refl))).
      destruct (Z.leb_spec 1 (Z.of_nat (within eu X c x))); [|lia]. f_equal. apply IH. intros y Hy. apply Hl. right. exact Hy. }
    apply H. apply incl_refl.
  - destruct R as [|i R]; [reflexivity|]. exfalso. destruct (proj1 (HR i) (or_introl eq_refl)) as (x & Ex & Hx).
    assert (Hs := within_self eu X c x H0 Hc (nth_error_In _ _ Ex)). lia.
Qed.
Print Assumptions C97_outlier_one.

(** C97: so the infinite cut-off is not the limit of large cut-offs: two points within distance 1 of each
    other are kept for the cut-off 5 and both removed for the infinite one. *)
Theorem C97_outlier_limit_refuted :
  exists (X : list Z) kmin c knn, (forall x y, In x X -> In y X -> ex_eu x y <= c) /\
    pcm_remove_outlier ex_eu (-999) knn X kmin (Some c) = Ok (X, []) /\
    pcm_remove_outlier ex_eu (-999) knn X kmin None = Ok ([], seq 0 (length X)).
Proof.
  exists [0; 1], 2, 5, (fun _ _ _ => []). split; [|split; reflexivity].
  intros x y [<-|[<-|[]]] [<-|[<-|[]]]; cbn; lia.
Qed.
Print Assumptions C97_outlier_limit_refuted.

Example C97_outlier_example :
  pcm_remove_outlier ex_eu (-999) (fun _ _ _ => []) [0; 1; 50; 3] 3 (Some 3) = Ok ([0; 1; 3], [2]%nat).
Proof. reflexivity. Qed.

(** C97: [random_subsample] returns the requested number of distinct points with their indices, for
    1 <= n_samples <= number of points - 1, and rejects everything else. *)
Theorem C97_random :
  forall (P : Type) perm (X : list P) n, Permutes perm ->
    (1 <= n <= Z.of_nat (length X) - 1 ->
       exists pts S, random_subsample perm X n = Ok (pts, S) /\ PointsAt X S pts /\ NoDup S /\ Z.of_nat (length S) = n) /\
    (~ (1 <= n <= Z.of_nat (length X) - 1) -> random_subsample perm X n = Err ValueError).
Proof. exact @random_ok. Qed.
Print Assumptions C97_random.

Example C97_random_example : random_subsample ex_perm ex_X 2 = Ok ([0; 10], [0; 1]%nat).
Proof. reflexivity. Qed.
