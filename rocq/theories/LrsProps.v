(** * C49: local regression selection. *)

From Coq Require Import List QArith Bool Lia PeanoNat Sorting.Sorted Lqa.
From Verif Require Import Np LrsModel LrsSpec LrsProofs LrsExample.
Import ListNotations.
Local Open Scope nat_scope.

(** Strategy "dim": [d] different coordinates in ascending order, never the trivial one, and no
    other non-trivial coordinate has a larger residual.  For [d] = 1 the first non-trivial
    coordinate is returned whatever the residuals are. *)
Theorem C49_dim : forall (part : list res -> nat -> list nat) (regress : nat -> res) (n d : nat),
  Partitions part -> 2 <= n -> Regular regress n ->
  (1 <= d <= n - 1 ->
   exists idx, fit part (Dim d) regress n = Ok idx /\ length idx = d /\ StronglySorted lt idx /\
     (forall i, In i idx -> 1 <= i < n) /\
     (d = 1 -> idx = [1]) /\
     (2 <= d -> forall i j, In i idx -> 1 <= j < n -> ~ In j idx ->
        exists x y, residual regress i = Val x /\ residual regress j = Val y /\ (y <= x)%Q)) /\
  (~ 1 <= d <= n - 1 -> fit part (Dim d) regress n = Err ValueError).
Proof.
  intros part regress n d HP Hn HR. unfold fit.
  replace (n <? 2) with false by (symmetry; apply Nat.ltb_ge; lia). unfold validate. split.
  - intro Hd.
    replace ((1 <=? d) && (d <=? n - 1)) with true by (symmetry; apply andb_true_iff; split; apply Nat.leb_le; lia).
    cbn [bind]. destruct (Nat.eq_dec d 1) as [->|N].
    + exists [1]. cbn. repeat split; auto; try (repeat constructor); try lia; destruct H as [<-|[]]; lia.
    + assert (Hd2 : 2 <= d <= n - 1) by lia. rewrite indices_eq by lia.
      exists (sort_nat (S regress n part d)). split; [reflexivity|].
      split; [rewrite sort_length; now apply S_length|].
      split; [apply sort_lt; now apply S_nodup|].
      split.
      { intros i Hi. rewrite sort_in in Hi. assert (i < n) by exact (S_lt regress n Hn part HP d Hd2 i Hi).
        assert (i <> 0) by (intros ->; now apply (zero_not_in regress n Hn part HP d Hd2 HR)). lia. }
      split; [lia|]. intros _ i j Hi Hj HjN. rewrite sort_in in Hi. rewrite sort_in in HjN.
      now apply (largest regress n Hn part HP d Hd2).
  - intro Hd.
    replace ((1 <=? d) && (d <=? n - 1)) with false; auto. symmetry. apply andb_false_iff.
    destruct (Nat.leb_spec 1 d); auto. right. apply Nat.leb_gt. lia.
Qed.
Print Assumptions C49_dim.

(** If the other residuals are smaller than 1, the first non-trivial coordinate is selected. *)
Theorem C49_dim_first : forall (part : list res -> nat -> list nat) (regress : nat -> res) (n d : nat),
  Partitions part -> 2 <= n -> Regular regress n -> 1 <= d <= n - 1 ->
  (forall i q, 2 <= i < n -> regress i = Val q -> (q < 1)%Q) ->
  exists idx, fit part (Dim d) regress n = Ok idx /\ In 1 idx.
Proof.
  intros part regress n d HP Hn HR Hd H1. unfold fit.
  replace (n <? 2) with false by (symmetry; apply Nat.ltb_ge; lia). unfold validate.
  replace ((1 <=? d) && (d <=? n - 1)) with true by (symmetry; apply andb_true_iff; split; apply Nat.leb_le; lia).
  cbn [bind]. destruct (Nat.eq_dec d 1) as [->|N].
  - exists [1]. cbn. auto.
  - rewrite indices_eq by lia. eexists. split; [reflexivity|]. apply sort_in. apply first_in; auto. lia.
Qed.
Print Assumptions C49_dim_first.

(** Strategy "threshold" (in (0, 1), otherwise rejected): exactly the coordinates with a residual
    above the threshold in ascending order, among them the first non-trivial and never the
    trivial one.  Holds for arbitrary residuals (nan is not above). *)
Theorem C49_threshold : forall (part : list res -> nat -> list nat) (regress : nat -> res) (n : nat) (t : Q),
  2 <= n ->
  ((0 < t < 1)%Q ->
   exists idx, fit part (Threshold t) regress n = Ok idx /\ StronglySorted lt idx /\ In 1 idx /\
     forall i, In i idx <-> 1 <= i < n /\ exists q, residual regress i = Val q /\ (t < q)%Q) /\
  (~ (0 < t < 1)%Q -> fit part (Threshold t) regress n = Err ValueError).
Proof.
  intros part regress n t Hn. unfold fit.
  replace (n <? 2) with false by (symmetry; apply Nat.ltb_ge; lia). unfold validate.
  assert (Lt : forall a b, Qltb a b = true <-> (a < b)%Q).
  { intros a b. unfold Qltb. rewrite negb_true_iff. split; intro H.
    - destruct (Qlt_le_dec a b) as [L|L]; auto. apply Qle_bool_iff in L. congruence.
    - destruct (Qle_bool b a) eqn:E; auto. apply Qle_bool_iff in E. lra. }
  split.
  - intros [H0 H1]. rewrite (proj2 (Lt 0%Q t) H0), (proj2 (Lt t 1%Q) H1). cbn [andb bind].
    exists (set_indices part (Threshold t) (residuals regress n)). split; [reflexivity|].
    split; [apply sort_lt; exact (enumerate_fst_nodup regress n Hn _ _)|].
    assert (I := fun i => threshold_in regress n Hn t i H0).
    split.
    + apply I. split; [lia|]. cbn. now apply Lt.
    + intro i. etransitivity; [apply I|]. destruct (residual regress i) as [q|]; cbn.
      * rewrite Lt. split; intros [Hi H]; split; auto; [eauto|]. now destruct H as (q' & [= <-] & H).
      * split; [intros [_ H]; discriminate|]. intros [_ (q & E & _)]. discriminate.
  - intro H. destruct (Qltb 0 t) eqn:E0, (Qltb t 1) eqn:E1; cbn; auto.
    apply Lt in E0, E1. now destruct H.
Qed.
Print Assumptions C49_threshold.

(** A nan residual (e.g. of an eigenvector that is zero at all samples) brings the trivial
    coordinate into the selection as soon as fewer than [d] proper residuals are left. *)
Theorem C49_nan_refuted : forall (part : list res -> nat -> list nat) (regress : nat -> res) (n d : nat),
  Partitions part -> 2 <= d <= n - 1 -> n - 1 - length (nans regress n) < d ->
  exists idx, fit part (Dim d) regress n = Ok idx /\ In 0 idx.
Proof.
  intros part regress n d HP Hd Hc. unfold fit.
  replace (n <? 2) with false by (symmetry; apply Nat.ltb_ge; lia). unfold validate.
  replace ((1 <=? d) && (d <=? n - 1)) with true by (symmetry; apply andb_true_iff; split; apply Nat.leb_le; lia).
  cbn [bind]. rewrite indices_eq by lia. eexists. split; [reflexivity|]. apply sort_in. apply zero_in; auto. lia.
Qed.
Print Assumptions C49_nan_refuted.

(** Four coordinates: residuals 1, 1/5, 1/2; and the case with a nan. *)
Example C49_example :
  let r := fun i => if i =? 2 then Val (1 # 5) else Val (1 # 2) in
  Partitions ex_argpartition /\ Regular r 4 /\
  fit ex_argpartition (Dim 2) r 4 = Ok [1; 3] /\
  fit ex_argpartition (Threshold (1 # 10)) r 4 = Ok [1; 2; 3] /\
  transform [1; 3] [10; 11; 12; 13] = [Some 11; Some 13] /\
  fit ex_argpartition (Dim 2) (fun _ => NaN) 3 = Ok [0; 1].
Proof.
  intro r. split; [apply ex_partitions|]. repeat split; try reflexivity.
  intros i Hi. unfold r. destruct (i =? 2); eexists; (split; [reflexivity|lra]).
Qed.
