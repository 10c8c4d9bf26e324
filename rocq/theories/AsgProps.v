(** * C61: assign_ids_const_delta splits irregular series into equidistant ones. *)

From Coq Require Import List ZArith Bool Arith Lia Sorted.
Import ListNotations.
From Coq Require Import ZifyBool ZifyNat.
From Verif Require Import Np NpFacts TscModel TscSpec TscBlocks TscProofs TscOps TscDt AsgModel AsgSpec AsgProofs AsgLoop.
Open Scope nat_scope.

Section Props.
Context {V : Type}.
Notation frame := (list (row V)).

(** What the pieces of one series are. *)
Record GoodPieces (drop_samples : bool) (s : list (Z * V)) (ps : list (list (Z * V))) : Prop := {
  gp_cut : CutFrom s ps;
  gp_equidistant : forall c, In c ps -> Equidistant c;
  gp_regular : Equidistant s -> ps = [s];
  gp_triple : forall p, InTriple s p -> exists c, In c ps /\ In p c;
  gp_left : forall c l x r, In c ps -> s = l ++ x :: c ++ r -> ~ Equidistant (x :: c);
  gp_all : drop_samples = false -> concat ps = s
}.

(** Integer and datetime times: the result lists, by increasing ID of the input, the pieces of
    each series under new IDs 0, 1, ...  The pieces are contiguous parts with equidistant times
    and the values of the input.  A regular series stays in one piece.  Every sample that is one
    of three equidistant successive samples is kept.  No piece can be extended to the left.
    Without [drop_samples] every sample is kept.  The result is None exactly if nothing is kept. *)
Theorem C61_pieces k drop (F : frame) R : k <> KFloat -> ValidRows F ->
  assign_ids_const_delta k drop F = Ok R ->
  exists pieces : Z -> list (list (Z * V)),
    (forall i, Occurs F i -> GoodPieces drop (series F i) (pieces i)) /\
    match R with
    | Some G => ValidRows G /\ G = numbered 0 (flat_map pieces (ids F))
    | None => forall i, Occurs F i -> pieces i = []
    end.
Proof.
  intros Hk HV HR.
  pose (P := fun i => match pieces_of k drop (series F i) with Some ps => ps | None => [] end).
  assert (HP : forall i, Occurs F i -> pieces_of k drop (series F i) = Some (P i)).
  { intros i Hi. unfold P. destruct (pieces_of k drop (series F i)) as [ps|] eqn:E; [reflexivity|].
    rewrite (assign_err k drop F i HV Hi E) in HR. discriminate. }
  exists P. split.
  - intros i Hi. assert (Hs := series_good F i HV Hi). specialize (HP i Hi). split.
    + exact (pieces_cut k drop _ _ Hs HP).
    + intros c Hc. exact (pieces_equidistant k drop _ c _ Hk Hs HP Hc).
    + intros He. exact (pieces_regular k drop _ _ Hk He HP).
    + intros p Hp. exact (pieces_triple k drop _ _ p Hs HP Hp).
    + intros c l x r Hc E. exact (pieces_left k drop _ c _ l x r Hs HP Hc E).
    + intros ->. exact (pieces_all k _ _ Hs HP).
  - assert (HR' := HR). rewrite (assign_ok k drop F P HV HP) in HR. injection HR as <-.
    destruct (flat_map P (ids F)) as [|c cs] eqn:E.
    + intros i Hi. apply in_ids in Hi. destruct (P i) as [|c l] eqn:EP; [reflexivity|].
      exfalso. assert (H : In c (flat_map P (ids F))) by (apply in_flat_map; exists i; rewrite EP; cbn; auto).
      rewrite E in H. destruct H.
    + split; [|reflexivity]. change (ValidRows (numbered 0 (c :: cs))). rewrite numbered_flatten. apply wfb_valid, (goodb_wfb 0%Z); [lia|discriminate|].
      split; [apply lab_sorted|]. intros b Hb. split; [apply lab_ge in Hb; lia|].
      apply (in_map snd) in Hb. rewrite lab_snd, <- E in Hb. apply in_flat_map in Hb. destruct Hb as (i & Hi & Hb).
      apply in_ids in Hi. assert (Hs := series_good F i HV Hi).
      destruct (in_pieces k drop _ _ _ Hs (HP i Hi) Hb) as [(-> & _)|(H1 & H2 & _)]; [exact Hs|].
      exact (chunk_good _ _ H1 Hs H2).
Qed.

(** With [drop_samples] the function never fails, for every kind of time values. *)
Theorem C61_drop_total k (F : frame) : ValidRows F -> exists R, assign_ids_const_delta k true F = Ok R.
Proof.
  intros HV. eexists. apply (assign_ok k true F (fun i => match pieces_of k true (series F i) with Some ps => ps | None => [] end) HV).
  intros i _. destruct (pieces_total k (series F i)) as [ps E]. rewrite E. reflexivity.
Qed.

(** Without [drop_samples] it succeeds if every series is equidistant or consists of samples in
    equidistant triples; otherwise the only error is a ValueError. *)
Theorem C61_keep_total k (F : frame) : k <> KFloat -> ValidRows F ->
  (forall i, Occurs F i -> Equidistant (series F i) \/ (forall p, In p (series F i) -> InTriple (series F i) p)) ->
  exists G, assign_ids_const_delta k false F = Ok (Some G).
Proof.
  intros Hk HV H.
  pose (P := fun i => match pieces_of k false (series F i) with Some ps => ps | None => [] end).
  assert (HP : forall i, Occurs F i -> pieces_of k false (series F i) = Some (P i)).
  { intros i Hi. unfold P. destruct (pieces_exists k (series F i) Hk (series_good F i HV Hi) (H i Hi)) as [ps ->]. reflexivity. }
  rewrite (assign_ok k false F P HV HP). destruct (flat_map P (ids F)) as [|c cs] eqn:E; [|eauto]. exfalso.
  destruct F as [|r F0]; [apply (vr_nonempty _ HV); reflexivity|].
  assert (Hi : Occurs (r :: F0) (rid r)) by (exists r; split; [left; reflexivity|reflexivity]).
  assert (Hs := series_good _ _ HV Hi). assert (Ec := pieces_all k _ _ Hs (HP _ Hi)).
  destruct (P (rid r)) as [|c cs] eqn:EP; [destruct Hs as [Hs _]; apply Hs; rewrite <- Ec; reflexivity|].
  assert (Hin : In c (flat_map P (ids (r :: F0)))).
  { apply in_flat_map. exists (rid r). rewrite EP. split; [apply in_ids; exact Hi|left; reflexivity]. }
  rewrite E in Hin. destruct Hin.
Qed.

Theorem C61_errors k drop (F : frame) e : ValidRows F ->
  assign_ids_const_delta k drop F = Err e -> drop = false /\ e = ValueError.
Proof.
  intros HV HE. destruct drop; [destruct (C61_drop_total k F HV) as [R E]; congruence|]. split; [reflexivity|].
  pose (P := fun i => match pieces_of k false (series F i) with Some ps => ps | None => [] end).
  assert (D : (forall i, In i (ids F) -> pieces_of k false (series F i) = Some (P i)) \/
              (exists i, In i (ids F) /\ pieces_of k false (series F i) = None)).
  { generalize (ids F). intros l. unfold P. induction l as [|i l [IH|(j & Hj & Ej)]].
    - left. intros i [].
    - destruct (pieces_of k false (series F i)) as [ps|] eqn:E.
      + left. intros j [<-|Hj]; [rewrite E; reflexivity|apply IH; exact Hj].
      + right. exists i. split; [left; reflexivity|exact E].
    - right. exists j. split; [right; exact Hj|exact Ej]. }
  destruct D as [D|(i & Hi & D)].
  - rewrite (assign_ok k false F P HV) in HE; [discriminate|]. intros i Hi. apply D, in_ids, Hi.
  - apply in_ids in Hi. rewrite (assign_err k false F i HV Hi D) in HE. congruence.
Qed.

End Props.

Print Assumptions C61_pieces.
Print Assumptions C61_drop_total.
Print Assumptions C61_keep_total.
Print Assumptions C61_errors.

(** Two series: times 1,2,3,10,11,12 (a gap) with ID 4 and times 0,2,4,7,10 (a new interval)
    with ID 7. *)
Definition ex_F : list (row Z) :=
  map (fun p => mkRow 4 (fst p) (snd p)) [(1,1);(2,2);(3,3);(10,4);(11,5);(12,6)]%Z ++
  map (fun p => mkRow 7 (fst p) (snd p)) [(0,7);(2,8);(4,9);(7,10);(10,11)]%Z.

Example C61_example : ValidRows ex_F /\
  assign_ids_const_delta KInt false ex_F =
  Ok (Some (numbered 0 [[(1,1);(2,2);(3,3)]; [(10,4);(11,5);(12,6)]; [(0,7);(2,8)]; [(4,9);(7,10);(10,11)]]%Z)).
Proof. split; [apply (proj1 (tsc_ok ex_F ex_F)); reflexivity|reflexivity]. Qed.

Lemma triple_in (s : list (Z * Z)) l a b c r : s = l ++ a :: b :: c :: r -> (fst b - fst a = fst c - fst b)%Z ->
  forall p, In p [a; b; c] -> InTriple s p.
Proof. intros E H p Hp. exists l, a, b, c, r. auto. Qed.

(** The hypotheses of [C61_keep_total] hold for it. *)
Example C61_example_keep : forall i, Occurs ex_F i ->
  Equidistant (series ex_F i) \/ (forall p, In p (series ex_F i) -> InTriple (series ex_F i) p).
Proof.
  intros i Hi. right. apply in_ids in Hi. change (In i [4; 7]%Z) in Hi. destruct Hi as [<-|[<-|[]]]; intros p Hp.
  - change (In p ([(1,1);(2,2);(3,3)] ++ [(10,4);(11,5);(12,6)])%Z) in Hp. apply in_app_or in Hp. destruct Hp as [Hp|Hp].
    + refine (triple_in _ [] _ _ _ _ _ _ p Hp); reflexivity.
    + refine (triple_in _ [(1,1);(2,2);(3,3)]%Z _ _ _ [] _ _ p Hp); reflexivity.
  - change (In p ([(0,7);(2,8);(4,9)] ++ [(7,10);(10,11)])%Z) in Hp. apply in_app_or in Hp. destruct Hp as [Hp|Hp].
    + refine (triple_in _ [] _ _ _ _ _ _ p Hp); reflexivity.
    + refine (triple_in _ [(0,7);(2,8)]%Z (4,9)%Z _ _ [] _ _ p (or_intror Hp)); reflexivity.
Qed.

(** A single sample between two gaps is dropped. *)
Example C61_example_drop :
  assign_ids_const_delta KDatetime true (map (fun t => mkRow 3 t t) [0; 1; 2; 7; 20; 21; 22]%Z) =
    Ok (Some (numbered 0 [[(0,0);(1,1);(2,2)]; [(20,20);(21,21);(22,22)]]%Z)) /\
  assign_ids_const_delta KDatetime false (map (fun t => mkRow 3 t t) [0; 1; 2; 7; 20; 21; 22]%Z) = Err ValueError.
Proof. split; reflexivity. Qed.

(** Float times: a series whose first interval differs from the others counts as regular
    ([delta_time] does not compare the first interval), and is not split. *)
Theorem C61_float_refuted : exists (F : list (row Z)) G, ValidRows F /\
  assign_ids_const_delta KFloat true F = Ok (Some G) /\ assign_ids_const_delta KFloat false F = Ok (Some G) /\
  Occurs G 0 /\ ~ Equidistant (series G 0).
Proof.
  pose (F := map (fun t => mkRow 0 t t) [0; 5; 6; 7]%Z). exists F, F. split; [apply (proj1 (tsc_ok F F)); reflexivity|].
  split; [reflexivity|]. split; [reflexivity|]. split; [exists (mkRow 0 0 0%Z); split; [left; reflexivity|reflexivity]|].
  intros [d [_ H]]. assert (H1 := H [] (0,0)%Z (5,5)%Z [(6,6);(7,7)]%Z eq_refl).
  assert (H2 := H [(0,0)]%Z (5,5)%Z (6,6)%Z [(7,7)]%Z eq_refl). cbn in H1, H2. lia.
Qed.

Print Assumptions C61_float_refuted.
