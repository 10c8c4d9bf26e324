(** * Theorems about slices of an EDMD model (C113). *)

From Coq Require Import String.
From Coq Require Import List ZArith Bool Arith Lia.
Import ListNotations.
From Verif Require Import Np SliModel SliSpec.
Open Scope Z_scope.

Lemma py_slice_cut {A} start stop (l : list A) : exists a c, Cut start stop l a (py_slice start stop l) c.
Proof.
  unfold py_slice. set (n := Z.of_nat (List.length l)). set (a := bound n 0 start). set (b := bound n n stop).
  assert (Hn : 0 <= n) by (unfold n; lia).
  assert (Ha : 0 <= a <= n).
  { unfold a, bound. destruct start as [k|]; [destruct (Z.ltb_spec k 0); lia|lia]. }
  assert (Hb : 0 <= b <= n).
  { unfold b, bound. destruct stop as [k|]; [destruct (Z.ltb_spec k 0); lia|lia]. }
  exists (firstn (Z.to_nat a) l), (skipn (Z.to_nat (b - a)) (skipn (Z.to_nat a) l)).
  split; [rewrite firstn_skipn, firstn_skipn; reflexivity|].
  rewrite !firstn_length, skipn_length. fold n. intros i Hi.
  assert (E : InSlice n start stop i <-> a <= i < b).
  { unfold InSlice, a, b, bound. destruct start as [k|], stop as [j|];
      try (destruct (Z.ltb_spec k 0)); try (destruct (Z.ltb_spec j 0)); lia. }
  rewrite E. unfold n in *. lia.
Qed.

(** C113: what a slice of an EDMD model is.  The steps at the positions of the slice are [b]. *)
Theorem C113_slice :
  forall (X : Type) (dict_steps : list (step X)) dmd start stop stride,
  (forall s, In s dict_steps -> predicts s = false) -> predicts dmd = true -> stride = None \/ stride = Some 1 ->
  exists a b c, Cut start stop (steps_of dict_steps dmd) a b c /\
  match a, b, c with
  | [], _, [] => getslice (steps_of dict_steps dmd) start stop stride = Ok Itself
  | _, [], _ => getslice (steps_of dict_steps dmd) start stop stride = Err IndexError
  | _, _, [] => getslice (steps_of dict_steps dmd) start stop stride = Err ValueError
  | _, _, _ => getslice (steps_of dict_steps dmd) start stop stride = Ok (Pipe b) /\ (forall s, In s b -> In s dict_steps)
  end.
Proof.
  intros X ds dmd start stop stride HD HP HS. destruct (py_slice_cut start stop (steps_of ds dmd)) as (a & c & HC).
  exists a, (py_slice start stop (steps_of ds dmd)), c. split; [exact HC|]. destruct HC as [E _]. revert E.
  assert (EG : getslice (steps_of ds dmd) start stop stride =
    let ss := py_slice start stop (steps_of ds dmd) in
      if Nat.eqb (List.length ss) (List.length (steps_of ds dmd)) then Ok Itself
      else match rev ss with
           | [] => Err IndexError
           | s :: _ => if predicts s then Err ValueError else Ok (Pipe ss)
           end) by (destruct HS; subst; reflexivity).
  rewrite EG. cbn zeta. clear EG. generalize (py_slice start stop (steps_of ds dmd)) as b. intros b E.
  assert (EL : List.length (steps_of ds dmd) = (List.length a + (List.length b + List.length c))%nat) by (rewrite E, !app_length; reflexivity).
  destruct (Nat.eqb_spec (List.length b) (List.length (steps_of ds dmd))) as [HL|HL].
  - destruct a; [|cbn in EL; lia]. destruct c; [destruct b; reflexivity|cbn in EL; lia].
  - destruct (rev b) as [|s b'] eqn:ER.
    + assert (b = []) by (rewrite <- (rev_involutive b), ER; reflexivity). subst b.
      destruct a, c; try reflexivity. cbn in E. unfold steps_of in E. destruct ds; discriminate.
    + assert (Eb : b = rev b' ++ [s]) by (rewrite <- (rev_involutive b), ER; reflexivity).
      destruct c as [|s' c'].
      * rewrite app_nil_r in E. rewrite Eb in E. unfold steps_of in E.
        rewrite app_assoc in E. apply app_inj_tail in E. destruct E as [_ <-]. rewrite HP.
        destruct a; [exfalso; apply HL; rewrite EL; cbn; lia|]. destruct b; [discriminate|reflexivity].
      * assert (HI : forall t, In t b -> In t ds).
        { intros t Ht. destruct (exists_last (l := s' :: c') ltac:(discriminate)) as (m & z & Em).
          rewrite Em in E. unfold steps_of in E. rewrite !app_assoc in E. apply app_inj_tail in E. destruct E as [-> _].
          apply in_or_app. left. apply in_or_app. right. exact Ht. }
        assert (HPs : predicts s = false) by (apply HD, HI; rewrite Eb; apply in_or_app; right; left; reflexivity).
        rewrite HPs. destruct b as [|t b]; [discriminate|]. destruct a; split; try reflexivity; exact HI.
Qed.
Print Assumptions C113_slice.

(** C113: a slice with another stride is a ValueError. *)
Theorem C113_stride :
  forall (X : Type) (steps : list (step X)) start stop k, k <> 1 ->
  getslice steps start stop (Some k) = Err ValueError.
Proof. intros X steps start stop k Hk. unfold getslice. destruct k as [|[p|p|]|p]; try reflexivity. congruence. Qed.
Print Assumptions C113_stride.

Lemma py_slice_unique {A} start stop (l a b c : list A) : b <> [] -> Cut start stop l a b c -> py_slice start stop l = b.
Proof.
  intros HB [E H]. destruct (py_slice_cut start stop l) as (a' & c' & E' & H'). set (b' := py_slice start stop l) in *.
  assert (EL : List.length l = (List.length a + (List.length b + List.length c))%nat) by (rewrite E, !app_length; reflexivity).
  assert (EL' : List.length l = (List.length a' + (List.length b' + List.length c'))%nat) by (rewrite E' at 1; rewrite !app_length; reflexivity).
  assert (HBl : (0 < List.length b)%nat) by (destruct b; [congruence|cbn; lia]).
  assert (EQ : forall i, 0 <= i < Z.of_nat (List.length l) ->
    (Z.of_nat (List.length a) <= i < Z.of_nat (List.length a + List.length b) <-> Z.of_nat (List.length a') <= i < Z.of_nat (List.length a' + List.length b'))).
  { intros i Hi. rewrite <- (H i Hi), <- (H' i Hi). reflexivity. }
  pose proof (EQ (Z.of_nat (List.length a)) ltac:(lia)) as P1.
  pose proof (EQ (Z.of_nat (List.length a + List.length b) - 1) ltac:(lia)) as P2.
  pose proof (EQ (Z.of_nat (List.length a') ) ltac:(lia)) as P3.
  pose proof (EQ (Z.of_nat (List.length a' + List.length b') - 1) ltac:(lia)) as P4.
  assert (LA : List.length a' = List.length a) by lia. assert (LB : List.length b' = List.length b) by lia.
  assert (EE : a' ++ b' ++ c' = a ++ b ++ c) by congruence.
  assert (HA : forall (u v u' v' : list A), List.length u = List.length u' -> u ++ v = u' ++ v' -> u = u' /\ v = v').
  { clear. induction u as [|x u IH]; intros v u' v' HL E; destruct u' as [|x' u']; try discriminate; cbn in *; [auto|].
    injection E as <- E. injection HL as HL. destruct (IH _ _ _ HL E) as [-> ->]. auto. }
  destruct (HA _ _ _ _ LA EE) as [_ EE2]. destruct (HA _ _ _ _ LB EE2) as [EE3 _]. exact EE3.
Qed.

Lemma pipe_app {X} (p q : list (step X)) x : pipe_transform (p ++ q) x = bind (pipe_transform p x) (pipe_transform q).
Proof.
  revert x. induction p as [|s p IH]; intros x; [reflexivity|]. cbn. destruct (apply s x); [apply IH|reflexivity].
Qed.

Lemma getslice_pipe {X} (ds : list (step X)) dmd start stop a b c : (forall s, In s ds -> predicts s = false) ->
  b <> [] -> c <> [] -> Cut start stop (steps_of ds dmd) a b c -> getslice (steps_of ds dmd) start stop None = Ok (Pipe b).
Proof.
  intros HD HB HC HCut. unfold getslice. rewrite (py_slice_unique _ _ _ _ _ _ HB HCut). destruct HCut as [E _].
  assert (EL : List.length (steps_of ds dmd) = (List.length a + (List.length b + List.length c))%nat) by (rewrite E, !app_length; reflexivity).
  destruct (Nat.eqb_spec (List.length b) (List.length (steps_of ds dmd))) as [HL|HL]; [destruct c; [congruence|cbn in EL; lia]|].
  destruct (rev b) as [|s b'] eqn:ER; [exfalso; apply HB; rewrite <- (rev_involutive b), ER; reflexivity|].
  destruct (exists_last HC) as (m & z & Em). rewrite Em in E. unfold steps_of in E. rewrite !app_assoc in E.
  apply app_inj_tail in E. destruct E as [Ed _].
  rewrite HD; [reflexivity|]. rewrite Ed. apply in_or_app. left. apply in_or_app. right.
  rewrite <- (rev_involutive b), ER. cbn. apply in_or_app. right. left. reflexivity.
Qed.

(** C113: [edmd[:k]] and [edmd[k:-1]] are pipelines of the dictionary, and one after the other they
    transform like the pipeline [edmd[:-1]], which applies all steps of the dictionary. *)
Theorem C113_compose :
  forall (X : Type) (p q : list (step X)) dmd,
  p <> [] -> q <> [] -> (forall s, In s (p ++ q) -> predicts s = false) ->
  let steps := steps_of (p ++ q) dmd in
  let k := Z.of_nat (List.length p) in
  exists p' q' r', getslice steps None (Some k) None = Ok (Pipe p') /\
  getslice steps (Some k) (Some (-1)) None = Ok (Pipe q') /\
  getslice steps None (Some (-1)) None = Ok (Pipe r') /\ r' = p ++ q /\
  forall x, pipe_transform r' x = bind (pipe_transform p' x) (pipe_transform q').
Proof.
  intros X p q dmd HP HQ HD steps k. exists p, q, (p ++ q).
  assert (LP : (0 < List.length p)%nat) by (destruct p; [congruence|cbn; lia]).
  assert (LS : List.length steps = (List.length p + List.length q + 1)%nat) by (unfold steps, steps_of; rewrite !app_length; reflexivity).
  split; [|split; [|split; [|split; [reflexivity|apply pipe_app]]]].
  - apply (getslice_pipe _ _ _ _ [] p (q ++ [dmd])); [exact HD|exact HP|destruct q; discriminate|]. fold steps. split; [unfold steps, steps_of; rewrite <- app_assoc; reflexivity|].
    intros i Hi. unfold InSlice, k. destruct (Z.ltb_spec (Z.of_nat (List.length p)) 0); change (-1 <? 0) with true; cbv iota; cbn [List.length Nat.add]; lia.
  - apply (getslice_pipe _ _ _ _ p q [dmd]); [exact HD|exact HQ|discriminate|]. fold steps. split; [unfold steps, steps_of; rewrite <- app_assoc; reflexivity|].
    intros i Hi. unfold InSlice, k. destruct (Z.ltb_spec (Z.of_nat (List.length p)) 0); change (-1 <? 0) with true; cbv iota; cbn [List.length Nat.add]; lia.
  - apply (getslice_pipe _ _ _ _ [] (p ++ q) [dmd]); [exact HD|destruct p; [congruence|discriminate]|discriminate|]. fold steps. split; [reflexivity|].
    intros i Hi. unfold InSlice. change (-1 <? 0) with true; cbv iota. rewrite app_length. cbn [List.length Nat.add]. lia.
Qed.
Print Assumptions C113_compose.

(** C113: a number is a step, counted from the end if negative; [edmd[-1]] is the DMD model. *)
Theorem C113_number :
  forall (X : Type) (steps : list (step X)) a s c,
  steps = a ++ s :: c ->
  getint steps (Z.of_nat (List.length a)) = Ok (One s) /\ getint steps (- Z.of_nat (S (List.length c))) = Ok (One s).
Proof.
  intros X steps a s c ->. unfold getint. rewrite app_length. cbn [List.length].
  assert (HN : nth_error (a ++ s :: c) (List.length a) = Some s) by (rewrite nth_error_app2, Nat.sub_diag; [reflexivity|lia]).
  split.
  - replace (_ && _) with true by (symmetry; apply andb_true_intro; split; [apply Z.leb_le|apply Z.ltb_lt]; lia).
    destruct (Z.ltb_spec (Z.of_nat (List.length a)) 0); [lia|]. rewrite Nat2Z.id, HN. reflexivity.
  - replace (_ && _) with true by (symmetry; apply andb_true_intro; split; [apply Z.leb_le|apply Z.ltb_lt]; lia).
    destruct (Z.ltb_spec (- Z.of_nat (S (List.length c))) 0); [|lia].
    replace (Z.to_nat _) with (List.length a) by lia. rewrite HN. reflexivity.
Qed.
Print Assumptions C113_number.

Theorem C113_number_out_of_range :
  forall (X : Type) (steps : list (step X)) i,
  Z.of_nat (List.length steps) <= i \/ i < - Z.of_nat (List.length steps) -> getint steps i = Err IndexError.
Proof.
  intros X steps i H. unfold getint. replace (_ && _) with false; [reflexivity|]. symmetry. apply andb_false_iff.
  destruct H; [right; apply Z.ltb_ge|left; apply Z.leb_gt]; lia.
Qed.
Print Assumptions C113_number_out_of_range.

(** C113: a name is the step of that name; a name without a step is a KeyError. *)
Theorem C113_name :
  forall (X : Type) (steps : list (step X)) name,
  NoDup (map sname steps) ->
  (forall s, In s steps -> sname s = name -> getname steps name = Ok (One s)) /\
  ((forall s, In s steps -> sname s <> name) -> getname steps name = Err KeyError).
Proof.
  intros X steps name HN. unfold getname. destruct (find _ (rev steps)) as [t|] eqn:E.
  - apply find_some in E. destruct E as [Ht Et]. apply in_rev in Ht. apply String.eqb_eq in Et. split.
    + intros s Hs Es. do 2 f_equal. revert HN Hs Ht. rewrite <- Es in Et. revert Et. clear. induction steps as [|u l IH]; [intros _ _ []|].
      cbn. intros Et HN. inversion HN as [|? ? HN1 HN2]; subst. intros [->|Hs] [->|Ht]; [reflexivity| | |apply IH; assumption].
      * exfalso. apply HN1. rewrite <- Et. apply in_map, Ht.
      * exfalso. apply HN1. rewrite Et. apply in_map, Hs.
    + intros H. exfalso. exact (H t Ht Et).
  - split; [|reflexivity]. intros s Hs Es. exfalso. apply in_rev in Hs. pose proof (find_none _ _ E s Hs) as F. cbn in F.
    rewrite Es, String.eqb_refl in F. discriminate.
Qed.
Print Assumptions C113_name.

(** Two steps of a dictionary that add and double; the model is not a transformer. *)
Example C113_example :
  let add := mkStep "add" false (fun x => Ok (x + 1)) in
  let double := mkStep "double" false (fun x => Ok (2 * x)) in
  let dmd := mkStep "dmd" true (fun _ => @Err Z AttributeError) in
  let steps := steps_of [add; double] dmd in
  getslice steps None (Some (-1)) None = Ok (Pipe [add; double]) /\
  getslice steps (Some (-2)) (Some 2) (Some 1) = Ok (Pipe [double]) /\
  getslice steps None (Some 7) None = Ok Itself /\
  getslice steps (Some 1) None None = Err ValueError /\
  getslice steps (Some 2) (Some 1) None = Err IndexError /\
  getint steps (-1) = Ok (One dmd) /\ getname steps "double" = Ok (One double) /\
  pipe_transform [add; double] 3 = Ok 8.
Proof. repeat split; reflexivity. Qed.
