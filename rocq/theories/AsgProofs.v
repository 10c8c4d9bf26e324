(** * Proofs about assign_ids_const_delta. *)

From Coq Require Import List ZArith Bool Arith Lia Sorted.
Import ListNotations.
From Coq Require Import ZifyBool ZifyNat.
From Verif Require Import Np NpFacts TscModel TscSpec TscBlocks TscProofs TscOps TscDt TscBuild AsgModel AsgSpec.
Open Scope nat_scope.

(** ** the flags *)

Lemma nth_map2 (g : bool -> bool -> bool) (a b : list bool) k : length a = length b -> g false false = false ->
  nth k (map (fun p => g (fst p) (snd p)) (combine a b)) false = g (nth k a false) (nth k b false).
Proof.
  intros Hl Hg. revert b k Hl; induction a as [|x a IH]; intros [|y b] k Hl; cbn in Hl; try lia.
  - destruct k; cbn; auto.
  - destruct k; [reflexivity|]. cbn. apply IH. lia.
Qed.

Lemma length_map2 (g : bool -> bool -> bool) (a b : list bool) : length a = length b ->
  length (map (fun p => g (fst p) (snd p)) (combine a b)) = length a.
Proof. intros H. rewrite map_length, combine_length. lia. Qed.

Lemma removelast_nth (l : list bool) k : S k < length l -> nth k (removelast l) false = nth k l false.
Proof.
  revert k. induction l as [|x [|y l] IH]; intros k H; [cbn in H; lia|cbn in H; lia|].
  destruct k; [reflexivity|]. change (nth k (removelast (y :: l)) false = nth k (y :: l) false).
  apply IH. cbn in *. lia.
Qed.

Lemma tl_nth (l : list bool) k : nth k (tl l) false = nth (S k) l false.
Proof. destruct l; [destruct k; reflexivity|reflexivity]. Qed.

Section Flags.
Variable T : list Z.
Let n := length T.
Hypothesis Hn : 3 <= n.

(** second difference at sample k not zero *)
Definition nz (k : nat) : bool :=
  match k with
  | 0 => true
  | S j => if S (S j) <? n then negb (nth (S (S j)) T 0 - nth (S j) T 0 =? nth (S j) T 0 - nth j T 0)%Z else false
  end.

Let second := true :: map (fun x => negb (x =? 0)%Z) (np_diff (np_diff T)) ++ [false].

Lemma second_length : length second = n.
Proof.
  unfold second. cbn [length]. rewrite app_length, map_length, !np_diff_length. cbn [length]. fold n. lia.
Qed.

Lemma second_nth k : nth k second false = nz k.
Proof.
  destruct k as [|j]; [reflexivity|]. unfold second. cbn [nth nz].
  assert (Hl : length (np_diff (np_diff T)) = n - 2) by (rewrite !np_diff_length; fold n; lia).
  destruct (Nat.ltb_spec (S (S j)) n) as [H|H].
  - rewrite app_nth1 by (rewrite map_length, Hl; lia).
    rewrite (nth_indep _ false (negb (0 =? 0)%Z)) by (rewrite map_length, Hl; lia).
    rewrite (map_nth (fun x => negb (x =? 0)%Z)).
    rewrite np_diff_nth by (rewrite np_diff_length; fold n; lia).
    rewrite !np_diff_nth by (fold n; lia). f_equal. lia.
  - destruct (Nat.eq_dec (S (S j)) n) as [E|E].
    + rewrite app_nth2 by (rewrite map_length, Hl; lia). rewrite map_length, Hl.
      replace (j - (n - 2)) with 0 by lia. reflexivity.
    + rewrite nth_overflow; [reflexivity|]. rewrite app_length, map_length, Hl. cbn. lia.
Qed.

Let both := map (fun p => fst p && snd p) (combine (removelast second) (tl second)).

Lemma both_length : length both = n - 1.
Proof.
  unfold both. rewrite map_length, combine_length, removelast_length, second_length.
  assert (length (tl second) = n - 1); [|lia]. unfold second. cbn [tl]. assert (E := second_length). unfold second in E. cbn [length] in E. lia.
Qed.

Lemma both_nth k : nth k both false = (S k <? n) && nz k && nz (S k).
Proof.
  unfold both. rewrite nth_map2; [| |reflexivity].
  - rewrite tl_nth, second_nth. destruct (Nat.ltb_spec (S k) n) as [H|H].
    + rewrite removelast_nth by (rewrite second_length; lia). rewrite second_nth. reflexivity.
    + rewrite nth_overflow by (rewrite removelast_length, second_length; lia). reflexivity.
  - rewrite removelast_length, second_length. unfold second. cbn [tl]. assert (E := second_length). unfold second in E. cbn [length] in E. lia.
Qed.

Lemma indicator_length : length (indicator T) = n.
Proof.
  unfold indicator. fold second. fold both. unfold clear.
  assert (L1 : length (false :: both) = n) by (cbn [length]; rewrite both_length; lia).
  assert (L2 : length (both ++ [false]) = n) by (rewrite app_length, both_length; cbn; lia).
  rewrite map_length, combine_length, L1, map_length, combine_length, L2, map_length, combine_length, L1, second_length. lia.
Qed.

Lemma indicator_nth k : k < n ->
  nth k (indicator T) false = nz k && ((match k with 0 => false | S j => nz j end) || negb (nz (S k))).
Proof.
  intros Hk. unfold indicator. fold second. fold both. unfold clear.
  assert (L1 : length (false :: both) = n) by (cbn [length]; rewrite both_length; lia).
  assert (L2 : length (both ++ [false]) = n) by (rewrite app_length, both_length; cbn; lia).
  assert (L3 := second_length).
  rewrite (nth_map2 orb); [| |reflexivity].
  2:{ rewrite map_length, combine_length, map_length, combine_length. lia. }
  rewrite (nth_map2 (fun a b => negb a && b)); [| |reflexivity].
  2:{ rewrite map_length, combine_length. lia. }
  rewrite (nth_map2 (fun a b => negb a && b)); [|lia|reflexivity].
  rewrite second_nth.
  assert (E1 : nth k (false :: both) false = match k with 0 => false | S j => nz j && nz k end).
  { destruct k as [|j]; [reflexivity|]. cbn [nth]. rewrite both_nth.
    replace (S j <? n) with true by (symmetry; apply Nat.ltb_lt; lia). reflexivity. }
  assert (E2 : nth k (both ++ [false]) false = (S k <? n) && nz k && nz (S k)).
  { destruct (Nat.ltb_spec (S k) n) as [H|H].
    - rewrite app_nth1 by (rewrite both_length; lia). rewrite both_nth.
      replace (S k <? n) with true by (symmetry; apply Nat.ltb_lt; lia). reflexivity.
    - rewrite app_nth2 by (rewrite both_length; lia). rewrite both_length.
      destruct (k - (n - 1)) as [|[|m]]; reflexivity. }
  rewrite E1, E2. assert (Hz : (S k <? n) = false -> nz (S k) = false).
  { intros H. cbn [nz]. destruct (Nat.ltb_spec (S (S k)) n); [|reflexivity]. apply Nat.ltb_ge in H. lia. }
  clear E1 E2 L1 L2 L3. generalize (nz (S k)) Hz. clear Hz. intros b Hz.
  destruct k as [|j]; [generalize (nz 0)|generalize (nz (S j)), (nz j)]; intros;
    destruct (_ <? n); try rewrite (Hz eq_refl); destruct b; repeat (match goal with x : bool |- _ => destruct x end); try reflexivity;
    discriminate (Hz eq_refl).
Qed.

Lemma indicator_last : nth (n - 1) (indicator T) false = false.
Proof.
  rewrite indicator_nth by lia. replace (nz (n - 1)) with false; [reflexivity|].
  destruct (n - 1) as [|j] eqn:E; [lia|]. cbn [nz].
  destruct (Nat.ltb_spec (S (S j)) n); [lia|reflexivity].
Qed.

(** two successive samples that do not start a series: equal distances *)
Lemma inside_equal k : S (S k) < n -> nth (S k) (indicator T) false = false -> nth (S (S k)) (indicator T) false = false ->
  (nth (S (S k)) T 0 - nth (S k) T 0 = nth (S k) T 0 - nth k T 0)%Z.
Proof.
  intros Hk H1 H2. rewrite indicator_nth in H1, H2 by lia.
  assert (E : nz (S k) = negb (nth (S (S k)) T 0 - nth (S k) T 0 =? nth (S k) T 0 - nth k T 0)%Z).
  { cbn [nz]. replace (S (S k) <? n) with true by (symmetry; apply Nat.ltb_lt; lia). reflexivity. }
  destruct (nz (S k)) eqn:E1; [|lia]. exfalso.
  destruct (nz (S (S k))); destruct (nz k); cbn in H1, H2; discriminate.
Qed.

(** a start after the first sample: the distances differ *)
Lemma start_differs k : S k < n -> nth (S k) (indicator T) false = true ->
  S (S k) < n /\ (nth (S (S k)) T 0 - nth (S k) T 0 <> nth (S k) T 0 - nth k T 0)%Z.
Proof.
  intros Hk H. rewrite indicator_nth in H by lia. apply andb_true_iff in H. destruct H as [H _].
  cbn [nz] in H. destruct (Nat.ltb_spec (S (S k)) n) as [H'|H']; [|discriminate]. split; [exact H'|].
  intros Hq; rewrite Hq, Z.eqb_refl in H; discriminate.
Qed.

(** the samples of a triple with equal distances *)
Lemma triple_flags k : S (S k) < n -> (nth (S (S k)) T 0 - nth (S k) T 0 = nth (S k) T 0 - nth k T 0)%Z ->
  nth (S k) (indicator T) false = false /\
  (nth (S (S k)) (indicator T) false = true ->
   S (S (S k)) < n /\ nth (S (S (S k))) (indicator T) false = false).
Proof.
  intros Hk E.
  assert (E1 : nz (S k) = false).
  { cbn [nz]. replace (S (S k) <? n) with true by (symmetry; apply Nat.ltb_lt; lia). rewrite E, Z.eqb_refl. reflexivity. }
  split; [rewrite indicator_nth by lia; rewrite E1; reflexivity|].
  intros H. destruct (Nat.eq_dec (S (S k)) (n - 1)) as [El|Hne]; [rewrite El, indicator_last in H; discriminate|].
  split; [lia|]. rewrite indicator_nth in H |- * by lia.
  destruct (nz (S (S k))); [|discriminate]. rewrite E1 in H. cbn [orb andb] in H.
  destruct (nz (S (S (S k)))); [discriminate|reflexivity].
Qed.

End Flags.

(** ** cutting a list at the flags *)

Section Cut.
Context {A : Type}.

Fixpoint cutl (fl : list bool) (l : list A) : list (list A) :=
  match fl, l with
  | f :: fl', x :: l' =>
      match cutl fl' l' with
      | [] => [[x]]
      | c :: cs => if hd false fl' then [x] :: c :: cs else (x :: c) :: cs
      end
  | _, _ => []
  end.

Lemma cutl_nonempty fl l c : In c (cutl fl l) -> c <> [].
Proof.
  revert l c. induction fl as [|f fl IH]; intros [|x l] c H; try destruct H.
  cbn [cutl] in H. destruct (cutl fl l) as [|c' cs] eqn:E.
  - destruct H as [<-|[]]. discriminate.
  - destruct (hd false fl).
    + destruct H as [<-|H]; [discriminate|]. apply (IH l). rewrite E. exact H.
    + destruct H as [<-|H]; [discriminate|]. apply (IH l). rewrite E. right; exact H.
Qed.

Lemma cutl_nil fl l : length fl = length l -> cutl fl l = [] -> l = [].
Proof.
  destruct fl as [|f fl], l as [|x l]; cbn; intros H E; try lia; [reflexivity|].
  destruct (cutl fl l); [discriminate|]. destruct (hd false fl); discriminate.
Qed.

Lemma cutl_concat fl l : length fl = length l -> concat (cutl fl l) = l.
Proof.
  revert l. induction fl as [|f fl IH]; intros [|x l] H; cbn in H; try lia; [reflexivity|].
  cbn [cutl]. specialize (IH l ltac:(lia)). destruct (cutl fl l) as [|c cs] eqn:E.
  - cbn in *. rewrite <- IH. reflexivity.
  - destruct (hd false fl); cbn in *; rewrite IH; reflexivity.
Qed.

(** inside a part no flag is set, at its beginning one is (unless it is the first) *)
Lemma cutl_flags fl l cs1 c cs2 : length fl = length l -> cutl fl l = cs1 ++ c :: cs2 ->
  (forall k, length (concat cs1) < k < length (concat cs1) + length c -> nth k fl false = false) /\
  (cs1 <> [] -> nth (length (concat cs1)) fl false = true).
Proof.
  revert l cs1 c cs2. induction fl as [|f fl IH]; intros [|x l] cs1 c cs2 H E; cbn in H; try lia.
  - cbn in E. destruct cs1; discriminate.
  - cbn [cutl] in E. assert (Hl : length fl = length l) by lia.
    destruct (cutl fl l) as [|c' cs'] eqn:Ec.
    + assert (El := cutl_nil fl l Hl Ec). subst l. destruct fl; [|discriminate].
      destruct cs1 as [|y cs1]; [|destruct cs1; discriminate]. injection E as <- _. cbn. split; [lia|congruence].
    + destruct (hd false fl) eqn:Eh.
      * destruct cs1 as [|y cs1].
        { injection E as <- _. cbn. split; [lia|congruence]. }
        injection E as <- E. assert (E' := E). rewrite <- Ec in E'. destruct (IH l cs1 c cs2 Hl E') as [H1 H2].
        cbn [concat app length]. split.
        -- intros k Hk. destruct k as [|k]; [lia|]. cbn [nth]. apply H1. lia.
        -- intros _. cbn [nth]. destruct cs1 as [|z cs1]; [|apply H2; discriminate].
           cbn. destruct fl; [discriminate|exact Eh].
      * destruct cs1 as [|y cs1].
        { injection E as <- E. destruct (IH l [] c' cs2 Hl) as [H1 _]; [rewrite Ec; cbn; congruence|].
          cbn in H1. cbn [concat length]. split; [|congruence]. intros k Hk. destruct k as [|k]; [lia|]. cbn [nth].
          destruct k as [|k]; [destruct fl; [reflexivity|exact Eh]|]. apply H1. lia. }
        injection E as <- E. destruct (IH l (c' :: cs1) c cs2 Hl) as [H1 H2]; [rewrite Ec, E; reflexivity|].
        cbn [concat] in *. rewrite app_length in *. cbn [length]. split.
        -- intros k Hk. destruct k as [|k]; [lia|]. cbn [nth]. apply H1. lia.
        -- intros _. cbn [nth Nat.add]. apply H2. discriminate.
Qed.

(** two successive elements without a flag at the second are in the same part *)
Lemma cutl_together fl l k (d : A) : length fl = length l -> S k < length l -> nth (S k) fl false = false ->
  exists c, In c (cutl fl l) /\ In (nth k l d) c /\ In (nth (S k) l d) c /\ 2 <= length c.
Proof.
  revert l k. induction fl as [|f fl IH]; intros [|x l] k H Hk Hf; cbn in H, Hk; try lia.
  cbn [cutl]. assert (Hl : length fl = length l) by lia.
  destruct k as [|k].
  - destruct (cutl fl l) as [|c cs] eqn:Ec; [apply cutl_nil in Ec; [subst; cbn in Hk; lia|exact Hl]|].
    cbn [nth] in *. destruct fl as [|g fl]; [cbn in Hl; lia|]. cbn [hd nth] in *. rewrite Hf.
    exists (x :: c). split; [left; reflexivity|]. split; [left; reflexivity|].
    assert (Hc : c <> []) by (apply (cutl_nonempty (g :: fl) l); rewrite Ec; left; reflexivity).
    split; [|destruct c; [congruence|cbn; lia]].
    right. assert (Hcc := cutl_concat (g :: fl) l Hl). rewrite Ec in Hcc. cbn [concat] in Hcc.
    rewrite <- Hcc. destruct c; [congruence|]. left. reflexivity.
  - cbn [nth] in Hf |- *. destruct (IH l k Hl ltac:(lia) Hf) as (c & Hc & H1 & H2 & H3).
    destruct (cutl fl l) as [|c' cs] eqn:Ec; [destruct Hc|].
    destruct (hd false fl).
    + exists c. split; [right; exact Hc|]. auto.
    + destruct Hc as [->|Hc].
      * exists (x :: c). split; [left; reflexivity|]. cbn [In length]. split; [auto|]. split; [auto|lia].
      * exists c. split; [right; exact Hc|]. auto.
Qed.

End Cut.
