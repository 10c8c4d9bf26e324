(** * Proofs about polynomial features, moving averages and the selection of features. *)

From Coq Require Import String.
From Coq Require Import List ZArith Bool Arith Lia Sorted.
Import ListNotations.
From Coq Require Import ZifyBool ZifyNat.
From Verif Require Import Np NpFacts TscModel TscSpec TscBlocks TscProofs TscOps TscDt AsgLoop TrModel TrSpec TrProofs.
Open Scope nat_scope.

(** ** Combinations *)

Fixpoint chain (s n lo : nat) (c : list nat) : Prop :=
  match c with [] => True | i :: c' => lo <= i < n /\ chain s n (i + s) c' end.

Lemma combinations_in s n k : forall lo c, In c (combinations s n k lo) <-> length c = k /\ chain s n lo c.
Proof.
  induction k as [|k IH]; intros lo c; cbn [combinations].
  - cbn. split; [intros [<-|[]]; cbn; auto|]. intros [H _]. apply length_zero_iff_nil in H. auto.
  - rewrite in_flat_map. split.
    + intros (i & Hi & Hc). apply in_map_iff in Hc. destruct Hc as (c' & <- & Hc). apply IH in Hc. apply in_seq in Hi.
      cbn. split; [lia|]. split; [lia|tauto].
    + intros [Hl Hc]. destruct c as [|i c]; [discriminate|]. cbn in Hl, Hc. exists i. split; [apply in_seq; lia|].
      apply in_map_iff. exists c. split; [reflexivity|]. apply IH. split; [lia|tauto].
Qed.

Lemma nodup_app {A} (a b : list A) : NoDup a -> NoDup b -> (forall x, In x a -> ~ In x b) -> NoDup (a ++ b).
Proof.
  induction a as [|x a IH]; intros Ha Hb H; [exact Hb|]. inversion Ha as [|? ? Hx Ha']; subst. cbn. constructor.
  - intros Hin. apply in_app_or in Hin. destruct Hin as [Hin|Hin]; [contradiction|]. apply (H x); [left; reflexivity|exact Hin].
  - apply IH; auto. intros y Hy. apply H. right. exact Hy.
Qed.

Lemma nodup_flat_map {A B} (f : A -> list B) (l : list A) : NoDup l -> (forall x, In x l -> NoDup (f x)) ->
  (forall x y z, In x l -> In y l -> In z (f x) -> In z (f y) -> x = y) -> NoDup (flat_map f l).
Proof.
  induction l as [|x l IH]; intros Hl Hf Hd; [constructor|]. inversion Hl as [|? ? Hx Hl']; subst. cbn. apply nodup_app.
  - apply Hf. left. reflexivity.
  - apply IH; [exact Hl'|intros y Hy; apply Hf; right; exact Hy|intros a b z Ha Hb; apply Hd; right; assumption].
  - intros z Hz Hin. apply in_flat_map in Hin. destruct Hin as (y & Hy & Hz'). apply Hx.
    rewrite (Hd x y z); auto; [left; reflexivity|right; exact Hy].
Qed.

Lemma combinations_nodup s n k : forall lo, NoDup (combinations s n k lo).
Proof.
  induction k as [|k IH]; intros lo; cbn [combinations]; [constructor; [intros []|constructor]|].
  apply nodup_flat_map; [apply seq_NoDup| |].
  - intros i _. apply FinFun.Injective_map_NoDup; [intros a b E; injection E; auto|apply IH].
  - intros i j z _ _ Hi Hj. apply in_map_iff in Hi, Hj. destruct Hi as (a & <- & _), Hj as (b & E & _). injection E. auto.
Qed.

(** ** Exponents and sorted lists *)

Fixpoint expand (lo : nat) (p : list nat) : list nat :=
  match p with [] => [] | e :: p' => repeat lo e ++ expand (S lo) p' end.

Definition counts (lo n : nat) (c : list nat) : list nat := map (fun j => count_occ Nat.eq_dec c j) (seq lo n).

Lemma chain_weaken s n lo lo' c : lo' <= lo -> chain s n lo c -> chain s n lo' c.
Proof. destruct c as [|i c]; cbn; [auto|]. intros H [H1 H2]. split; [lia|exact H2]. Qed.

Lemma chain_zero s n : forall c lo, chain s n lo c -> chain 0 n lo c.
Proof.
  induction c as [|i c IH]; intros lo; cbn; [auto|]. intros [H1 H2]. split; [exact H1|]. apply IH.
  apply (chain_weaken s n (i + s)); [lia|exact H2].
Qed.

Lemma chain_split n c : forall lo, chain 0 n lo c -> exists e c', c = repeat lo e ++ c' /\ chain 0 n (S lo) c'.
Proof.
  induction c as [|i c IH]; intros lo H; [exists 0, []; cbn; auto|]. cbn in H. rewrite Nat.add_0_r in H. destruct H as [H1 H2].
  destruct (Nat.eq_dec i lo) as [->|Hne].
  - destruct (IH lo H2) as (e & c' & -> & Hc). exists (S e), c'. auto.
  - exists 0, (i :: c). split; [reflexivity|]. cbn. rewrite Nat.add_0_r. split; [lia|exact H2].
Qed.

Lemma chain_ge n c : forall lo x, chain 0 n lo c -> In x c -> lo <= x < n.
Proof.
  induction c as [|i c IH]; intros lo x H Hx; [destruct Hx|]. cbn in H. rewrite Nat.add_0_r in H. destruct H as [H1 H2].
  destruct Hx as [<-|Hx]; [exact H1|]. specialize (IH _ _ H2 Hx). lia.
Qed.

Lemma count_repeat x y e : count_occ Nat.eq_dec (repeat x e) y = if Nat.eq_dec x y then e else 0.
Proof. induction e as [|e IH]; cbn; destruct (Nat.eq_dec x y); try rewrite IH; reflexivity. Qed.

Lemma counts_expand p : forall lo, counts lo (length p) (expand lo p) = p.
Proof.
  induction p as [|e p IH]; intros lo; [reflexivity|]. cbn [length expand]. unfold counts in *. cbn [seq map].
  assert (Hge : forall q l x, In x (expand l q) -> l <= x).
  { induction q as [|f q IHq]; intros l x Hx; [destruct Hx|]. cbn in Hx. apply in_app_or in Hx. destruct Hx as [Hx|Hx].
    - apply repeat_spec in Hx. lia.
    - specialize (IHq _ _ Hx). lia. }
  f_equal.
  - rewrite count_occ_app, count_repeat. destruct (Nat.eq_dec lo lo); [|lia].
    rewrite (proj1 (count_occ_not_In Nat.eq_dec (expand (S lo) p) lo)); [lia|]. intros Hx. apply Hge in Hx. lia.
  - transitivity (map (fun j => count_occ Nat.eq_dec (expand (S lo) p) j) (seq (S lo) (length p))); [|apply IH].
    apply map_ext_in. intros j Hj. apply in_seq in Hj. rewrite count_occ_app, count_repeat. destruct (Nat.eq_dec lo j); lia.
Qed.

Lemma expand_counts n : forall lo c, chain 0 (lo + n) lo c -> expand lo (counts lo n c) = c.
Proof.
  induction n as [|n IH]; intros lo c H.
  - destruct c as [|i c]; [reflexivity|]. cbn in H. lia.
  - destruct (chain_split _ _ _ H) as (e & c' & -> & Hc). unfold counts. cbn [seq map expand].
    assert (Hn : ~ In lo c') by (intros Hx; apply (chain_ge _ _ _ _ Hc) in Hx; lia).
    rewrite count_occ_app, count_repeat. destruct (Nat.eq_dec lo lo); [|lia].
    rewrite (proj1 (count_occ_not_In Nat.eq_dec c' lo) Hn), Nat.add_0_r. f_equal.
    transitivity (expand (S lo) (counts (S lo) n c')).
    + f_equal. unfold counts. apply map_ext_in. intros j Hj. apply in_seq in Hj. rewrite count_occ_app, count_repeat.
      destruct (Nat.eq_dec lo j); lia.
    + apply IH. replace (S lo + n) with (lo + S n) by lia. exact Hc.
Qed.

Lemma expand_length p : forall lo, length (expand lo p) = total p.
Proof. induction p as [|e p IH]; intros lo; [reflexivity|]. cbn. rewrite app_length, repeat_length, IH. reflexivity. Qed.

Lemma expand_chain p : forall lo, chain 0 (lo + length p) lo (expand lo p).
Proof.
  induction p as [|e p IH]; intros lo; [exact Logic.I|]. cbn [expand length].
  assert (H := IH (S lo)). rewrite Nat.add_succ_comm in H. apply (chain_weaken _ _ _ lo) in H; [|lia].
  induction e as [|e IHe]; [exact H|]. cbn. rewrite Nat.add_0_r. split; [lia|exact IHe].
Qed.

Lemma expand_chain_one p : (forall e, In e p -> e <= 1) -> forall lo, chain 1 (lo + length p) lo (expand lo p).
Proof.
  induction p as [|e p IH]; intros He lo; [exact Logic.I|]. cbn [expand length].
  assert (H := IH (fun x Hx => He x (or_intror Hx)) (S lo)). rewrite Nat.add_succ_comm in H.
  assert (He1 := He e (or_introl eq_refl)). destruct e as [|[|e]]; [| |lia].
  - cbn. apply (chain_weaken _ _ (S lo)); [lia|exact H].
  - cbn. split; [lia|]. rewrite Nat.add_1_r. exact H.
Qed.

Lemma chain_one_count n c : forall lo, chain 1 n lo c -> forall x, count_occ Nat.eq_dec c x <= 1.
Proof.
  induction c as [|i c IH]; intros lo H x; [cbn; lia|]. cbn in H. destruct H as [H1 H2]. cbn [count_occ].
  specialize (IH _ H2 x). destruct (Nat.eq_dec i x) as [->|]; [|lia].
  rewrite (proj1 (count_occ_not_In Nat.eq_dec c x)); [lia|]. intros Hx. apply chain_zero in H2.
  apply (chain_ge _ _ _ _ H2) in Hx. lia.
Qed.

Section Poly.
Context {I V : Type}.
Variables (one : V) (mul : V -> V -> V).
Variables (degree : nat) (interaction_only include_bias include_first_order : bool).
Notation combos := (all_combinations degree interaction_only include_bias).

Lemma in_combos n c : In c (combos n) <->
  length c <= degree /\ (length c = 0 -> include_bias = true) /\ chain (if interaction_only then 1 else 0) n 0 c.
Proof.
  unfold all_combinations. rewrite in_app_iff, in_flat_map. split.
  - intros [H|(k & Hk & Hc)].
    + destruct include_bias; [|destruct H]. destruct H as [<-|[]]. cbn. split; [lia|]. auto.
    + apply combinations_in in Hc. apply in_seq in Hk. destruct Hc as [<- Hc]. split; [lia|]. split; [lia|exact Hc].
  - intros (H1 & H2 & H3). destruct (Nat.eq_dec (length c) 0) as [E|E].
    + left. rewrite (H2 E). apply length_zero_iff_nil in E. left. auto.
    + right. exists (length c). split; [apply in_seq; lia|]. apply combinations_in. auto.
Qed.

Lemma combos_nodup n : NoDup (combos n).
Proof.
  unfold all_combinations. apply nodup_app.
  - destruct include_bias; repeat constructor. intros [].
  - apply nodup_flat_map; [apply seq_NoDup|intros k _; apply combinations_nodup|].
    intros a b z _ _ Ha Hb. apply combinations_in in Ha, Hb. destruct Ha as [<- _], Hb as [<- _]. reflexivity.
  - intros c Hc Hin. destruct include_bias; [|destruct Hc]. destruct Hc as [<-|[]]. apply in_flat_map in Hin.
    destruct Hin as (k & Hk & Hc). apply combinations_in in Hc. apply in_seq in Hk. cbn in Hc. lia.
Qed.

Lemma bincount_expand n c : In c (combos n) -> expand 0 (bincount n c) = c.
Proof. intros H. apply in_combos in H. apply expand_counts. apply chain_zero in H || idtac. destruct H as (_ & _ & H). apply chain_zero in H. exact H. Qed.

Lemma super_nodup n : NoDup (super_powers degree interaction_only include_bias n).
Proof.
  unfold super_powers. assert (H := combos_nodup n). assert (Hin := bincount_expand n). revert H Hin.
  generalize (combos n). intros l H Hin. induction l as [|c l IH]; [constructor|]. inversion H as [|? ? Hc Hl]; subst. cbn. constructor.
  - intros Hx. apply in_map_iff in Hx. destruct Hx as (d & E & Hd). apply Hc.
    rewrite <- (Hin c (or_introl eq_refl)), <- E, (Hin d (or_intror Hd)). exact Hd.
  - apply IH; [exact Hl|]. intros d Hd. apply Hin. right. exact Hd.
Qed.

Lemma in_super n p : In p (super_powers degree interaction_only include_bias n) <->
  length p = n /\ total p <= degree /\ (total p = 0 -> include_bias = true) /\
  (interaction_only = true -> forall e, In e p -> e <= 1).
Proof.
  unfold super_powers. rewrite in_map_iff. split.
  - intros (c & <- & Hc). assert (E := bincount_expand n c Hc). apply in_combos in Hc. destruct Hc as (H1 & H2 & H3).
    rewrite <- (expand_length _ 0), E. split; [unfold bincount; rewrite map_length, seq_length; reflexivity|].
    split; [exact H1|]. split; [exact H2|]. intros -> e He. apply in_map_iff in He. destruct He as (j & <- & _).
    apply (chain_one_count _ _ _ H3).
  - intros (<- & H1 & H2 & H3). exists (expand 0 p). split; [apply counts_expand|]. apply in_combos.
    rewrite expand_length. split; [exact H1|]. split; [exact H2|].
    destruct interaction_only; [apply (expand_chain_one p (H3 eq_refl) 0)|apply (expand_chain p 0)].
Qed.

Lemma powers_spec n : NoDup (powers degree interaction_only include_bias include_first_order n) /\
  forall p, In p (powers degree interaction_only include_bias include_first_order n) <->
            Exponents n degree interaction_only include_bias include_first_order p.
Proof.
  unfold powers. split; [destruct include_first_order; [|apply NoDup_filter]; apply super_nodup|].
  intros p. destruct include_first_order eqn:Ef.
  - rewrite in_super. split; [intros (H1 & H2 & H3 & H4); constructor; auto|]. intros []. auto.
  - rewrite filter_In, in_super. unfold not_first_order. fold (total p). split.
    + intros [(H1 & H2 & H3 & H4) H5]. constructor; auto. lia.
    + intros [H1 H2 H3 H4 H5]. repeat split; auto. destruct (Nat.eqb_spec (total p) 1) as [E|E]; [|reflexivity]. discriminate (H4 E).
Qed.

Hypothesis mul_one : forall a, mul one a = a.
Hypothesis mul_assoc : forall a b c, mul (mul a b) c = mul a (mul b c).

Lemma prod_expand x : forall p pre, length p = length x ->
  fold_right (fun j acc => mul (nth j (pre ++ x) one) acc) one (expand (length pre) p) = monomial one mul x p.
Proof.
  induction x as [|a x IH]; intros [|e p] pre Hl; cbn in Hl; try lia; [reflexivity|].
  cbn [expand monomial]. rewrite fold_right_app.
  assert (E : fold_right (fun j acc => mul (nth j (pre ++ a :: x) one) acc) one (expand (S (length pre)) p) = monomial one mul x p).
  { rewrite <- (IH p (pre ++ [a])) by lia. rewrite app_length, Nat.add_1_r, <- app_assoc. reflexivity. }
  rewrite E. clear E. induction e as [|e IHe]; cbn; [symmetry; apply mul_one|]. rewrite IHe, nth_middle. symmetry. apply mul_assoc.
Qed.

Lemma super_row_spec x : super_row one mul degree interaction_only include_bias x =
  map (monomial one mul x) (super_powers degree interaction_only include_bias (length x)).
Proof.
  unfold super_row, super_powers. rewrite map_map. apply map_ext_in. intros c Hc.
  rewrite <- (bincount_expand _ c Hc) at 1. apply (prod_expand x _ []).
  unfold bincount. rewrite map_length, seq_length. reflexivity.
Qed.

Lemma mask_select_map {A B} (g : A -> bool) (f : A -> B) l : mask_select (map g l) (map f l) = map f (filter g l).
Proof.
  unfold mask_select. induction l as [|x l IH]; [reflexivity|]. cbn [map combine filter fst snd].
  destruct (g x); cbn [map snd]; rewrite IH; reflexivity.
Qed.

Lemma poly_transform_spec names_in (rows : list (I * list V)) : (forall r, In r rows -> length (snd r) = length names_in) ->
  poly_transform one mul degree interaction_only include_bias include_first_order names_in names_in rows =
  Ok (map (poly_name names_in) (powers degree interaction_only include_bias include_first_order (length names_in)),
      map (fun r => (fst r, map (monomial one mul (snd r)) (powers degree interaction_only include_bias include_first_order (length names_in)))) rows).
Proof.
  intros H. unfold poly_transform. rewrite names_eqb_refl. cbn [negb]. f_equal. f_equal.
  apply map_ext_in. intros r Hr. f_equal. rewrite super_row_spec, (H r Hr). unfold powers, non_id_state_mask.
  destruct include_first_order; [reflexivity|apply mask_select_map].
Qed.

End Poly.

Lemma factors_spec v : forall p, map factor_name (filter (fun q => negb (snd q =? 0)) (combine v p)) = factors v p.
Proof.
  induction v as [|a v IH]; intros [|e p]; try reflexivity. cbn [combine filter factors snd].
  destruct e as [|[|e]]; cbn [Nat.eqb negb map app]; rewrite IH; reflexivity.
Qed.

Lemma poly_name_spec v p : poly_name v p = monomial_name v p.
Proof.
  unfold poly_name, monomial_name. rewrite <- factors_spec. destruct (filter _ _); reflexivity.
Qed.

(** ** Moving average *)

Section Moving.
Context {V : Type}.
Variable mean : list V -> V.

Lemma rolling_closed w (s : list (Z * V)) : 1 <= w ->
  rolling mean w s =
  flat_map (fun i => match nth_error s i with Some p => [(fst p, mean (map snd (window_ending w i s)))] | None => [] end)
           (seq (w - 1) (length s - (w - 1))).
Proof.
  intros Hw. unfold rolling, window_ending.
  set (f := fun i => match nth_error s i with Some p => if w <=? S i then _ else _ | None => [] end).
  assert (E : seq 0 (length s) = seq 0 (min (w - 1) (length s)) ++ seq (min (w - 1) (length s)) (length s - (w - 1))).
  { rewrite <- seq_app. f_equal. lia. }
  rewrite E, flat_map_app.
  assert (E0 : flat_map f (seq 0 (min (w - 1) (length s))) = []).
  { clear E. assert (H : forall l, (forall i, In i l -> i < w - 1) -> flat_map f l = []).
    { induction l as [|i l IH]; intros H; [reflexivity|]. cbn. rewrite IH by (intros j Hj; apply H; right; exact Hj).
      specialize (H i (or_introl eq_refl)). unfold f. destruct (nth_error s i); [|reflexivity].
      replace (w <=? S i) with false by lia. reflexivity. }
    apply H. intros i Hi. apply in_seq in Hi. lia. }
  rewrite E0. cbn [app]. destruct (Nat.le_gt_cases (w - 1) (length s)) as [Hl|Hl].
  - rewrite Nat.min_l by lia. rewrite !flat_map_concat_map. f_equal. apply map_ext_in. intros i Hi. apply in_seq in Hi.
    unfold f. destruct (nth_error s i); [|reflexivity]. replace (w <=? S i) with true by lia. reflexivity.
  - replace (length s - (w - 1)) with 0 by lia. reflexivity.
Qed.

Lemma rolling_nth w (s : list (Z * V)) j : 1 <= w ->
  nth_error (rolling mean w s) j =
  match nth_error s (w - 1 + j) with
  | Some p => Some (fst p, mean (map snd (window_ending w (w - 1 + j) s)))
  | None => None
  end.
Proof.
  intros Hw. rewrite (rolling_closed w s Hw).
  assert (H : forall n a, a + n <= length s ->
    nth_error (flat_map (fun i => match nth_error s i with Some p => [(fst p, mean (map snd (window_ending w i s)))] | None => [] end) (seq a n)) j =
    if j <? n then match nth_error s (a + j) with Some p => Some (fst p, mean (map snd (window_ending w (a + j) s))) | None => None end else None).
  { revert j. intros j n. revert j. induction n as [|n IH]; intros j a Ha; [destruct j; reflexivity|]. cbn [seq flat_map].
    destruct (nth_error s a) as [p|] eqn:E; [|apply nth_error_None in E; lia].
    destruct j as [|j]; cbn [app nth_error].
    - rewrite Nat.add_0_r, E. reflexivity.
    - rewrite IH by lia. replace (S j <? S n) with (j <? n) by lia. rewrite Nat.add_succ_comm. reflexivity. }
  destruct (Nat.le_gt_cases (w - 1) (length s)) as [Hl|Hl].
  - rewrite H by lia. destruct (Nat.ltb_spec j (length s - (w - 1))); [reflexivity|].
    destruct (nth_error s (w - 1 + j)) eqn:E; [|reflexivity]. assert (nth_error s (w - 1 + j) <> None) by congruence.
    apply nth_error_Some in H1. lia.
  - replace (length s - (w - 1)) with 0 by lia. cbn [seq flat_map].
    destruct (nth_error s (w - 1 + j)) eqn:E; [|destruct j; reflexivity]. assert (nth_error s (w - 1 + j) <> None) by congruence.
    apply nth_error_Some in H0. lia.
Qed.

Lemma list_ext {A} (a : list A) : forall b, (forall j, nth_error a j = nth_error b j) -> a = b.
Proof.
  induction a as [|x a IH]; intros [|y b] H; [reflexivity|discriminate (H 0)|discriminate (H 0)|].
  f_equal; [assert (E := H 0); cbn in E; congruence|]. apply IH. intros j. exact (H (S j)).
Qed.

Lemma nth_error_skip {A} n : forall (l : list A) j, nth_error (skipn n l) j = nth_error l (n + j).
Proof. induction n as [|n IH]; intros [|x l] j; cbn; auto. destruct j; reflexivity. Qed.

Lemma rolling_times w (s : list (Z * V)) : 1 <= w -> map fst (rolling mean w s) = skipn (w - 1) (map fst s).
Proof.
  intros Hw. apply list_ext. intros j. rewrite nth_error_map, (rolling_nth w s j Hw).
  rewrite nth_error_skip, nth_error_map. destruct (nth_error s (w - 1 + j)); reflexivity.
Qed.

Lemma rolling_good w (s : list (Z * V)) : 1 <= w -> GoodSeries s -> w <= length s -> GoodSeries (rolling mean w s).
Proof.
  intros Hw (H1 & H2 & H3) Hl. assert (E := rolling_times w s Hw). split; [|split].
  - intros En. rewrite En in E. apply (f_equal (@length _)) in E. rewrite skipn_length, !map_length in E. cbn in E. lia.
  - intros p Hp. apply (in_map fst) in Hp. rewrite E in Hp. apply in_skipn in Hp. apply in_map_iff in Hp.
    destruct Hp as (q & <- & Hq). apply H2. exact Hq.
  - rewrite E. apply StronglySorted_skipn. exact H3.
Qed.

Lemma rolling_short w (s : list (Z * V)) : 1 <= w -> length s < w -> rolling mean w s = [].
Proof.
  intros Hw Hl. apply length_zero_iff_nil. rewrite <- (map_length fst), (rolling_times w s Hw), skipn_length, map_length. lia.
Qed.

Definition moved_blocks (w : nat) (F : list (row V)) : list (Z * list (Z * V)) :=
  map (fun i => (i, rolling mean w (series F i))) (ids F).

Lemma moved_rows w F : flat_map (fun i => series_rows i (rolling mean w (series F i))) (ids F) = flatten (moved_blocks w F).
Proof. unfold flatten, moved_blocks. induction (ids F) as [|i l IH]; [reflexivity|]. cbn. rewrite IH. reflexivity. Qed.

Lemma flatten_filter (bs : list (Z * list (Z * V))) :
  flatten bs = flatten (filter (fun b => match snd b with [] => false | _ => true end) bs).
Proof.
  induction bs as [|[i [|p s]] bs IH]; [reflexivity| |].
  - rewrite flatten_cons. cbn [filter snd]. rewrite <- IH. reflexivity.
  - cbn [filter snd]. rewrite !flatten_cons, <- IH. reflexivity.
Qed.

Lemma moved_valid w (F : list (row V)) : 1 <= w -> ValidRows F -> (exists i, Occurs F i /\ w <= length (rows_of F i)) ->
  ValidRows (flatten (moved_blocks w F)).
Proof.
  intros Hw HV (i & Hi & Hl). rewrite flatten_filter. apply wfb_valid.
  assert (Hlen : forall j, length (series F j) = length (rows_of F j)) by (intros j; unfold series; apply map_length).
  set (bs := filter _ _).
  assert (Hin : forall b, In b bs <-> In (fst b) (ids F) /\ snd b = rolling mean w (series F (fst b)) /\ snd b <> []).
  { intros b. unfold bs, moved_blocks. rewrite filter_In, in_map_iff. split.
    - intros [(j & <- & Hj) H]. cbn in *. split; [exact Hj|]. split; [reflexivity|]. destruct (rolling mean w (series F j)); [discriminate|congruence].
    - intros (H1 & H2 & H3). split; [exists (fst b); split; [|exact H1]; destruct b; cbn in *; congruence|].
      destruct (snd b); [contradiction|reflexivity]. }
  split.
  - intros E. assert (H : In (i, rolling mean w (series F i)) bs); [|rewrite E in H; destruct H].
    apply Hin. cbn. split; [apply in_ids; exact Hi|]. split; [reflexivity|].
    apply (rolling_good w _ Hw); [apply series_good; assumption|]. rewrite Hlen. exact Hl.
  - unfold bs. assert (H : NoDup (map fst (moved_blocks w F))).
    { unfold moved_blocks. rewrite map_map, map_id. apply np_unique_NoDup. }
    revert H. generalize (moved_blocks w F). clear. intros l. induction l as [|b l IH]; intros H; [constructor|].
    inversion H as [|? ? H1 H2]; subst. cbn. destruct (snd b); [apply IH; exact H2|]. cbn. constructor; [|apply IH; exact H2].
    intros Hx. apply H1. apply in_map_iff in Hx. destruct Hx as (c & E & Hc). apply filter_In in Hc. apply in_map_iff. exists c. tauto.
  - intros b Hb. apply Hin in Hb. destruct Hb as (H1 & H2 & H3). apply in_ids in H1.
    assert (Hs := series_good F _ HV H1).
    assert (Hg : GoodSeries (snd b)).
    { rewrite H2. apply (rolling_good w _ Hw Hs). destruct (Nat.le_gt_cases w (length (series F (fst b)))); [assumption|].
      exfalso. apply H3. rewrite H2. apply rolling_short; assumption. }
    destruct Hg as (G1 & G2 & G3). assert (0 <= fst b)%Z by (destruct H1 as (r & Hr & <-); apply (vr_ids _ HV r Hr)).
    repeat split; auto.
Qed.

Lemma moved_rows_of w (F : list (row V)) i : ValidRows F -> Occurs F i ->
  rows_of (flatten (moved_blocks w F)) i = series_rows i (rolling mean w (series F i)).
Proof.
  intros HV Hi. change i with (fst (i, rolling mean w (series F i))) at 1. rewrite rows_of_flatten; [reflexivity| |].
  - unfold moved_blocks. rewrite map_map, map_id. apply np_unique_NoDup.
  - apply in_map_iff. exists i. split; [reflexivity|]. apply in_ids. exact Hi.
Qed.

End Moving.
