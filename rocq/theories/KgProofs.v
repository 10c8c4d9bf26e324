(** * Lemmas for C102. *)

From Coq Require Import List ZArith Bool Arith Lia.
From Verif Require Import Np NpFacts KgModel KgSpec.
Import ListNotations.
Open Scope nat_scope.

(** ** Lists in blocks *)

Lemma nth_concat_block {X} (ls : list (list X)) c d : Forall (fun l => length l = c) ls ->
  forall i k, k < c -> nth (i * c + k) (concat ls) d = nth k (nth i ls []) d.
Proof.
  induction 1 as [|l ls Hl Hls IH]; intros i k Hk.
  - simpl. destruct (i * c + k), i, k; reflexivity.
  - destruct i as [|i]; simpl concat.
    + rewrite app_nth1 by (simpl; lia). reflexivity.
    + rewrite app_nth2 by (simpl; lia). change (nth (S i) (l :: ls) []) with (nth i ls []). rewrite <- (IH i k Hk). f_equal. simpl; lia.
Qed.

Lemma concat_block_length {X} (ls : list (list X)) c : Forall (fun l => length l = c) ls ->
  length (concat ls) = length ls * c.
Proof. induction 1 as [|l ls Hl Hls IH]; simpl; [reflexivity|]. rewrite app_length, Hl, IH. reflexivity. Qed.

Lemma nth_firstn {X} (l : list X) n k d : k < n -> nth k (firstn n l) d = nth k l d.
Proof.
  revert n k. induction l as [|x l IH]; intros [|n] [|k] Hk; simpl; try lia; try reflexivity.
  apply IH. lia.
Qed.

Lemma nth_skipn {X} (l : list X) n k d : nth k (skipn n l) d = nth (n + k) l d.
Proof.
  revert n. induction l as [|x l IH]; intros [|n]; simpl; try reflexivity; [now destruct k|apply IH].
Qed.

Lemma reshape_length {X} r k (l : list X) : length (reshape r k l) = r.
Proof. revert l. induction r as [|r IH]; intros l; simpl; [reflexivity|]. now rewrite IH. Qed.

Lemma nth_reshape {X} r k (l : list X) d i j : i < r -> j < k ->
  nth j (nth i (reshape r k l) []) d = nth (i * k + j) l d.
Proof.
  revert l i. induction r as [|r IH]; intros l i Hi Hj; [lia|].
  destruct i as [|i]; simpl.
  - now apply nth_firstn.
  - rewrite IH by lia. rewrite nth_skipn. f_equal. lia.
Qed.

Lemma reshape_rows {X} r k (l : list X) : length l = r * k -> Forall (fun x => length x = k) (reshape r k l).
Proof.
  revert l. induction r as [|r IH]; intros l Hl; simpl; constructor.
  - rewrite firstn_length. simpl in Hl. lia.
  - apply IH. rewrite skipn_length. simpl in Hl. lia.
Qed.

Lemma nth_error_enum {X} (f : nat * X -> X) (l : list X) : forall s i,
  nth_error (map f (combine (seq s (length l)) l)) i = option_map (fun x => f (s + i, x)) (nth_error l i).
Proof.
  induction l as [|x l IH]; intros s [|i]; simpl; try reflexivity.
  - now rewrite Nat.add_0_r.
  - rewrite IH. now replace (S s + i) with (s + S i) by lia.
Qed.

Lemma nth_combine2 {X Y} (l : list X) (m : list Y) i d e : length l = length m ->
  nth i (combine l m) (d, e) = (nth i l d, nth i m e).
Proof. apply combine_nth. Qed.

Section Objects.
Context {V T : Type}.
Variable zero : V.
Notation object := (object V T).

(** ** Objects *)

Lemma transposed_nth r c (d : list V) i j : i < r -> j < c ->
  nth (j * r + i) (transposed V zero r c d) zero = nth (i * c + j) d zero.
Proof.
  intros Hi Hj. unfold transposed. rewrite flat_map_concat_map.
  rewrite (nth_concat_block _ r); [|apply Forall_forall; intros x Hx|assumption].
  - rewrite nth_indep with (d' := map (fun i => nth (i * c + 0) d zero) (seq 0 r))
      by (rewrite map_length, seq_length; assumption).
    rewrite (map_nth (fun j => map (fun i => nth (i * c + j) d zero) (seq 0 r))), seq_nth by assumption.
    rewrite nth_indep with (d' := nth (0 * c + (0 + j)) d zero) by (rewrite map_length, seq_length; assumption).
    rewrite (map_nth (fun i => nth (i * c + (0 + j)) d zero)), seq_nth by assumption. reflexivity.
  - apply in_map_iff in Hx as (y & <- & _). now rewrite map_length, seq_length.
Qed.

Lemma transposed_length r c (d : list V) : length (transposed V zero r c d) = c * r.
Proof.
  unfold transposed. rewrite flat_map_concat_map, (concat_block_length _ r).
  - now rewrite map_length, seq_length.
  - apply Forall_forall. intros x Hx. apply in_map_iff in Hx as (y & <- & _). now rewrite map_length, seq_length.
Qed.

Lemma as_matrix_spec (o : object) r c d : Wf o -> as_matrix V T zero o = (r, c, d) ->
  dims o = (r, c) /\ length d = r * c /\
  forall i j, i < r -> j < c -> nth (i * c + j) d zero = cell zero o i j.
Proof.
  destruct o as [[n|a b] d0|a b t d0]; simpl; intros Hw [= <- <- <-]; (split; [reflexivity|]).
  - split; [lia|]. intros i j Hi Hj. f_equal. lia.
  - split; [assumption|]. reflexivity.
  - split; [apply transposed_length|]. intros i j Hi Hj. now apply transposed_nth.
Qed.

Lemma as_matrix_dims (o : object) : fst (as_matrix V T zero o) = dims o.
Proof. now destruct o as [[n|a b] d0|a b t d0]. Qed.

(** ** Reference with the initial state *)

Lemma set_first_spec n h (xr x : list V) : length xr = n * (h + 1) -> length x = n ->
  length (set_first V h xr x) = n * (h + 1) /\
  forall i k, i < n -> k <= h ->
    nth (i * (h + 1) + k) (set_first V h xr x) zero
    = if k =? 0 then nth i x zero else nth (i * (h + 1) + k) xr zero.
Proof.
  intros Hr Hx. unfold set_first. rewrite Hx.
  set (rows := reshape n (h + 1) xr).
  assert (Hrows : length rows = n) by apply reshape_length.
  assert (Hf : Forall (fun l => length l = h + 1)
                 (map (fun p : V * list V => fst p :: tl (snd p)) (combine x rows))).
  { apply Forall_forall. intros l Hl. apply in_map_iff in Hl as ([a b] & <- & Hi). simpl.
    apply in_combine_r in Hi.
    pose proof (proj1 (Forall_forall _ _) (reshape_rows n (h + 1) xr Hr) b Hi) as Hb.
    destruct b; simpl in *; lia. }
  split.
  - rewrite (concat_block_length _ (h + 1) Hf), map_length, combine_length. lia.
  - intros i k Hi Hk. rewrite (nth_concat_block _ (h + 1) zero Hf) by lia.
    rewrite nth_indep with (d' := (fun p : V * list V => fst p :: tl (snd p)) (zero, []))
      by (rewrite map_length, combine_length; lia).
    rewrite (map_nth (fun p : V * list V => fst p :: tl (snd p))), combine_nth by lia.
    cbn [fst snd]. destruct k as [|k]; [reflexivity|]. simpl Nat.eqb. cbn iota.
    rewrite <- (nth_reshape n (h + 1) xr zero i (S k)) by lia. fold rows.
    destruct (nth i rows []) as [|y l]; [now destruct k|reflexivity].
Qed.

Lemma signal_spec m h (u : list V) U : as_signal V zero m h u = Ok U ->
  length u = m * (h + 1) /\ Signal zero m h u U.
Proof.
  unfold as_signal. destruct (length u =? m * (h + 1)) eqn:E; [|discriminate].
  apply Nat.eqb_eq in E. intros [= <-]. split; [assumption|]. split; [now rewrite map_length, seq_length|].
  intros k Hk.
  rewrite nth_indep with (d' := (fun k => map (fun row => nth k row zero) (reshape m (h + 1) u)) 0)
    by (rewrite map_length, seq_length; assumption).
  rewrite (map_nth (fun k => map (fun row => nth k row zero) (reshape m (h + 1) u))), seq_nth by assumption.
  split; [now rewrite map_length, reshape_length|].
  intros i Hi. rewrite nth_indep with (d' := nth (0 + k) [] zero) by (rewrite map_length, reshape_length; lia).
  rewrite (map_nth (fun row => nth (0 + k) row zero)). apply nth_reshape; lia.
Qed.

Lemma signal_defined m h (u : list V) : length u = m * (h + 1) -> exists U, as_signal V zero m h u = Ok U.
Proof. intros E. unfold as_signal. rewrite E, Nat.eqb_refl. eauto. Qed.

End Objects.

Section Proofs.
Context {V T L A M : Type}.
Variable zero : V.
Variable eqb : V -> V -> bool.
Variable lift : list V -> result L.
Variable objective : L -> list V -> list T -> list V -> result A.
Variable default_method : M.
Variable minimize : M -> list (V * V) -> list V -> search V A.

Notation object := (object V T).
Notation heap := (list object).

(** ** The cache *)

Notation entries := (entries V T zero).
Notation lifted_state := (lifted_state V T L zero eqb lift).
Notation run := (run V T L A zero eqb lift objective).

Hypothesis eqb_sound : forall x y, eqb x y = true -> x = y.

Lemma pointwise_equal (l m : list V) : length l = length m ->
  existsb (fun p => negb (eqb (fst p) (snd p))) (combine l m) = false -> l = m.
Proof.
  revert m. induction l as [|x l IH]; intros [|y m]; simpl; try discriminate; [reflexivity|].
  intros [= E] H. apply orb_false_iff in H as [H1 H2].
  apply negb_false_iff, eqb_sound in H1. f_equal; auto.
Qed.

(** What a cache is worth: [n] entries. *)
Definition Valid (n : nat) (h : heap) (c : cache L) : Prop :=
  match c with
  | (None, None) => True
  | (Some l, Some z) => length (entries h l) = n /\ lift (entries h l) = Ok z
  | _ => False
  end.

Lemma lifted_valid n h c l c' r : 0 < n -> length (entries h l) = n -> Valid n h c ->
  lifted_state h c l = (c', r) ->
  r = lift (entries h l) /\ Valid n h c' /\ (c' = c \/ fst c' = Some l).
Proof.
  intros Hn Hl Hv. unfold KgModel.lifted_state.
  destruct (differs V T zero eqb h (fst c) (entries h l)) eqn:E.
  - destruct (lift (entries h l)) as [z|e] eqn:Ez; intros [= <- <-].
    + split; [reflexivity|]. split; [|now right]. simpl. split; assumption.
    + split; [reflexivity|]. split; [assumption|now left].
  - intros [= <- <-]. split; [|split; [assumption|now left]].
    destruct c as [[b|] [z|]]; simpl in *; try contradiction.
    + destruct Hv as [H1 H2]. rewrite <- H2. f_equal. apply pointwise_equal; [congruence|assumption].
    + destruct (entries h l); simpl in *; [lia|discriminate].
Qed.

Lemma run_valid n h l x ts s : 0 < n -> length (entries h l) = n -> forall c c' r, Valid n h c ->
  run h l x ts c s = (c', r) ->
  r = interact s (fun u => bind (lift (entries h l)) (fun z => objective z (entries h x) ts u)) /\
  Valid n h c' /\ (c' = c \/ fst c' = Some l).
Proof.
  intros Hn Hl. induction s as [u|u next IH]; intros c c' r Hv; simpl.
  - intros [= <- <-]. auto.
  - destruct (lifted_state h c l) as [c1 z] eqn:E.
    destruct (lifted_valid _ _ _ _ _ _ Hn Hl Hv E) as (-> & Hv1 & Hc1).
    destruct (bind (lift (entries h l)) (fun z => objective z (entries h x) ts u)) as [a|e] eqn:Ea.
    + intros H. destruct (IH a _ _ _ Hv1 H) as (-> & Hv' & Hc'). split; [reflexivity|]. split; [assumption|].
      destruct Hc1 as [-> |Hc1]; [assumption|]. destruct Hc' as [-> |]; auto.
    + intros [= <- <-]. auto.
Qed.

(** ** Heaps *)

Lemma entries_app h h' l : l < length h -> entries (h ++ h') l = entries h l.
Proof. intros Hl. unfold KgModel.entries. now rewrite nth_error_app1. Qed.

Lemma valid_app n h h' c : Valid n h c -> (forall l, fst c = Some l -> l < length h) -> Valid n (h ++ h') c.
Proof.
  destruct c as [[l|] [z|]]; simpl; auto. intros [H1 H2] Hl. specialize (Hl l eq_refl).
  now rewrite entries_app.
Qed.

Notation generate := (generate_control_signal V T L A M zero eqb lift objective default_method minimize).
Notation act := (act V T L A M zero eqb lift objective default_method minimize).
Notation history := (history V T L A M zero eqb lift objective default_method minimize).

(** Heap, cache and the initial conditions of earlier calls. *)
Definition Inv (n : nat) (used : list nat) (w : heap * cache L) : Prop :=
  Forall Wf (fst w) /\ Valid n (fst w) (snd w) /\
  (forall l, fst (snd w) = Some l -> In l used /\ l < length (fst w)).

Lemma inv_mono n used used' w : incl used used' -> Inv n used w -> Inv n used' w.
Proof. intros H (H1 & H2 & H3). repeat split; auto; [apply H, (H3 l H0)|apply (H3 l H0)]. Qed.

(** A call on values. *)
Definition times_of (o : object) (ts : option (list T)) : option (list T) :=
  match ts with
  | Some ts => Some ts
  | None => match o with Frame _ _ _ _ t _ => t | Ndarray _ _ _ _ => None end
  end.

Lemma generate_spec k used h c ic ref ts m h' c' r : 0 < state_size V k ->
  Inv (state_size V k) used (h, c) -> generate k h c ic ref ts m = (h', c', r) ->
  (exists extra, h' = h ++ extra) /\ Inv (state_size V k) (ic :: used) (h', c') /\
  forall o0 o, nth_error h ic = Some o0 -> nth_error h ref = Some o ->
    match times_of o ts with
    | None => r = Err TypeError
    | Some t =>
      (length t <> horizon V k + 1 \/ dims o <> (state_size V k, horizon V k + 1) \/ dims o0 <> (state_size V k, 1))
        /\ r = Err ValueError \/
      length t = horizon V k + 1 /\ dims o = (state_size V k, horizon V k + 1) /\ dims o0 = (state_size V k, 1) /\
      exists x xr, State zero o0 (state_size V k) x /\
        Target zero o0 o (state_size V k) (horizon V k) xr /\
        r = bind (interact (minimize (match m with Some m => m | None => default_method end) (bounds V k)
                              (repeat zero (input_size V k * (horizon V k + 1))))
                    (fun u => bind (lift x) (fun z => objective z xr t u)))
              (as_signal V zero (input_size V k) (horizon V k))
    end.
Proof.
  intros Hn Hinv. pose proof Hinv as (Hw & Hv & Hu). cbn [fst snd] in *.
  assert (Hsame : (exists extra, h = h ++ extra) /\ Inv (state_size V k) (ic :: used) (h, c)).
  { split; [exists []; now rewrite app_nil_r|]. eapply inv_mono; [|exact Hinv]. intros y Hy. now right. }
  destruct Hsame as [Hs1 Hs2].
  unfold generate_control_signal.
  destruct (nth_error h ic) as [o0|] eqn:E0; [|intros [= <- <- <-]; split; [assumption|]; split; [assumption|]; intros ? ? [=]].
  destruct (nth_error h ref) as [o|] eqn:E1; [|intros [= <- <- <-]; split; [assumption|]; split; [assumption|]; intros ? ? _ [=]].
  fold (times_of o ts).
  destruct (times_of o ts) as [t|] eqn:Et.
  2:{ intros [= <- <- <-]. split; [assumption|]. split; [assumption|]. intros ? ? [= <-] [= <-]. now rewrite Et. }
  destruct (length t =? horizon V k + 1) eqn:El; cbn [negb].
  2:{ apply Nat.eqb_neq in El. intros [= <- <- <-]. split; [assumption|]. split; [assumption|].
      intros ? ? [= <-] [= <-]. rewrite Et. left. auto. }
  apply Nat.eqb_eq in El.
  destruct (as_matrix V T zero o) as [[r1 s1] xref] eqn:Eo.
  assert (Hwo : Wf o) by (eapply (proj1 (Forall_forall _ _) Hw), nth_error_In; eassumption).
  assert (Hwo0 : Wf o0) by (eapply (proj1 (Forall_forall _ _) Hw), nth_error_In; eassumption).
  destruct (as_matrix_spec zero _ _ _ _ Hwo Eo) as (Ho1 & Ho2 & Ho3).
  destruct ((r1 =? state_size V k) && (s1 =? horizon V k + 1)) eqn:E2; cbn [negb].
  2:{ intros [= <- <- <-]. split; [assumption|]. split; [assumption|]. intros ? ? [= <-] [= <-]. rewrite Et. left.
      split; [|reflexivity]. right; left. rewrite Ho1. intros [= -> ->]. now rewrite !Nat.eqb_refl in E2. }
  apply andb_true_iff in E2 as [E2 E3]. apply Nat.eqb_eq in E2, E3. subst r1 s1.
  destruct (as_matrix V T zero o0) as [[r0 s0] x] eqn:Ex.
  destruct (as_matrix_spec zero _ _ _ _ Hwo0 Ex) as (Hx1 & Hx2 & Hx3).
  destruct ((r0 =? state_size V k) && (s0 =? 1)) eqn:E4; cbn [negb].
  2:{ intros [= <- <- <-]. split; [assumption|]. split; [assumption|]. intros ? ? [= <-] [= <-]. rewrite Et. left.
      split; [|reflexivity]. right; right. rewrite Hx1. intros [= -> ->]. now rewrite !Nat.eqb_refl in E4. }
  apply andb_true_iff in E4 as [E4 E5]. apply Nat.eqb_eq in E4, E5. subst r0 s0.
  rewrite Nat.mul_1_r in Hx2.
  set (n := state_size V k) in *. set (hz := horizon V k) in *.
  set (xr := set_first V hz xref x).
  set (h1 := h ++ [Ndarray V T (D2 n (hz + 1)) xr]).
  assert (Hic : ic < length h) by (apply nth_error_Some; congruence).
  assert (Ent : entries h1 ic = x).
  { unfold h1. rewrite entries_app by assumption. unfold KgModel.entries. now rewrite E0, Ex. }
  assert (Enr : entries h1 (length h) = xr).
  { unfold KgModel.entries, h1. rewrite nth_error_app2, Nat.sub_diag by lia. reflexivity. }
  destruct (set_first_spec zero n hz xref x Ho2 Hx2) as [Hr1 Hr2]. fold xr in Hr1, Hr2.
  destruct (run h1 ic (length h) t c
              (minimize match m with Some m0 => m0 | None => default_method end (bounds V k)
                 (repeat zero (input_size V k * (hz + 1))))) as [c1 u] eqn:Er.
  intros [= <- <- <-].
  assert (Hv1 : Valid n h1 c) by (apply valid_app; [assumption|intros l Hl; apply (Hu l Hl)]).
  destruct (run_valid n h1 ic (length h) t _ Hn ltac:(congruence) _ _ _ Hv1 Er) as (-> & Hv2 & Hc).
  split; [eexists; reflexivity|]. split.
  - split; [|split; [exact Hv2|]]; cbn [fst snd].
    + apply Forall_app. split; [assumption|]. constructor; [exact Hr1|constructor].
    + intros l Hl. unfold h1. rewrite app_length. simpl. destruct Hc as [-> |Hc].
      * destruct (Hu l Hl). split; [now right|lia].
      * rewrite Hc in Hl. injection Hl as ->. split; [now left|lia].
  - intros ? ? [= <-] [= <-]. rewrite Et. right. split; [assumption|]. split; [assumption|]. split; [assumption|].
    exists x, xr. split; [|split].
    + split; [assumption|]. intros i Hi. rewrite <- Hx3 by lia. f_equal. lia.
    + split; [exact Hr1|]. intros i j Hi Hj. rewrite Hr2 by assumption. destruct j as [|j]; simpl Nat.eqb; cbn iota.
      * rewrite <- Hx3 by lia. f_equal. lia.
      * apply Ho3; lia.
    + now rewrite Ent, Enr.
Qed.

Lemma overwritten_wf (o : object) d : Wf o -> Wf (overwritten V T o d).
Proof.
  destruct o as [[n|a b] d0|a b t d0]; simpl; destruct (length d =? length d0) eqn:E; simpl; auto;
    apply Nat.eqb_eq in E; congruence.
Qed.

Lemma overwrite_nth (h : heap) l d i :
  nth_error (map (fun p => if fst p =? l then overwritten V T (snd p) d else snd p) (enumerate h)) i
  = option_map (fun o => if i =? l then overwritten V T o d else o) (nth_error h i).
Proof. unfold enumerate. now rewrite nth_error_enum. Qed.

Lemma overwrite_length (h : heap) l d :
  length (map (fun p => if fst p =? l then overwritten V T (snd p) d else snd p) (enumerate h)) = length h.
Proof. unfold enumerate. rewrite map_length, combine_length, seq_length. lia. Qed.

Lemma act_inv k used w a : 0 < state_size V k -> Inv (state_size V k) used w ->
  Kept used [a] -> Inv (state_size V k) (match a with Control _ _ _ ic _ _ _ => ic :: used | _ => used end) (act k w a).
Proof.
  destruct w as [h c]. intros Hn Hi. pose proof Hi as (H1 & H2 & H3). cbn [fst snd] in *.
  destruct a as [o|l d|ic ref ts m]; simpl; intros Ha.
  - destruct Ha as [Ha _]. split; [|split]; cbn [fst snd].
    + apply Forall_app. auto.
    + apply valid_app; [assumption|]. intros l Hl. apply (H3 l Hl).
    + intros l Hl. rewrite app_length. destruct (H3 l Hl). split; [assumption|lia].
  - destruct Ha as [Ha _]. split; [|split]; cbn [fst snd].
    + apply Forall_forall. intros o Ho. apply In_nth_error in Ho as [i Hi'].
      rewrite overwrite_nth in Hi'. destruct (nth_error h i) as [o1|] eqn:E; [|discriminate]. simpl in Hi'.
      injection Hi' as <-. apply nth_error_In in E. apply (proj1 (Forall_forall _ _) H1) in E.
      destruct (i =? l); [now apply overwritten_wf|assumption].
    + destruct c as [[b|] [z|]]; simpl in *; auto.
      unfold KgModel.entries in *. rewrite overwrite_nth.
      destruct (H3 b eq_refl) as [Hb _]. destruct (b =? l) eqn:E; [apply Nat.eqb_eq in E; subst; contradiction|].
      destruct (nth_error h b); exact H2.
    + intros b Hb. rewrite overwrite_length. apply (H3 b Hb).
  - destruct (generate k h c ic ref ts m) as [[h' c'] r] eqn:E.
    now apply (generate_spec _ _ _ _ _ _ _ _ _ _ _ Hn Hi E).
Qed.

Lemma history_inv_from k : 0 < state_size V k -> forall l used w,
  Inv (state_size V k) used w -> Kept used l ->
  exists used', Inv (state_size V k) used' (fold_left (act k) l w).
Proof.
  intros Hn. induction l as [|a l IH]; intros used w Hi Hk; [now exists used|].
  simpl fold_left. destruct a as [o|x d|ic ref ts m].
  - destruct Hk as [Hk1 Hk2]. apply (IH used); [|assumption].
    apply (act_inv k used w (Create _ _ _ o) Hn Hi). now split.
  - destruct Hk as [Hk1 Hk2]. apply (IH used); [|assumption].
    apply (act_inv k used w (Overwrite _ _ _ x d) Hn Hi). now split.
  - apply (IH (ic :: used)); [|assumption].
    now apply (act_inv k used w (Control _ _ _ ic ref ts m) Hn Hi).
Qed.

Lemma history_inv k l : 0 < state_size V k -> Kept [] l -> exists used, Inv (state_size V k) used (history k l).
Proof.
  intros Hn Hk. apply (history_inv_from k Hn l []); [|assumption].
  split; [constructor|]. split; [exact I|]. discriminate.
Qed.

(** ** Calls do not change the objects of the caller *)

Lemma generate_heap k h c ic ref ts m h' c' r : generate k h c ic ref ts m = (h', c', r) ->
  exists extra, h' = h ++ extra.
Proof.
  unfold generate_control_signal. intros H.
  assert (Hs : exists extra : heap, h = h ++ extra) by (exists []; now rewrite app_nil_r).
  destruct (nth_error h ic) as [o0|]; [|now injection H as <- <- <-].
  destruct (nth_error h ref) as [o|]; [|now injection H as <- <- <-].
  match type of H with (match ?x with Some _ => _ | None => _ end) = _ => destruct x as [t|] end;
    [|now injection H as <- <- <-].
  destruct (negb (length t =? horizon V k + 1)); [now injection H as <- <- <-|].
  destruct (as_matrix V T zero o) as [[r1 s1] xref].
  match type of H with (if ?x then _ else _) = _ => destruct x end; [now injection H as <- <- <-|].
  destruct (as_matrix V T zero o0) as [[r0 s0] x].
  match type of H with (if ?x then _ else _) = _ => destruct x end; [now injection H as <- <- <-|].
  match type of H with (let (_, _) := ?x in _) = _ => destruct x as [c1 u] end.
  injection H as <- <- <-. eexists. reflexivity.
Qed.

End Proofs.
