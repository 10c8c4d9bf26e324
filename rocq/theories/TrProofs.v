(** * Proofs about feature transformations. *)

From Coq Require Import String Ascii DecimalString DecimalNat.
From Coq Require Import List ZArith Bool Arith Lia Sorted Permutation.
Import ListNotations.
From Coq Require Import ZifyBool ZifyNat.
From Verif Require Import Np NpFacts TscModel TscSpec TrModel TrSpec.
Open Scope nat_scope.

Lemma names_eqb_eq a : forall b, names_eqb a b = true <-> a = b.
Proof.
  induction a as [|x a IH]; intros [|y b]; cbn; try (split; [discriminate|discriminate]); [tauto|].
  rewrite andb_true_iff, IH, String.eqb_eq. split; [intros [-> ->]; reflexivity|intros E; injection E; auto].
Qed.

Lemma names_eqb_refl a : names_eqb a a = true.
Proof. apply names_eqb_eq. reflexivity. Qed.

Lemma mem_in x l : mem x l = true <-> In x l.
Proof.
  unfold mem. rewrite existsb_exists. split; [intros (y & H & E); apply String.eqb_eq in E; subst; exact H|].
  intros H. exists x. split; [exact H|apply String.eqb_refl].
Qed.

Lemma append_eq_nil a b : (a ++ b)%string = a -> b = ""%string.
Proof. induction a as [|c a IH]; cbn; intros E; [exact E|]. injection E as E. auto. Qed.

Section Identity.
Context {I V : Type}.
Variable one : V.

Definition suffixed (cols : list (string * list V)) := map (fun c => ((fst c ++ "_id")%string, snd c)) cols.

Lemma suffixed_names cols : map fst (suffixed cols) = map (fun c => (c ++ "_id")%string) (map fst cols).
Proof. unfold suffixed. rewrite !map_map. reflexivity. Qed.

Lemma id_transform_ok (ic rf : bool) (X : frame I V) :
  (ic = true -> ~ In "const"%string (id_names false rf (names X))) ->
  id_transform one ic rf (names X) X =
  Ok (Frame (findex X) ((if rf then suffixed (fcols X) else fcols X) ++
                        (if ic then [("const"%string, repeat one (length (findex X)))] else []))).
Proof.
  intros H. unfold id_transform, validate_transform. rewrite names_eqb_refl. cbn [negb]. f_equal. f_equal.
  fold (suffixed (fcols X)). set (cols := if rf then suffixed (fcols X) else fcols X).
  destruct ic; [|symmetry; apply app_nil_r]. unfold set_column.
  destruct (mem "const" (map fst cols)) eqn:E; [|reflexivity]. exfalso. apply mem_in in E. apply (H eq_refl).
  unfold id_names. unfold cols in E. destruct rf; [rewrite suffixed_names in E|]; exact E.
Qed.

Lemma filter_const (cols : list (string * list V)) l : ~ In "const"%string (map fst cols) ->
  filter (fun c => negb (String.eqb (fst c) "const")) (cols ++ [("const"%string, l)]) = cols.
Proof.
  intros H. rewrite filter_app. cbn. rewrite app_nil_r. induction cols as [|c cols IH]; [reflexivity|]. cbn.
  destruct (String.eqb_spec (fst c) "const") as [E|E]; [exfalso; apply H; left; exact E|]. cbn. f_equal. apply IH.
  intros Hc. apply H. right. exact Hc.
Qed.

Lemma id_names_cols (ic rf : bool) (X : frame I V) :
  map fst ((if rf then suffixed (fcols X) else fcols X) ++ (if ic then [("const"%string, repeat one (length (findex X)))] else [])) =
  id_names ic rf (names X).
Proof.
  rewrite map_app. unfold id_names, names. destruct rf; [rewrite suffixed_names|]; destruct ic; cbn; try rewrite app_nil_r; reflexivity.
Qed.

Lemma id_inverse_ok (ic rf : bool) (X : frame I V) :
  (ic = true -> ~ In "const"%string (id_names false rf (names X))) ->
  forall Y, id_transform one ic rf (names X) X = Ok Y ->
  id_inverse ic rf (names X) (Named Y) = Ok (Named (Frame (findex X) (if rf then suffixed (fcols X) else fcols X))).
Proof.
  intros H Y E. rewrite (id_transform_ok ic rf X H) in E. injection E as <-.
  assert (En := id_names_cols ic rf X). set (cols := _ ++ _) in *.
  unfold id_inverse, validate_inverse. cbn [fcols findex].
  change (names (Frame (findex X) cols)) with (map fst cols). rewrite En, names_eqb_refl, andb_true_r.
  rewrite <- (map_length fst cols), En.
  replace (length (id_names ic rf (names X)) =? id_n_out ic (names X)) with true.
  - cbn [negb]. f_equal. f_equal. subst cols. destruct ic; [|rewrite app_nil_r; reflexivity]. f_equal. apply filter_const.
    intros Hc. apply (H eq_refl). unfold id_names. destruct rf; [rewrite suffixed_names in Hc|]; exact Hc.
  - symmetry. apply Nat.eqb_eq. unfold id_names, id_n_out. destruct ic, rf; rewrite ?app_length, ?map_length; cbn; lia.
Qed.

Lemma id_overwrites (X : frame I V) : In "const"%string (names X) ->
  exists Y, id_transform one true false (names X) X = Ok Y /\ length (fcols Y) = length (fcols X) /\
    (forall col, In ("const"%string, col) (fcols Y) -> col = repeat one (length (findex X))) /\
    id_inverse true false (names X) (Named Y) = Err ValueError.
Proof.
  intros H. unfold id_transform, validate_transform. rewrite names_eqb_refl. cbn [negb].
  unfold set_column. apply mem_in in H. unfold names in H. rewrite H.
  eexists. split; [reflexivity|]. cbn [fcols]. split; [apply map_length|]. split.
  - intros col Hin. apply in_map_iff in Hin. destruct Hin as (c & Ec & Hc). destruct (String.eqb_spec (fst c) "const") as [E|E].
    + injection Ec as <-. reflexivity.
    + exfalso. apply E. rewrite Ec. reflexivity.
  - unfold id_inverse, validate_inverse. cbn [fcols]. rewrite map_length. unfold id_n_out, names. rewrite map_length.
    replace (length (fcols X) =? length (fcols X) + 1) with false by lia. reflexivity.
Qed.

End Identity.

(** ** Names with numbers *)

Lemma uint_chars (d : Decimal.uint) : forall c, In c (list_ascii_of_string (NilEmpty.string_of_uint d)) -> c <> "_"%char.
Proof. induction d; cbn; intros c H; try (destruct H as [<-|H]; [discriminate|]); auto. Qed.

Lemma str_of_nat_inj i j : str_of_nat i = str_of_nat j -> i = j.
Proof.
  unfold str_of_nat. intros E. apply (f_equal NilEmpty.uint_of_string) in E. rewrite !NilEmpty.usu in E. injection E as E.
  apply DecimalNat.Unsigned.to_uint_inj. exact E.
Qed.

Lemma las_app a b : list_ascii_of_string (a ++ b) = list_ascii_of_string a ++ list_ascii_of_string b.
Proof. induction a as [|c a IH]; cbn; [reflexivity|]. rewrite IH. reflexivity. Qed.

Lemma las_inj a b : list_ascii_of_string a = list_ascii_of_string b -> a = b.
Proof. intros E. rewrite <- (string_of_list_ascii_of_string a), <- (string_of_list_ascii_of_string b), E. reflexivity. Qed.

Lemma split_unique {A} (c : A) (u u' a a' : list A) : (forall x, In x u -> x <> c) -> (forall x, In x u' -> x <> c) ->
  u ++ c :: a = u' ++ c :: a' -> u = u' /\ a = a'.
Proof.
  revert u'. induction u as [|x u IH]; intros [|y u'] H H' E; cbn in E.
  - injection E as E. auto.
  - injection E as E1 E2. exfalso. apply (H' y); [left; reflexivity|congruence].
  - injection E as E1 E2. exfalso. apply (H x); [left; reflexivity|congruence].
  - injection E as -> E. destruct (IH u') as [-> ->]; auto; intros z Hz; [apply H|apply H']; right; exact Hz.
Qed.

Lemma lambda_name_inj a b i j : lambda_name a i = lambda_name b j -> a = b /\ i = j.
Proof.
  unfold lambda_name. intros E. apply (f_equal list_ascii_of_string) in E. rewrite !las_app in E.
  apply (f_equal (@rev _)) in E. rewrite !rev_app_distr in E. cbn [list_ascii_of_string rev app] in E. rewrite <- !app_assoc in E.
  set (u := rev (list_ascii_of_string (str_of_nat i))) in *. set (v := rev (list_ascii_of_string (str_of_nat j))) in *.
  assert (Hu : forall x, In x (u ++ ["a"; "d"; "b"; "m"; "a"; "l"]%char) -> x <> "_"%char).
  { intros x Hx. apply in_app_or in Hx. destruct Hx as [Hx|Hx]; [apply in_rev in Hx; apply (uint_chars _ _ Hx)|].
    cbn in Hx. intuition (subst; discriminate). }
  assert (Hv : forall x, In x (v ++ ["a"; "d"; "b"; "m"; "a"; "l"]%char) -> x <> "_"%char).
  { intros x Hx. apply in_app_or in Hx. destruct Hx as [Hx|Hx]; [apply in_rev in Hx; apply (uint_chars _ _ Hx)|].
    cbn in Hx. intuition (subst; discriminate). }
  destruct (split_unique "_"%char (u ++ ["a"; "d"; "b"; "m"; "a"; "l"]%char) (v ++ ["a"; "d"; "b"; "m"; "a"; "l"]%char)
              (rev (list_ascii_of_string a)) (rev (list_ascii_of_string b)) Hu Hv) as [E1 E2].
  { rewrite <- !app_assoc. exact E. }
  apply app_inv_tail in E1. unfold u, v in E1. apply (f_equal (@rev _)) in E1, E2. rewrite !rev_involutive in E1, E2.
  split; [apply las_inj; exact E2|]. apply str_of_nat_inj, las_inj, E1.
Qed.

Section Lambdas.
Context {I V : Type}.

Lemma in_enumerate_from {A} (l : list A) : forall k i x, In (i, x) (combine (seq k (length l)) l) <-> k <= i /\ nth_error l (i - k) = Some x.
Proof.
  induction l as [|a l IH]; intros k i x; cbn [length seq combine].
  - split; [intros []|]. intros [_ E]. destruct (i - k); discriminate.
  - cbn [In]. rewrite IH. split.
    + intros [E|[H E]]; [injection E as -> ->; rewrite Nat.sub_diag; cbn; auto|].
      replace (i - k) with (S (i - S k)) by lia. cbn. split; [lia|exact E].
    + intros [H E]. destruct (Nat.eq_dec i k) as [->|Hne]; [rewrite Nat.sub_diag in E; cbn in E; left; congruence|].
      right. split; [lia|]. replace (i - k) with (S (i - S k)) in E by lia. exact E.
Qed.

Lemma in_enumerate {A} (l : list A) i x : In (i, x) (enumerate l) <-> nth_error l i = Some x.
Proof. unfold enumerate. rewrite in_enumerate_from, Nat.sub_0_r. split; [tauto|]. intros E. split; [lia|exact E]. Qed.

Lemma enumerate_fst {A} (l : list A) : map fst (enumerate l) = seq 0 (length l).
Proof. unfold enumerate. generalize 0. induction l as [|a l IH]; intros k; cbn; [reflexivity|]. rewrite IH. reflexivity. Qed.

Lemma nodup_names (idx : list nat) (l : list string) : NoDup idx -> NoDup l ->
  NoDup (flat_map (fun i => map (fun c => lambda_name c i) l) idx).
Proof.
  intros H1 H2. induction idx as [|i idx IH]; [constructor|]. inversion H1 as [|? ? Hn H1']; subst. cbn.
  assert (Hm : NoDup (map (fun c => lambda_name c i) l)).
  { apply FinFun.Injective_map_NoDup; [|exact H2]. intros a b E. apply lambda_name_inj in E. tauto. }
  specialize (IH H1'). revert Hm IH. clear H1' H2.
  assert (Hd : forall x, In x (map (fun c => lambda_name c i) l) -> ~ In x (flat_map (fun i => map (fun c => lambda_name c i) l) idx)).
  { intros x Hx Hy. apply in_map_iff in Hx. destruct Hx as (a & <- & _). apply in_flat_map in Hy. destruct Hy as (j & Hj & Hy).
    apply in_map_iff in Hy. destruct Hy as (b & E & _). apply lambda_name_inj in E. destruct E as [_ ->]. contradiction. }
  revert Hd. generalize (map (fun c => lambda_name c i) l). intros m Hd Hm IH.
  induction m as [|x m IHm]; [exact IH|]. inversion Hm as [|? ? Hx Hm']; subst. cbn. constructor.
  - intros Hin. apply in_app_or in Hin. destruct Hin as [Hin|Hin]; [contradiction|]. apply (Hd x); [left; reflexivity|exact Hin].
  - apply IHm; auto. intros y Hy. apply Hd. right. exact Hy.
Qed.

Lemma lam_columns (lambdas : list (list V -> list V)) (X : frame I V) Y : lam_transform lambdas (names X) X = Ok Y ->
  findex Y = findex X /\
  names Y = flat_map (fun i => map (fun c => lambda_name c i) (names X)) (seq 0 (length lambdas)) /\
  (forall name col, In (name, col) (fcols Y) <->
     exists i f c x, nth_error lambdas i = Some f /\ In (c, x) (fcols X) /\ name = lambda_name c i /\ col = f x).
Proof.
  unfold lam_transform, validate_transform. rewrite names_eqb_refl. cbn [negb]. intros E. injection E as <-. cbn [findex fcols].
  split; [reflexivity|]. split.
  - unfold names. cbn [fcols]. rewrite <- (enumerate_fst lambdas). generalize (enumerate lambdas). intros l.
    induction l as [|[i f] l IH]; [reflexivity|]. cbn [flat_map map fst snd]. rewrite map_app, IH. f_equal. rewrite !map_map. reflexivity.
  - intros name col. rewrite in_flat_map. split.
    + intros ([i f] & Hp & Hc). apply in_enumerate in Hp. apply in_map_iff in Hc. destruct Hc as ([c x] & Ec & Hc).
      cbn [fst snd] in Ec. injection Ec as <- <-. exists i, f, c, x. auto.
    + intros (i & f & c & x & Hf & Hc & -> & ->). exists (i, f). split; [apply in_enumerate; exact Hf|].
      apply in_map_iff. exists (c, x). auto.
Qed.

End Lambdas.
