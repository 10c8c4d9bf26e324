(** * C65-C70: feature transformations.

    [names_in] are the feature names of the data used in [fit]; data with other names is
    rejected. *)

From Coq Require Import String.
From Coq Require Import List ZArith Bool Arith Lia Permutation.
Import ListNotations.
From Coq Require Import ZifyBool ZifyNat.
From Verif Require Import Np NpFacts TscModel TscSpec TscBlocks TscProofs TscDt TscRegular TrModel TrSpec TrProofs TrPoly.
Open Scope nat_scope.

Section Props.
Context {I V : Type}.
Variable one : V.

(** ** C65: TSCIdentity *)

(** [transform] keeps the row index and all columns (with the suffix "_id" if [rename_features] is
    set) and appends a column of ones if [include_const] is set. *)
Theorem C65_transform (include_const rename_features : bool) (X : frame I V) :
  (include_const = true -> rename_features = false -> ~ In "const"%string (names X)) ->
  id_transform one include_const rename_features (names X) X =
  Ok (Frame (findex X)
        (map (fun c => if rename_features then ((fst c ++ "_id")%string, snd c) else c) (fcols X) ++
         (if include_const then [("const"%string, repeat one (length (findex X)))] else []))).
Proof.
  intros H. rewrite id_transform_ok.
  - f_equal. f_equal. f_equal. destruct rename_features; [reflexivity|]. symmetry. apply map_id.
  - intros Hc. unfold id_names. destruct rename_features; [|apply H; auto]. intros Hin. apply in_map_iff in Hin.
    destruct Hin as (c & E & _). clear -E. apply (f_equal list_ascii_of_string) in E. rewrite las_app in E.
    apply (f_equal (@rev _)) in E. rewrite rev_app_distr in E. discriminate E.
Qed.

(** Without renaming, [inverse_transform] recovers the frame exactly. *)
Theorem C65_roundtrip (include_const : bool) (X : frame I V) :
  (include_const = true -> ~ In "const"%string (names X)) ->
  exists Y, id_transform one include_const false (names X) X = Ok Y /\
            id_inverse include_const false (names X) (Named Y) = Ok (Named X).
Proof.
  intros H. eexists. split; [apply id_transform_ok; exact H|].
  etransitivity; [exact (id_inverse_ok one include_const false X H _ (id_transform_ok one include_const false X H))|]. destruct X. reflexivity.
Qed.

(** With renaming, [inverse_transform] returns the values under other names; for arrays with
    [include_const] it always fails; a feature named "const" is overwritten by [include_const] and
    the inverse fails. *)
Theorem C65_rename_refuted (include_const : bool) (X : frame I V) Y : fcols X <> [] ->
  id_transform one include_const true (names X) X = Ok Y ->
  exists Z, id_inverse include_const true (names X) (Named Y) = Ok (Named Z) /\ Z <> X.
Proof.
  intros Hne E. eexists. split.
  - apply (id_inverse_ok one include_const true X); [|exact E]. intros _ Hin. unfold id_names in Hin. apply in_map_iff in Hin.
    destruct Hin as (c & Ec & _). apply (f_equal list_ascii_of_string) in Ec. rewrite las_app in Ec.
    apply (f_equal (@rev _)) in Ec. rewrite rev_app_distr in Ec. discriminate Ec.
  - destruct X as [idx [|[n v] cols]]; [contradiction|]. cbn. intros Ez. injection Ez as Ez _. apply append_eq_nil in Ez. discriminate.
Qed.

Theorem C65_array_refuted rename_features names_in (x : list (list V)) : length x = S (length names_in) ->
  @id_inverse I V true rename_features names_in (Array x) = Err TypeError.
Proof. intros H. unfold id_inverse, id_n_out. rewrite H. replace (S (length names_in) =? length names_in + 1) with true by lia. reflexivity. Qed.

Theorem C65_const_refuted (X : frame I V) : In "const"%string (names X) ->
  exists Y, id_transform one true false (names X) X = Ok Y /\
    (forall col, In ("const"%string, col) (fcols Y) -> col = repeat one (length (findex X))) /\
    id_inverse true false (names X) (Named Y) = Err ValueError.
Proof. intros H. destruct (id_overwrites one X H) as (Y & H1 & _ & H2 & H3). eauto. Qed.

(** ** C66: get_feature_names_out *)

(** The names returned by [get_feature_names_out] are the columns of the transformed frame. *)
Theorem C66_identity (include_const rename_features : bool) (X Y : frame I V) :
  (include_const = true -> ~ In "const"%string (names X)) ->
  id_transform one include_const rename_features (names X) X = Ok Y -> names Y = id_names include_const rename_features (names X).
Proof.
  intros H. rewrite C65_transform by auto. intros E. injection E as <-. rewrite <- (id_names_cols one include_const rename_features X).
  unfold names. cbn [fcols]. f_equal. f_equal. destruct rename_features; [reflexivity|apply map_id].
Qed.

Theorem C66_select f (X Y : frame I V) : sel_transform f (names X) X = Ok Y -> sel_names f (names X) = Ok (names Y).
Proof.
  unfold sel_transform. destruct (negb _); [discriminate|]. destruct (sel_names f (names X)) as [l|]; [|discriminate].
  destruct (loc (fcols X) l) as [c|] eqn:E; [|discriminate]. intros Ey. injection Ey as <-. f_equal. unfold names. cbn [fcols].
  revert c E. induction l as [|x l IH]; intros c E; cbn in E; [injection E as <-; reflexivity|].
  destruct (find _ _) as [[y v]|] eqn:Ef; [|discriminate]. destruct (loc (fcols X) l) as [r|]; [|discriminate].
  injection E as <-. cbn. apply find_some in Ef. destruct Ef as [_ Ef]. apply String.eqb_eq in Ef. cbn in Ef. subst y. f_equal. apply IH. reflexivity.
Qed.

Theorem C66_lambdas (lambdas : list (list V -> list V)) (X Y : frame I V) : lam_transform lambdas (names X) X = Ok Y ->
  Permutation (names Y) (lam_names (length lambdas) (names X)).
Proof.
  intros E. apply lam_columns in E. destruct E as (_ & -> & _). unfold lam_names. generalize (seq 0 (length lambdas)). intros l.
  induction l as [|i l IH]; cbn.
  - assert (H : flat_map (fun _ : string => @nil string) (names X) = []) by (induction (names X); auto). rewrite H. constructor.
  - transitivity (map (fun c => lambda_name c i) (names X) ++ flat_map (fun col => map (lambda_name col) l) (names X)); [apply Permutation_app_head; exact IH|].
    clear IH. induction (names X) as [|c cs IH]; [constructor|]. cbn. constructor. rewrite <- IH. rewrite !app_assoc. apply Permutation_app_tail, Permutation_app_comm.
Qed.

(** [TSCApplyLambdas] lists the same names in another order as soon as there are two features and
    two functions; the names of [TSCFiniteDifference] are never the columns. *)
Theorem C66_lambdas_refuted (lambdas : list (list V -> list V)) (X Y : frame I V) : NoDup (names X) ->
  2 <= length lambdas -> 2 <= length (names X) -> lam_transform lambdas (names X) X = Ok Y ->
  names Y <> lam_names (length lambdas) (names X).
Proof.
  intros Hnd Hl Hn E. apply lam_columns in E. destruct E as (_ & -> & _).
  destruct (names X) as [|a [|b cs]]; try (cbn in Hn; lia). destruct lambdas as [|f [|g fs]]; try (cbn in Hl; lia).
  unfold lam_names. cbn [length seq flat_map map app]. intros E. injection E as E _. apply lambda_name_inj in E. destruct E as [_ E]. discriminate.
Qed.

Theorem C66_finite_difference_refuted n columns : columns <> [] -> fd_columns n columns <> fd_names columns.
Proof.
  intros Hne E. destruct columns as [|c cs]; [contradiction|]. cbn in E. injection E as E _.
  apply (f_equal list_ascii_of_string) in E. rewrite !las_app in E. apply app_inv_head in E. cbn in E.
  injection E as E. destruct (str_of_nat n) as [|x s] eqn:Es; [|discriminate]. clear E.
  unfold str_of_nat in Es. destruct (Nat.to_uint n) eqn:En; try discriminate.
  assert (n = 0) by (rewrite <- (DecimalNat.Unsigned.of_to n), En; reflexivity). subst n. discriminate.
Qed.

(** ** C67: TSCApplyLambdas *)

(** The transformed frame has the same rows; it has exactly one column for every feature [c] and
    function number [i]; the column labelled with [c] and [i] is function [i] of column [c]; labels
    are unique. *)
Theorem C67_lambdas (lambdas : list (list V -> list V)) (X : frame I V) : GoodFrame X ->
  exists Y, lam_transform lambdas (names X) X = Ok Y /\ findex Y = findex X /\
    length (fcols Y) = length lambdas * length (fcols X) /\ NoDup (names Y) /\
    (forall i f c x, nth_error lambdas i = Some f -> In (c, x) (fcols X) ->
       In ((c ++ "_lambda" ++ str_of_nat i)%string, f x) (fcols Y)).
Proof.
  intros HG. unfold lam_transform, validate_transform. rewrite names_eqb_refl. cbn [negb]. eexists. split; [reflexivity|].
  assert (E : lam_transform lambdas (names X) X = Ok (Frame (findex X)
    (flat_map (fun p => map (fun c => (lambda_name (fst c) (fst p), snd p (snd c))) (fcols X)) (enumerate lambdas)))).
  { unfold lam_transform, validate_transform. rewrite names_eqb_refl. reflexivity. }
  destruct (lam_columns _ _ _ E) as (H1 & H2 & H3). split; [reflexivity|]. split; [|split].
  - assert (El : forall Y : frame I V, length (fcols Y) = length (names Y)) by (intros Y; symmetry; apply map_length).
    rewrite El, H2, El. clear. generalize (names X). intros n.
    rewrite <- (seq_length (length lambdas) 0) at 2. induction (seq 0 (length lambdas)) as [|i l IH]; [reflexivity|]. cbn.
    rewrite app_length, map_length, IH. reflexivity.
  - rewrite H2. apply nodup_names; [apply seq_NoDup|apply gf_names, HG].
  - intros i f c x Hf Hc. apply H3. exists i, f, c, x. auto.
Qed.

(** ** C68: TSCPolynomialFeatures *)

(** There is one column for each exponent vector of the requested kind, without repetition; the
    value of the column is the monomial with these exponents, its name is made of them; the rows keep
    their index. *)
Theorem C68_monomials (mul : V -> V -> V) degree (interaction_only include_bias include_first_order : bool)
    (names_in : list string) (rows : list (I * list V)) :
  (forall a, mul one a = a) -> (forall a b c, mul (mul a b) c = mul a (mul b c)) ->
  (forall r, In r rows -> length (snd r) = length names_in) ->
  exists ps, NoDup ps /\
    (forall p, In p ps <-> Exponents (length names_in) degree interaction_only include_bias include_first_order p) /\
    poly_transform one mul degree interaction_only include_bias include_first_order names_in names_in rows =
      Ok (map (monomial_name names_in) ps, map (fun r => (fst r, map (monomial one mul (snd r)) ps)) rows).
Proof.
  intros H1 H2 H3. exists (powers degree interaction_only include_bias include_first_order (length names_in)).
  destruct (powers_spec one mul degree interaction_only include_bias include_first_order (length names_in)) as [Hnd Hin].
  split; [exact Hnd|]. split; [exact Hin|].
  rewrite <- (map_ext _ _ (poly_name_spec names_in)). apply poly_transform_spec; assumption.
Qed.

(** ** C69: TSCMovingAverage *)

(** The transformed series have, for every sample with at least [window] samples up to it, the mean
    of the last [window] samples of the same series under the time of the sample. *)
Theorem C69_moving_average (mean : list V -> V) k window (F : list (row V)) d :
  1 <= window -> ValidRows F -> (forall i, Occurs F i -> Regular F i d) ->
  (exists i, Occurs F i /\ window <= length (rows_of F i)) ->
  exists G, ma_transform mean k window F = Ok G /\ ValidRows G /\
    forall i, Occurs F i ->
      length (rows_of G i) = length (rows_of F i) - (window - 1) /\
      forall j r, nth_error (rows_of F i) (window - 1 + j) = Some r ->
        nth_error (rows_of G i) j =
          Some (mkRow i (rtime r) (mean (map rval (window_ending window (window - 1 + j) (rows_of F i))))).
Proof.
  intros Hw HV HR Hex. exists (flatten (moved_blocks mean window F)). split; [|split; [apply moved_valid; assumption|]].
  - unfold ma_transform, check_const_time_delta. rewrite (delta_time_regular k F d HV HR).
    destruct Hex as (i & Hi & Hl).
    assert (length (rows_of F i) <= length F).
    { clear. unfold rows_of. induction F as [|r F IH]; cbn; [lia|]. destruct (_ =? _)%Z; cbn; lia. }
    destruct (Nat.ltb_spec (length F) window); [lia|]. rewrite moved_rows. apply tsc_ok. split; [|reflexivity].
    apply moved_valid; eauto.
  - intros i Hi. rewrite (moved_rows_of mean window F i HV Hi).
    assert (Es : series F i = map (fun r => (rtime r, rval r)) (rows_of F i)) by reflexivity. split.
    + unfold series_rows. rewrite map_length, <- (map_length fst (rolling _ _ _)), (rolling_times mean window _ Hw), skipn_length, map_length, Es, map_length. reflexivity.
    + intros j r Hr. unfold series_rows. rewrite nth_error_map, (rolling_nth mean window _ j Hw), Es, nth_error_map, Hr. cbn.
      f_equal. f_equal. f_equal. unfold window_ending. rewrite skipn_map, firstn_map, map_map. reflexivity.
Qed.

(** Samples of series shorter than the window are dropped without an error. *)
Theorem C69_short_series (mean : list V -> V) k window (F G : list (row V)) i : 1 <= window -> ValidRows F ->
  ma_transform mean k window F = Ok G -> Occurs F i -> length (rows_of F i) < window -> rows_of G i = [].
Proof.
  intros Hw HV E Hi Hl. unfold ma_transform in E. destruct (check_const_time_delta k F); [|discriminate].
  destruct (_ <? _); [discriminate|]. apply tsc_ok in E. destruct E as [_ ->]. rewrite moved_rows, (moved_rows_of mean window F i HV Hi).
  rewrite rolling_short; [reflexivity|exact Hw|]. unfold series. rewrite map_length. exact Hl.
Qed.

(** ** C70: TSCFeatureSelect *)

(** Selection by integers (negative ones count from the end) returns the requested columns in the
    requested order. *)
Theorem C70_by_index (l : list Z) (X : frame I V) : GoodFrame X ->
  (forall i, In i l -> - Z.of_nat (length (fcols X)) <= i < Z.of_nat (length (fcols X)))%Z ->
  exists Y, sel_fit (ByIndex l) X = Ok (names X) /\ sel_transform (ByIndex l) (names X) X = Ok Y /\ findex Y = findex X /\
    length (fcols Y) = length l /\
    forall k i, nth_error l k = Some i -> nth_error (fcols Y) k = nth_error (fcols X) (Z.to_nat (i mod Z.of_nat (length (fcols X)))).
Proof.
  intros HG Hl. set (n := length (fcols X)) in *.
  assert (Hp : forall i, In i l -> exists c, In c (fcols X) /\ py_nth (names X) i = Some (fst c) /\
                 nth_error (fcols X) (Z.to_nat (i mod Z.of_nat n)) = Some c).
  { intros i Hi. specialize (Hl i Hi). unfold py_nth, names. rewrite map_length. fold n.
    replace ((- Z.of_nat n <=? i) && (i <? Z.of_nat n))%Z with true by lia.
    assert (Em : (i mod Z.of_nat n)%Z = (if i <? 0 then i + Z.of_nat n else i)%Z).
    { destruct (Z.ltb_spec i 0); [|apply Z.mod_small; lia]. rewrite <- (Z.mod_small (i + Z.of_nat n) (Z.of_nat n)) by lia.
      rewrite <- (Z_mod_plus_full i 1 (Z.of_nat n)). f_equal. lia. }
    rewrite Em. set (q := (if i <? 0 then i + Z.of_nat n else i)%Z) in *.
    destruct (nth_error (fcols X) (Z.to_nat q)) as [c|] eqn:E.
    - exists c. split; [eapply nth_error_In; exact E|]. split; [|reflexivity]. rewrite nth_error_map, E. reflexivity.
    - apply nth_error_None in E. fold n in E. unfold q in E. destruct (Z.ltb_spec i 0); lia. }
  assert (HL : exists cs, all_some (map (py_nth (names X)) l) = Some (map fst cs) /\ loc (fcols X) (map fst cs) = Some cs /\
                 length cs = length l /\
                 forall k i, nth_error l k = Some i -> nth_error cs k = nth_error (fcols X) (Z.to_nat (i mod Z.of_nat n))).
  { clear Hl. induction l as [|i l IH].
    - exists []. repeat split. intros [|k] i E; discriminate.
    - destruct (Hp i (or_introl eq_refl)) as (c & Hc & H1 & H2). destruct IH as (cs & E1 & E2 & E3 & E4); [intros j Hj; apply Hp; right; exact Hj|].
      exists (c :: cs). cbn [map all_some]. rewrite H1, E1. split; [reflexivity|]. cbn [loc]. rewrite E2.
      assert (Ef : find (fun d => (fst d =? fst c)%string) (fcols X) = Some c).
      { assert (Hnd := gf_names _ HG). clear - Hc Hnd. unfold names in Hnd. induction (fcols X) as [|d ds IHd]; [destruct Hc|].
        cbn in Hnd. inversion Hnd as [|? ? Hd Hds]; subst. cbn [find]. destruct Hc as [<-|Hc]; [rewrite String.eqb_refl; reflexivity|].
        destruct (String.eqb_spec (fst d) (fst c)) as [E|E]; [|apply IHd; assumption]. exfalso. apply Hd. rewrite E. apply in_map. exact Hc. }
      rewrite Ef. split; [reflexivity|]. split; [cbn; lia|]. intros [|k] j Ej; cbn in Ej |- *.
      + injection Ej as <-. symmetry. exact H2.
      + apply E4. exact Ej. }
  destruct HL as (cs & E1 & E2 & E3 & E4). exists (Frame (findex X) cs).
  unfold sel_fit, sel_transform, sel_names, validate_transform. rewrite names_eqb_refl, E1, E2. cbn [negb findex fcols]. auto.
Qed.

(** Selection by names is always rejected. *)
Theorem C70_by_name_refuted (l : list string) (X : frame I V) : sel_fit (ByName l) X = Err ValueError.
Proof. reflexivity. Qed.

End Props.

Print Assumptions C65_transform.
Print Assumptions C65_roundtrip.
Print Assumptions C65_rename_refuted.
Print Assumptions C65_array_refuted.
Print Assumptions C65_const_refuted.
Print Assumptions C66_identity.
Print Assumptions C66_select.
Print Assumptions C66_lambdas.
Print Assumptions C66_lambdas_refuted.
Print Assumptions C66_finite_difference_refuted.
Print Assumptions C67_lambdas.
Print Assumptions C68_monomials.
Print Assumptions C69_moving_average.
Print Assumptions C69_short_series.
Print Assumptions C70_by_index.
Print Assumptions C70_by_name_refuted.

(** ** Concrete cases *)

Definition exF : frame nat Z := Frame [3; 4] [("A"%string, [1; 2]%Z); ("B"%string, [5; 7]%Z)].

Example exF_good : GoodFrame exF.
Proof.
  split.
  - unfold names. cbn. repeat constructor; cbn; intuition discriminate.
  - cbn. intros name col [E|[E|[]]]; injection E as <- <-; reflexivity.
Qed.

Example exF_identity : id_transform 1%Z true true (names exF) exF =
  Ok (Frame [3; 4] [("A_id"%string, [1; 2]%Z); ("B_id"%string, [5; 7]%Z); ("const"%string, [1; 1]%Z)]).
Proof. vm_compute. reflexivity. Qed.

Example exF_lambdas : lam_transform [map (Z.add 1); map (Z.mul 2)] (names exF) exF =
  Ok (Frame [3; 4] [("A_lambda0"%string, [2; 3]%Z); ("B_lambda0"%string, [6; 8]%Z); ("A_lambda1"%string, [2; 4]%Z); ("B_lambda1"%string, [10; 14]%Z)]).
Proof. vm_compute. reflexivity. Qed.

Example exF_lambda_names : lam_names 2 (names exF) = ["A_lambda0"; "A_lambda1"; "B_lambda0"; "B_lambda1"]%string.
Proof. vm_compute. reflexivity. Qed.

(** The case of the unit test test_polynomial_feature_transform03. *)
Example exF_poly : poly_transform 1%Z Z.mul 2 false true false ["A"; "B"]%string ["A"; "B"]%string [(0, [3; 5]%Z)] =
  Ok (["1"; "A^2"; "A B"; "B^2"]%string, [(0, [1; 9; 15; 25]%Z)]).
Proof. vm_compute. reflexivity. Qed.

Example ex_interaction : map (poly_name ["A"; "B"; "C"]%string) (powers 3 true false true 3) =
  ["A"; "B"; "C"; "A B"; "A C"; "B C"; "A B C"]%string.
Proof. vm_compute. reflexivity. Qed.

Definition exM : list (row Z) := [mkRow 4 0 1; mkRow 4 1 3; mkRow 4 2 8; mkRow 2 5 4; mkRow 2 6 6]%Z.

Example exM_valid : ValidRows exM.
Proof. apply (tsc_ok exM exM). vm_compute. reflexivity. Qed.

Example exM_regular : forall i, Occurs exM i -> Regular exM i 1%Z.
Proof.
  apply delta_time_scalar_some; [apply exM_valid| |vm_compute; reflexivity].
  intros a b (l & r & E) Er. assert (H : forall q, In q exM -> (0 <= rtime q <= 6)%Z) by (intros q Hq; cbn in Hq; intuition (subst q; cbn; lia)).
  assert (H1 := H a ltac:(rewrite E; apply in_or_app; right; left; reflexivity)).
  assert (H2 := H b ltac:(rewrite E; apply in_or_app; right; right; left; reflexivity)). lia.
Qed.

(** (sums instead of means) *)
Example exM_moving : ma_transform (fold_right Z.add 0%Z) KInt 2 exM = Ok [mkRow 2 6 10; mkRow 4 1 4; mkRow 4 2 11]%Z.
Proof. vm_compute. reflexivity. Qed.

Example exM_short : ma_transform (fold_right Z.add 0%Z) KInt 3 exM = Ok [mkRow 4 2 12]%Z.
Proof. vm_compute. reflexivity. Qed.

Example exF_select : sel_transform (ByIndex [-1; 0]%Z) (names exF) exF = Ok (Frame [3; 4] [("B"%string, [5; 7]%Z); ("A"%string, [1; 2]%Z)]).
Proof. vm_compute. reflexivity. Qed.
