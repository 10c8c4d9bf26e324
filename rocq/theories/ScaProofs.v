(** * Lemmas about feature scaling *)

From Coq Require Import String List ZArith.
From mathcomp Require Import all_ssreflect all_algebra.
From Verif Require Import Np TrModel ScaModel ScaSpec.
Import Order.Theory GRing.Theory Num.Theory.
Set Implicit Arguments.
Unset Strict Implicit.
Unset Printing Implicit Defensive.
Local Open Scope ring_scope.

Section Names.

Lemma name_eqb_refl a : name_eqb a a.
Proof. case: a => [s|z] /=; [exact: String.eqb_refl | exact: Z.eqb_refl]. Qed.

Lemma names_equal_refl l : names_equal l l.
Proof. by elim: l => //= a l ->; rewrite name_eqb_refl. Qed.

Lemma names_equal_eq a b : names_equal a b -> a = b.
Proof.
  elim: a b => [|x a IH] [|y b] //= /andP [H /IH ->]. congr (_ :: _).
  case: x y H => [s|z] [t|w] //=; [by move=> /String.eqb_eq -> | by move=> /Z.eqb_eq ->].
Qed.

Lemma all_in A (P : A -> bool) l : (forall a, List.In a l -> P a) -> all P l.
Proof. elim: l => //= a l IH H. rewrite H; last by left. by apply: IH => b Hb; apply: H; right. Qed.

Lemma strings_all l : (forall a, List.In a l -> exists s, a = Str s) -> all is_str l.
Proof. by move=> H; apply: all_in => a /H [s ->]. Qed.

Lemma numbers_none l : (forall a, List.In a l -> exists z, a = Num z) -> has is_str l = false.
Proof.
  elim: l => //= a l IH H. have [z ->] := H a (or_introl erefl). rewrite /=.
  by apply: IH => b Hb; apply: H; right.
Qed.

Lemma numbers_not_all l : (0 < size l)%N -> (forall a, List.In a l -> exists z, a = Num z) -> all is_str l = false.
Proof. case: l => //= a l _ H. by have [z ->] := H a (or_introl erefl). Qed.

End Names.

Section Lists.
Variable A B : Type.

Lemma nth_error_nth (d : A) (s : seq A) i : (i < size s)%N -> List.nth_error s i = Some (nth d s i).
Proof. by elim: s i => [|a s IH] [|i] //=; rewrite ltnS => /IH. Qed.

Lemma nth_error_map (f : A -> B) (s : seq A) i : List.nth_error (map f s) i = omap f (List.nth_error s i).
Proof. by elim: s i => [|a s IH] [|i] //=. Qed.

Lemma pick_map (f : A -> B) l s : pick l (map f s) = map f (pick l s).
Proof.
  rewrite /pick. elim: l => //= i l IH. rewrite nth_error_map. by case: (List.nth_error s i) => //= a; rewrite IH.
Qed.

Lemma size_pick l (s : seq A) n : size s = n -> all (fun i => (i < n)%N) l -> size (pick l s) = size l.
Proof.
  move=> Hs. rewrite /pick. elim: l => //= i l IH /andP [Hi Hl].
  case: s Hs IH => [|a s] Hs IH; first by rewrite -Hs in Hi.
  rewrite (@nth_error_nth a) ?Hs //=. by rewrite IH.
Qed.

Lemma pickE (d : A) l (s : seq A) n : size s = n -> all (fun i => (i < n)%N) l -> pick l s = map (nth d s) l.
Proof.
  move=> Hs. rewrite /pick. elim: l => //= i l IH /andP [Hi Hl].
  rewrite (@nth_error_nth d) ?Hs //=. by rewrite IH.
Qed.

End Lists.

Section Proofs.
Variable R : rcfType.
Variable I : Type.
Variable eps : R.
Hypothesis eps_pos : 0 < eps.
Local Notation table := (table R I).
Local Notation column_params := (column_params eps).
Implicit Types (X Z : table) (c : seq R) (k : scaler).

(** ** a column *)

Lemma variance_ge0 c : 0 <= variance c.
Proof. rewrite /variance. apply: divr_ge0; last exact: ler0n. by apply: sumr_ge0 => x _; exact: sqr_ge0. Qed.

Lemma foldr_min_le (b : R) c x : (x \in c) -> foldr Order.min b c <= x.
Proof.
  elim: c => //= a c IH. rewrite inE => /orP [/eqP ->|H]; rewrite le_minl ?lexx //. by rewrite (IH H) orbT.
Qed.
Lemma foldr_max_ge (b : R) c x : (x \in c) -> x <= foldr Order.max b c.
Proof.
  elim: c => //= a c IH. rewrite inE => /orP [/eqP ->|H]; rewrite le_maxr ?lexx //. by rewrite (IH H) orbT.
Qed.
Lemma foldr_min_in (b : R) c : b \in c -> foldr Order.min b c \in c.
Proof.
  have H : forall c', foldr Order.min b c' = b \/ foldr Order.min b c' \in c'.
  { elim=> [|a c' IH] /=; first by left. rewrite minEle. case: ifP => _; first by right; rewrite inE eqxx.
    case: IH => [->|IH]; first by left. by right; rewrite inE IH orbT. }
  by case: (H c) => [->|].
Qed.
Lemma foldr_max_in (b : R) c : b \in c -> foldr Order.max b c \in c.
Proof.
  have H : forall c', foldr Order.max b c' = b \/ foldr Order.max b c' \in c'.
  { elim=> [|a c' IH] /=; first by left. rewrite maxEle. case: ifP => _.
    - case: IH => [->|IH]; first by left. by right; rewrite inE IH orbT.
    - by right; rewrite inE eqxx. }
  by case: (H c) => [->|].
Qed.

Lemma head_in c : (0 < size c)%N -> head 0 c \in c.
Proof. case: c => //= a c _. by rewrite inE eqxx. Qed.

Lemma minimum_le c x : x \in c -> minimum c <= x.
Proof. exact: foldr_min_le. Qed.
Lemma maximum_ge c x : x \in c -> x <= maximum c.
Proof. exact: foldr_max_ge. Qed.
Lemma minimum_in c : (0 < size c)%N -> minimum c \in c.
Proof. by move=> H; apply: foldr_min_in; exact: head_in. Qed.
Lemma maximum_in c : (0 < size c)%N -> maximum c \in c.
Proof. by move=> H; apply: foldr_max_in; exact: head_in. Qed.

(** The scales are positive. *)
Lemma scale_pos k c : 0 < (column_params k c).2.
Proof.
  case: k => /=; first exact: ltr01.
  - rewrite mul1r invr_gt0. case: (ltP (maximum c - minimum c)) => H; first exact: ltr01.
    apply: lt_le_trans H. by rewrite mulr_gt0 // ltr0n.
  - case: ifP => H; first exact: ltr01.
    rewrite sqrtr_gt0. move: H => /negbT. rewrite -ltNge => H.
    apply: le_lt_trans H. apply: addr_ge0; last exact: sqr_ge0.
    apply: mulr_ge0; last exact: variance_ge0. by apply: mulr_ge0; [exact: ler0n | exact: ltW].
Qed.

Lemma unapplyK k c x : unapply k (column_params k c) (apply k (column_params k c) x) = x.
Proof.
  have := scale_pos k c. move: (column_params k c) => p Hp.
  have N : p.2 != 0 by rewrite gt_eqF.
  case: k; rewrite /= ?subrK // ?addrK ?mulfK // divfK // subrK //.
Qed.
Lemma applyK k c x : apply k (column_params k c) (unapply k (column_params k c) x) = x.
Proof.
  have := scale_pos k c. move: (column_params k c) => p Hp.
  have N : p.2 != 0 by rewrite gt_eqF.
  case: k; rewrite /= ?addrK // ?divfK ?subrK // mulfK //.
Qed.

Lemma apply_mono k c x y : (apply k (column_params k c) x < apply k (column_params k c) y) = (x < y).
Proof.
  have := scale_pos k c. move: (column_params k c) => p Hp.
  case: k => /=.
  - by rewrite ltr_add2r.
  - by rewrite ltr_add2r ltr_pmul2r.
  - by rewrite ltr_pmul2r ?invr_gt0 // ltr_add2r.
Qed.

Lemma minimum_perm c d : (0 < size c)%N -> perm_eq c d -> minimum c = minimum d.
Proof.
  move=> Hc P. have Hd : (0 < size d)%N by rewrite -(perm_size P).
  apply/eqP. rewrite eq_le. apply/andP; split.
  - apply: minimum_le. rewrite (perm_mem P). exact: minimum_in.
  - apply: minimum_le. rewrite -(perm_mem P). exact: minimum_in.
Qed.
Lemma maximum_perm c d : (0 < size c)%N -> perm_eq c d -> maximum c = maximum d.
Proof.
  move=> Hc P. have Hd : (0 < size d)%N by rewrite -(perm_size P).
  apply/eqP. rewrite eq_le. apply/andP; split.
  - apply: maximum_ge. rewrite -(perm_mem P). exact: maximum_in.
  - apply: maximum_ge. rewrite (perm_mem P). exact: maximum_in.
Qed.
Lemma mean_perm c d : perm_eq c d -> mean c = mean d.
Proof. move=> P. rewrite /mean (perm_size P). congr (_ / _). exact: perm_big. Qed.
Lemma variance_perm c d : perm_eq c d -> variance c = variance d.
Proof. move=> P. rewrite /variance (perm_size P) (mean_perm P). congr (_ / _). exact: perm_big. Qed.

Lemma params_perm k c d : (0 < size c)%N -> perm_eq c d -> column_params k c = column_params k d.
Proof.
  move=> H P. rewrite /ScaModel.column_params /is_constant.
  by rewrite (mean_perm P) (variance_perm P) (minimum_perm H P) (maximum_perm H P) (perm_size P).
Qed.

(** Statistics of the scaled training column. *)
Lemma mean_affine (a b : R) c : (0 < size c)%N -> mean (map (fun x => x * a + b) c) = mean c * a + b.
Proof.
  move=> H. rewrite /mean size_map big_map big_split /= -mulr_suml.
  rewrite big_const_seq count_predT iter_addr_0.
  rewrite mulrDl. congr (_ + _); first by rewrite -!mulrA; congr (_ * _); rewrite mulrC.
  by rewrite -[b *+ _]mulr_natr mulfK // pnatr_eq0 -lt0n.
Qed.

Lemma variance_affine (a b : R) c : (0 < size c)%N -> variance (map (fun x => x * a + b) c) = variance c * a ^+ 2.
Proof.
  move=> H. rewrite /variance (mean_affine _ _ H) size_map big_map.
  rewrite (eq_bigr (fun x => (x - mean c) ^+ 2 * a ^+ 2)).
  - by rewrite -mulr_suml mulrAC.
  - by move=> x _; rewrite -exprMn; congr (_ ^+ 2); rewrite opprD addrACA subrr addr0 mulrBl.
Qed.

Lemma mean_centered c : (0 < size c)%N -> mean (map (apply Center (column_params Center c)) c) = 0.
Proof.
  move=> H. rewrite (_ : map _ c = map (fun x => x * 1 + (- mean c)) c).
  - by rewrite mean_affine // mulr1 subrr.
  - by apply: eq_map => x /=; rewrite mulr1.
Qed.

Lemma standard_affine c :
  map (apply Standard (column_params Standard c)) c =
  map (fun x => x * (column_params Standard c).2^-1 + (- mean c * (column_params Standard c).2^-1)) c.
Proof. by apply: eq_map => x /=; rewrite mulrBl mulNr. Qed.

Lemma mean_standard c : (0 < size c)%N -> mean (map (apply Standard (column_params Standard c)) c) = 0.
Proof. by move=> H; rewrite standard_affine mean_affine // mulNr subrr. Qed.

Lemma variance_standard c :
  (0 < size c)%N -> is_constant eps c = false -> variance (map (apply Standard (column_params Standard c)) c) = 1.
Proof.
  move=> H N. have Hp := scale_pos Standard c. rewrite standard_affine variance_affine //.
  move: Hp. rewrite /ScaModel.column_params /= N => Hp.
  rewrite exprVn sqr_sqrtr ?variance_ge0 // divff //. by move: Hp; rewrite sqrtr_gt0 => /lt0r_neq0.
Qed.

Lemma minmax_range c x : 10%:R * eps <= 1 -> x \in c ->
  0 <= apply MinMax (column_params MinMax c) x <= 1.
Proof.
  move=> He Hx. have Hp := scale_pos MinMax c. move: Hp. rewrite /ScaModel.column_params /=.
  set r := (if _ then _ else _) => Hp.
  have E : x * (1 / r) + (0 - minimum c * (1 / r)) = (x - minimum c) / r by rewrite sub0r mul1r -mulrBl.
  have Hr : 0 < r by rewrite mul1r invr_gt0 in Hp.
  rewrite E. have H0 := minimum_le Hx. have H1 := maximum_ge Hx. apply/andP; split.
  - by apply: divr_ge0; [rewrite subr_ge0 | exact: ltW].
  - rewrite ler_pdivr_mulr // mul1r. apply: (@le_trans _ _ (maximum c - minimum c)); first by rewrite ler_add2r.
    rewrite /r. case: ltP => // H. by apply: ltW; apply: lt_le_trans H He.
Qed.

Lemma minmax_zero c : apply MinMax (column_params MinMax c) (minimum c) = 0.
Proof. by rewrite /ScaModel.column_params /= sub0r subrr. Qed.

Lemma minmax_one c : 10%:R * eps <= maximum c - minimum c -> apply MinMax (column_params MinMax c) (maximum c) = 1.
Proof.
  move=> H. rewrite /ScaModel.column_params /= ltNge H /= sub0r mul1r -mulrBl divff //.
  apply: lt0r_neq0. apply: lt_le_trans H. by rewrite mulr_gt0 // ltr0n.
Qed.

(** The statistics in terms of the cells. *)
Lemma averageE c : average (size c) (nth 0 c) = mean c.
Proof. by rewrite /average /mean mulrC (big_nth 0) big_mkord. Qed.
Lemma spreadE c : spread (size c) (nth 0 c) = variance c.
Proof. by rewrite /spread averageE /average /variance mulrC (big_nth 0) big_mkord. Qed.

(** ** the columns of a table *)

Lemma size_zip_with g ps cs : size ps = size cs -> size (@zip_with R g ps cs) = size cs.
Proof. by elim: ps cs => [|p ps IH] [|c cs] //= [] /IH ->. Qed.

Lemma zip_with_map g (f : seq R -> R * R) cs ds : size cs = size ds ->
  zip_with g (map f cs) ds = map (fun cd => map (g (f cd.1)) cd.2) (zip cs ds).
Proof. by elim: cs ds => [|c cs IH] [|d ds] //= [] /IH ->. Qed.

Lemma nth_zip_with g (f : seq R -> R * R) cs ds j : size cs = size ds -> (j < size ds)%N ->
  nth [::] (zip_with g (map f cs) ds) j = map (g (f (nth [::] cs j))) (nth [::] ds j).
Proof.
  move=> H Hj. rewrite zip_with_map //.
  rewrite (nth_map ([::], [::])) ?nth_zip //=. by rewrite size_zip H minnn.
Qed.

Lemma zip_with_invK g h (f : seq R -> R * R) cs ds : size cs = size ds ->
  (forall c x, h (f c) (g (f c) x) = x) -> zip_with h (map f cs) (zip_with g (map f cs) ds) = ds.
Proof.
  move=> S H. elim: cs ds S => [|c cs IH] [|d ds] //= [] /IH ->. congr (_ :: _).
  rewrite -map_comp (eq_map (H c)). by rewrite map_id.
Qed.

Lemma head_size n d X : Shape n d X -> rows X = n.
Proof.
  move=> [_ [Hd [Hs [Hc _]]]]. rewrite /rows. case E : (cols X) Hs Hc => [|c cs] /= Hs Hc.
  - by rewrite -Hs in Hd.
  - by apply: Hc; left.
Qed.

Lemma shape_valid n d X : Shape n d X -> validate_data X = Ok tt.
Proof.
  move=> H. rewrite /validate_data (head_size H). case: H => [Hn [Hd [-> _]]].
  by rewrite !eqn0Ngt Hn Hd.
Qed.

(** ** a fitted object *)

Definition fit1 k X : state R := (fit eps k (init R) X).1.

Lemma string_names X : StringFrame X -> get_feature_names X = Ok (Some (cnames X)).
Proof.
  move=> [HK HN]. rewrite /get_feature_names (strings_all HN). by case: (kind X) HK.
Qed.

Lemma number_names X : kind X <> NumpyArray -> (0 < size (cnames X))%N -> NumberNames X ->
  get_feature_names X = Ok None.
Proof.
  move=> HK HS HN. rewrite /get_feature_names (numbers_none HN) (numbers_not_all HS HN). by case: (kind X) HK.
Qed.

Definition fitted_of k X names : fitted R := Fitted (map (column_params k) (cols X)) names (size (cols X)).

Lemma fit_string k n d X : Shape n d X -> StringFrame X ->
  fit eps k (init R) X =
  (State (Some (Some (fitted_of k X (Some (cnames X))))) (Some d) (Some (cnames X)) (Some d), Ok tt).
Proof.
  move=> SH SF. rewrite /fit (shape_valid SH) /inner_fit (string_names SF) /=.
  rewrite /setup_feature_attrs /= (string_names SF) /inner_names_out /=.
  have [_ [Hd [Hs [_ HK]]]] := SH. case: SF => HA HN.
  have E : is_str (head (Num 0) (cnames X)).
  { have : size (cnames X) = d by case: (kind X) HA HK => // _ [].
    case: (cnames X) HN => [|a l] HN /= Hsz; first by rewrite -Hsz in Hd.
    by have [s ->] := HN a (or_introl erefl). }
  have En : size (cnames X) = d by case: (kind X) HA HK => // _ [].
  rewrite E En /fitted_of Hs. by case: (kind X).
Qed.

Lemma fit_array k n d X : Shape n d X -> kind X = NumpyArray ->
  fit eps k (init R) X = (State (Some (Some (fitted_of k X None))) (Some d) None (Some d), Ok tt).
Proof.
  move=> SH E. rewrite /fit (shape_valid SH) /inner_fit /get_feature_names E /=.
  rewrite /setup_feature_attrs /= E /get_feature_names E /inner_names_out /= size_map size_iota.
  by case: SH => [_ [_ [E2 _]]]; rewrite /fitted_of E2.
Qed.

Lemma shape_names n d X : Shape n d X -> kind X <> NumpyArray -> size (cnames X) = d.
Proof. by move=> [_ [_ [_ [_ HK]]]]; case: (kind X) HK => // [] []. Qed.

Lemma fit_numbers k n d X : Shape n d X -> kind X <> NumpyArray -> NumberNames X ->
  fit eps k (init R) X =
  (State (Some (Some (fitted_of k X None))) (Some d)
         (if kind X is TimeSeries then Some (cnames X) else None) (Some d), Ok tt).
Proof.
  move=> SH HA HN. have En := shape_names SH HA. have [_ [Hd [Hs _]]] := SH.
  have HS : (0 < size (cnames X))%N by rewrite En.
  have G := number_names HA HS HN.
  rewrite /fit (shape_valid SH) /inner_fit G /=.
  rewrite /setup_feature_attrs /= G /inner_names_out /= size_map size_iota Hs.
  have E : is_str (head (Num 0) (cnames X)) = false.
  { rewrite /NumberNames in HN. case: (cnames X) HS HN => [|a l] //= _ HN. by have [z ->] := HN a (or_introl erefl). }
  rewrite E /fitted_of Hs. by case: (kind X) HA => // HA; case: (HA erefl).
Qed.

(** Data that may be passed to [transform]: an array or a frame with the names of the fit. *)
Definition Compatible X Z : Prop := kind Z = NumpyArray \/ (kind Z <> NumpyArray /\ cnames Z = cnames X).

Lemma check_other n d names Z : Shape n d Z -> StringFrame Z -> names <> cnames Z ->
  check_features d (Some names) Z = Err ValueError.
Proof.
  move=> [_ [_ [Hs _]]] SF N. rewrite /check_features Hs eqxx /= (string_names SF) /=.
  by case E : (names_equal _ _) => //; move: (names_equal_eq E).
Qed.

Lemma refit_stale k s n d X Z a : Shape n d X -> StringFrame X -> n_features_in s = Some d ->
  feature_names_in s = Some a -> n_features_out s = Some d ->
  exists f, fit eps k s X = (State (Some (Some f)) (Some d) (Some a) (Some d), Ok tt).
Proof.
  move=> SX SF E1 E2 E3. rewrite /fit (shape_valid SX) /inner_fit (string_names SF) /= /setup_feature_attrs /=.
  rewrite E1 E2 E3. by eexists.
Qed.

Lemma check_compatible n d X Z : StringFrame X -> Shape n d Z -> Compatible X Z ->
  check_features d (Some (cnames X)) Z = Ok tt.
Proof.
  move=> SF [_ [_ [Hs _]]] C. rewrite /check_features Hs eqxx /= /get_feature_names.
  case: C => [->|[HK ->]] //=.
  have HN := strings_all (proj2 SF). by case: (kind Z) HK => // _; rewrite HN /= names_equal_refl.
Qed.

Definition scaled k X Z names : table :=
  Table (kind Z) (index Z) names (zip_with (apply k) (map (column_params k) (cols X)) (cols Z)).

Lemma transform_string k n m d X Z : Shape n d X -> StringFrame X -> Shape m d Z -> Compatible X Z ->
  transform k (fit1 k X) Z = Ok (scaled k X Z (cnames Z)).
Proof.
  move=> SX SF SZ C. rewrite /fit1 (fit_string k SX SF) /transform /= (shape_valid SZ) /=.
  rewrite (check_compatible SF SZ C) /= /inner_transform /=.
  have Hs : size (cols X) = d by case: SX => [_ [_ []]].
  have Hz : size (cols Z) = d by case: SZ => [_ [_ []]].
  rewrite Hs (check_compatible SF SZ C) /= /same_type /inner_names_out /=.
  rewrite size_zip_with ?size_map ?Hs ?Hz //.
  case: C => [E|[HK E]].
  - rewrite E /scaled E. case: SZ => [_ [_ [_ [_]]]]. by rewrite E => [[-> ->]].
  - have En := shape_names SZ HK. rewrite -E En eqxx /= /scaled.
    by case: (kind Z) HK => // HK; case: (HK erefl).
Qed.

Lemma inverse_string k n m d X Z : Shape n d X -> StringFrame X -> Shape m d Z ->
  inverse_transform k (fit1 k X) Z =
  Ok (Table (kind Z) (index Z) (if kind Z is NumpyArray then [::] else cnames X)
            (zip_with (unapply k) (map (column_params k) (cols X)) (cols Z))).
Proof.
  move=> SX SF SZ. rewrite /fit1 (fit_string k SX SF) /inverse_transform /= /inner_inverse /=.
  have Hs : size (cols X) = d by case: SX => [_ [_ []]].
  have Hz : size (cols Z) = d by case: SZ => [_ [_ []]].
  have Hn := shape_names SX (proj1 SF).
  rewrite size_map Hs Hz eqxx /= /same_type size_zip_with ?size_map ?Hs ?Hz // Hn eqxx /=.
  case: SZ => [_ [_ [_ [_]]]]. by case: (kind Z) => // [[-> _]].
Qed.

Lemma scaled_shape k n m d X Z : Shape n d X -> Shape m d Z -> Shape m d (scaled k X Z (cnames Z)).
Proof.
  move=> [_ [_ [Hs _]]] [Hm [Hd [Hz [Hc HK]]]]. split; first by []. split; first by [].
  rewrite /scaled /=. split; first by rewrite size_zip_with ?size_map ?Hs ?Hz. split; last by [].
  have E : size (map (column_params k) (cols X)) = size (cols Z) by rewrite size_map Hs Hz.
  move: (map _ _) (cols Z) E Hc => ps cs. elim: ps cs => [|p ps IH] [|c cs] //= [] E Hc a [<-|Ha].
  - by rewrite size_map; apply: Hc; left.
  - by apply: (IH cs) => // b Hb; apply: Hc; right.
Qed.


Lemma in_nth (cs : seq (seq R)) j : (j < size cs)%N -> List.In (nth [::] cs j) cs.
Proof. elim: cs j => [|c cs IH] [|j] //=; first by left. by rewrite ltnS => /IH; right. Qed.

Lemma column_size n d X j : Shape n d X -> (j < d)%N -> size (nth [::] (cols X) j) = n.
Proof. by move=> [_ [_ [Hs [Hc _]]]] Hj; apply: Hc; apply: in_nth; rewrite Hs. Qed.

Lemma cell_scaled k n m d X Z i j : Shape n d X -> Shape m d Z -> (i < m)%N -> (j < d)%N ->
  cell (scaled k X Z (cnames Z)) i j = apply k (column_params k (nth [::] (cols X) j)) (cell Z i j).
Proof.
  move=> SX SZ Hi Hj. have Hc := column_size SZ Hj.
  case: SX => [_ [_ [Hs _]]]. case: SZ => [_ [_ [Hz _]]].
  by rewrite /cell /scaled /= nth_zip_with ?Hs ?Hz // (nth_map 0) ?Hc.
Qed.

Lemma column_scaled k n m d X Z j : Shape n d X -> Shape m d Z -> (j < d)%N ->
  nth [::] (cols (scaled k X Z (cnames Z))) j = map (apply k (column_params k (nth [::] (cols X) j))) (nth [::] (cols Z) j).
Proof.
  move=> [_ [_ [Hs _]]] [_ [_ [Hz _]]] Hj. by rewrite /scaled /= nth_zip_with ?Hs ?Hz.
Qed.

(** ** rows *)

Lemma take_rows_shape m d l Z : Shape m d Z -> all (fun i => (i < m)%N) l -> (0 < size l)%N ->
  Shape (size l) d (take_rows l Z).
Proof.
  move=> [Hm [Hd [Hz [Hc HK]]]] Hl Hn. split; first by []. split; first by [].
  split; first by rewrite /= size_map. split.
  - rewrite /= => c. rewrite (_ : map (pick l) (cols Z) = List.map (pick l) (cols Z)) //.
    move=> /List.in_map_iff [c' [<- Hc']]. exact: size_pick (Hc _ Hc') Hl.
  - rewrite /=. case: (kind Z) HK => [[-> ->]|[Hi Hx]|[Hi Hx]].
    + split=> //. rewrite /pick. by elim: (l) => //= i l' ->; case: i.
    + by split; first exact: size_pick Hi Hl.
    + by split; first exact: size_pick Hi Hl.
Qed.

Lemma zip_with_pick g ps cs l : zip_with g ps (map (pick l) cs) = map (pick l) (@zip_with R g ps cs).
Proof. by elim: ps cs => [|p ps IH] [|c cs] //=; rewrite IH pick_map. Qed.

Lemma scaled_take k X Z l : scaled k X (take_rows l Z) (cnames Z) = take_rows l (scaled k X Z (cnames Z)).
Proof. by rewrite /scaled /take_rows /= zip_with_pick. Qed.

Lemma pick_perm l c n : size c = n -> perm_eq l (iota 0 n) -> perm_eq (pick l c) c.
Proof.
  move=> Hc P. have Hl : all (fun i => (i < n)%N) l.
  { apply/allP => i. by rewrite (perm_mem P) mem_iota. }
  rewrite (pickE 0 Hc Hl). apply: perm_trans (perm_map _ P) _.
  rewrite -Hc (_ : map (nth 0 c) (iota 0 (size c)) = c) ?perm_refl //. exact: mkseq_nth.
Qed.

Lemma params_take k n d X l : Shape n d X -> perm_eq l (iota 0 n) ->
  map (column_params k) (cols (take_rows l X)) = map (column_params k) (cols X).
Proof.
  move=> [Hn [_ [_ [Hc _]]]] P. rewrite /take_rows /=.
  elim: (cols X) Hc => //= c cs IH Hc. rewrite IH; last by move=> a Ha; apply: Hc; right.
  congr (_ :: _). have Ec := Hc c (or_introl erefl).
  rewrite (@params_perm k c (pick l c)) ?Ec //. by rewrite perm_sym; exact: pick_perm P.
Qed.

(** ** fit_transform *)

Lemma check_own X names : get_feature_names X = Ok names -> check_features (size (cols X)) names X = Ok tt.
Proof.
  move=> H. rewrite /check_features eqxx /= H /=. by case: names {H} => // a; rewrite names_equal_refl.
Qed.


Lemma fit_transform_eq k n d X : Shape n d X ->
  (kind X = NumpyArray \/ StringFrame X \/ (kind X <> NumpyArray /\ NumberNames X)) ->
  fit_transform eps k (init R) X = ((fit eps k (init R) X).1, transform k (fit eps k (init R) X).1 X).
Proof.
  move=> SH HK.
  have [names G] : exists names, get_feature_names X = Ok names.
  { case: HK => [E|[SF|[HA HN]]].
    - by exists None; rewrite /get_feature_names E.
    - by exists (Some (cnames X)); exact: string_names.
    - exists None. apply: number_names => //. rewrite (shape_names SH HA). by case: SH => [_ []]. }
  have Hs : size (cols X) = d by case: SH => [_ [_ []]].
  rewrite /fit_transform /fit (shape_valid SH) /inner_fit G /= /inner_transform /= (check_own G) /=.
  rewrite /transform /setup_feature_attrs /= (shape_valid SH) /=.
  have E : check_features (size (cols X))
        (if kind X is TimeSeries then
           if is_str (head (Num 0) (cnames X)) then if get_feature_names X is Ok (Some a) then Some a else None
           else Some (cnames X)
         else if get_feature_names X is Ok (Some a) then Some a else None) X = Ok tt.
  { case: HK => [EK|[SF|[HA HN]]].
    - have G0 : get_feature_names X = Ok None by rewrite /get_feature_names EK.
      by rewrite EK G0 /check_features eqxx /= G0.
    - have E1 := string_names SF. rewrite E1 /=.
      rewrite (_ : (if kind X is TimeSeries then _ else _) = Some (cnames X)); last first.
      { case: SF => HA HN. have En := shape_names SH HA. have Hd : (0 < d)%N by case: SH => [_ []].
        case: (cnames X) En HN => [|a l] En HN; first by rewrite -En in Hd.
        have [s ->] := HN a (or_introl erefl). by case: (kind X). }
      exact: check_own.
    - have G0 : get_feature_names X = Ok None.
      { apply: number_names => //. rewrite (shape_names SH HA). by case: SH => [_ []]. }
      rewrite G0 /check_features eqxx /= G0 /=. by case: (kind X) => //=; case: (is_str _). }
  rewrite E /=. by rewrite /inner_transform /= (check_own G).
Qed.

(** ** numbers as labels *)

Definition x_names d : seq name := map (fun i => Str (String.append "x" (str_of_nat i))) (iota 0 d).

Lemma transform_numbers k n m d X Z : Shape n d X -> kind X = TimeSeries -> NumberNames X -> Shape m d Z ->
  kind Z = TimeSeries -> NumberNames Z ->
  transform k (fit1 k X) Z = Ok (scaled k X Z (x_names d)).
Proof.
  move=> SX KX NX SZ KZ NZ. have HA : kind X <> NumpyArray by rewrite KX. have HZ : kind Z <> NumpyArray by rewrite KZ.
  rewrite /fit1 (fit_numbers k SX HA NX) /transform /= (shape_valid SZ) /= KX.
  have G : get_feature_names Z = Ok None.
  { apply: number_names => //. rewrite (shape_names SZ HZ). by case: SZ => [_ []]. }
  have Hs : size (cols X) = d by case: SX => [_ [_ []]].
  have Hz : size (cols Z) = d by case: SZ => [_ [_ []]].
  rewrite /check_features Hz eqxx /= G /= /inner_transform /= /check_features Hs Hz eqxx /= G /=.
  rewrite /same_type KZ /inner_names_out /= size_map size_iota size_zip_with ?size_map ?Hs ?Hz // eqxx /=.
  by rewrite /scaled KZ.
Qed.

Lemma inverse_numbers k n m d X Z : Shape n d X -> kind X = TimeSeries -> NumberNames X -> Shape m d Z ->
  kind Z = TimeSeries ->
  inverse_transform k (fit1 k X) Z =
  Ok (Table TimeSeries (index Z) (cnames X) (zip_with (unapply k) (map (column_params k) (cols X)) (cols Z))).
Proof.
  move=> SX KX NX SZ KZ. have HA : kind X <> NumpyArray by rewrite KX.
  rewrite /fit1 (fit_numbers k SX HA NX) /inverse_transform /= /inner_inverse /= KX.
  have Hs : size (cols X) = d by case: SX => [_ [_ []]].
  have Hz : size (cols Z) = d by case: SZ => [_ [_ []]].
  have Hn := shape_names SX HA.
  by rewrite size_map Hs Hz eqxx /= /same_type KZ size_zip_with ?size_map ?Hs ?Hz // Hn eqxx.
Qed.

Lemma inverse_nameless k n m d X Z : Shape n d X ->
  (kind X = NumpyArray \/ (kind X = PandasFrame /\ NumberNames X)) -> Shape m d Z ->
  inverse_transform k (fit1 k X) Z = Err AttributeError.
Proof.
  move=> SX HK SZ.
  have Hs : size (cols X) = d by case: SX => [_ [_ []]].
  have Hz : size (cols Z) = d by case: SZ => [_ [_ []]].
  case: HK => [E|[E HN]].
  - rewrite /fit1 (fit_array k SX E) /inverse_transform /= /inner_inverse /=. by rewrite size_map Hs Hz eqxx.
  - have HA : kind X <> NumpyArray by rewrite E.
    rewrite /fit1 (fit_numbers k SX HA HN) /inverse_transform /= /inner_inverse /= E. by rewrite size_map Hs Hz eqxx.
Qed.

Lemma transform_array k n m d X Z : Shape n d X -> kind X = NumpyArray -> Shape m d Z -> kind Z = NumpyArray ->
  transform k (fit1 k X) Z = Ok (scaled k X Z [::]).
Proof.
  move=> SX KX SZ KZ. rewrite /fit1 (fit_array k SX KX) /transform /= (shape_valid SZ) /=.
  have Hs : size (cols X) = d by case: SX => [_ [_ []]].
  have Hz : size (cols Z) = d by case: SZ => [_ [_ []]].
  rewrite /check_features Hz eqxx /= /get_feature_names KZ /= /inner_transform /= /check_features Hs Hz eqxx /=.
  rewrite /get_feature_names KZ /= /same_type KZ /scaled KZ. case: SZ => [_ [_ [_ [_]]]]. by rewrite KZ => [[-> _]].
Qed.

End Proofs.
