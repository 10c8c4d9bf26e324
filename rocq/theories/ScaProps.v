(** * Theorems about feature scaling (C107). *)

From Coq Require Import String List ZArith.
From mathcomp Require Import all_ssreflect all_algebra.
From Verif Require Import Np TrModel ScaModel ScaSpec ScaProofs.
Import Order.Theory GRing.Theory Num.Theory.
Set Implicit Arguments.
Unset Strict Implicit.
Unset Printing Implicit Defensive.
Local Open Scope ring_scope.

(** C107: exactly the three documented names are accepted. *)
Theorem C107_from_name :
  forall s, from_name s = (if String.eqb s "center" then Ok Center else if String.eqb s "min-max" then Ok MinMax
                           else if String.eqb s "standard" then Ok Standard else Err ValueError) /\
  ((exists k, from_name s = Ok k) <-> List.In s [:: "center"%string; "min-max"%string; "standard"%string]).
Proof.
move=> s; split=> //; rewrite /from_name; split.
- case: (String.eqb_spec s "center") => [->|_]; first by left.
  case: (String.eqb_spec s "min-max") => [->|_]; first by right; left.
  by case: (String.eqb_spec s "standard") => [->|_ [k]] //; right; right; left.
- by move=> [<-|[<-|[<-|[]]]]; [exists Center | exists MinMax | exists Standard].
Qed.
Print Assumptions C107_from_name.

(** C107: after a fit on a frame with string labels, data with the same labels (or an array with
    the same number of features) is transformed to the same type, rows and labels, and the inverse
    transformation returns exactly the data; likewise in the other order. *)
Theorem C107_roundtrip :
  forall (R : rcfType) (I : Type) (eps : R) k n m d (X Z : table R I),
  0 < eps -> Shape n d X -> StringFrame X -> Shape m d Z ->
  (kind Z = NumpyArray \/ (kind Z <> NumpyArray /\ cnames Z = cnames X)) ->
  let s := (fit eps k (init R) X).1 in
  (exists T, transform k s Z = Ok T /\ Shape m d T /\ kind T = kind Z /\ index T = index Z /\ cnames T = cnames Z /\
             inverse_transform k s T = Ok Z) /\
  (exists T, inverse_transform k s Z = Ok T /\ transform k s T = Ok Z).
Proof.
move=> R I eps k n m d X Z He SX SF SZ C s; have Ss : s = fit1 eps k X by []; rewrite Ss.
have Hs : size (cols X) = size (cols Z) by case: SX => [_ [_ [-> _]]]; case: SZ => [_ [_ []]].
have EZ : (if kind Z is NumpyArray then [::] else cnames X) = cnames Z.
{ case: C => [E|[E ->]]; last by case: (kind Z) E => // E; case: (E erefl).
  by rewrite E; case: SZ => [_ [_ [_ [_]]]]; rewrite E => [[_ ->]]. }
split.
- exists (scaled eps k X Z (cnames Z)); split; first exact: transform_string SX SF SZ C.
  have ST := scaled_shape eps k SX SZ; do 4 (split; first by []).
  rewrite (inverse_string eps k SX SF ST) /= EZ zip_with_invK //; first by case: (Z).
  by move=> c x; exact: unapplyK.
- rewrite (inverse_string eps k SX SF SZ) EZ; eexists; split; first by [].
  set T := Table _ _ _ _.
  have ST : Shape m d T.
  { case: SZ => [Hm [Hd [Hz [Hc HK]]]]; do 2 (split; first by []).
    have E : size (map (column_params eps k) (cols X)) = size (cols Z) by rewrite size_map.
    split; first by rewrite /= size_zip_with.
    split; last by [].
    rewrite /T /=; move: (map _ _) (cols Z) E Hc => ps cs.
    elim: ps cs => [|p ps IH] [|c cs] //= [] E Hc a [<-|Ha].
    - by rewrite size_map; apply: Hc; left.
    - by apply: (IH cs) => // b Hb; apply: Hc; right. }
  have CT : Compatible X T by [].
  rewrite (transform_string eps k SX SF ST CT) /scaled /T /= zip_with_invK //; first by case: (Z).
  by move=> c x; exact: applyK.
Qed.
Print Assumptions C107_roundtrip.

(** C107: every row is transformed on its own: selecting, repeating or reordering rows before or
    after the transformation makes no difference. *)
Theorem C107_rows :
  forall (R : rcfType) (I : Type) (eps : R) k n m d (X Z T : table R I) (l : seq nat),
  Shape n d X -> StringFrame X -> Shape m d Z ->
  (kind Z = NumpyArray \/ (kind Z <> NumpyArray /\ cnames Z = cnames X)) ->
  (0 < size l)%N -> all (fun i => (i < m)%N) l ->
  let s := (fit eps k (init R) X).1 in
  transform k s Z = Ok T -> transform k s (take_rows l Z) = Ok (take_rows l T).
Proof.
move=> R I eps k n m d X Z T l SX SF SZ C Hl Hb s; have -> : s = fit1 eps k X by [].
have SL := take_rows_shape SZ Hb Hl.
rewrite (transform_string eps k SX SF SZ C) (@transform_string R I eps k n (size l) d X (take_rows l Z)) //.
by move=> [<-]; rewrite scaled_take.
Qed.
Print Assumptions C107_rows.

(** C107: the order of the training rows does not matter. *)
Theorem C107_sample_order :
  forall (R : rcfType) (I : Type) (eps : R) k n m d (X Z : table R I) (l : seq nat),
  Shape n d X -> StringFrame X -> Shape m d Z ->
  (kind Z = NumpyArray \/ (kind Z <> NumpyArray /\ cnames Z = cnames X)) ->
  perm_eq l (iota 0 n) ->
  transform k (fit eps k (init R) (take_rows l X)).1 Z = transform k (fit eps k (init R) X).1 Z /\
  inverse_transform k (fit eps k (init R) (take_rows l X)).1 Z = inverse_transform k (fit eps k (init R) X).1 Z.
Proof.
move=> R I eps k n m d X Z l SX SF SZ C P.
have Hl : size l = n by rewrite (perm_size P) size_iota.
have Hb : all (fun i => (i < n)%N) l by apply/allP => i; rewrite (perm_mem P) mem_iota.
have Hn : (0 < size l)%N by rewrite Hl; case: SX.
have SL := take_rows_shape SX Hb Hn.
have E1 := transform_string eps k SX SF SZ C.
have E2 := @transform_string R I eps k _ _ _ (take_rows l X) Z SL SF SZ C.
have E3 := inverse_string eps k SX SF SZ.
have E4 := @inverse_string R I eps k _ _ _ (take_rows l X) Z SL SF SZ.
rewrite /fit1 in E1 E2 E3 E4; rewrite E1 E2 E3 E4 /scaled (params_take eps k SX P); by split.
Qed.
Print Assumptions C107_sample_order.

(** C107: every feature is transformed on its own and strictly increasingly. *)
Theorem C107_increasing :
  forall (R : rcfType) (I : Type) (eps : R) k n m d (X Z T : table R I) i i' j,
  0 < eps -> Shape n d X -> StringFrame X -> Shape m d Z ->
  (kind Z = NumpyArray \/ (kind Z <> NumpyArray /\ cnames Z = cnames X)) ->
  transform k (fit eps k (init R) X).1 Z = Ok T ->
  (i < m)%N -> (i' < m)%N -> (j < d)%N ->
  (cell T i j < cell T i' j) = (cell Z i j < cell Z i' j).
Proof.
move=> R I eps k n m d X Z T i i' j He SX SF SZ C; have := transform_string eps k SX SF SZ C.
rewrite /fit1 => -> [<-] Hi Hi' Hj.
by rewrite !(cell_scaled eps k SX SZ) // apply_mono.
Qed.
Print Assumptions C107_increasing.

(** C107: "center" and "standard" give the training data the average zero; "standard" gives every
    feature the mean squared deviation one, unless the feature is constant up to the precision;
    features with a single value become zero. *)
Theorem C107_standardized :
  forall (R : rcfType) (I : Type) (eps : R) k n d (X T : table R I),
  0 < eps -> Shape n d X -> StringFrame X -> k <> MinMax ->
  transform k (fit eps k (init R) X).1 X = Ok T ->
  forall j, (j < d)%N ->
  let x i := cell X i j in
  let t i := cell T i j in
  [/\ average n t = 0,
      k = Center -> forall i, (i < n)%N -> t i = x i - average n x,
      k = Standard -> n%:R * eps * spread n x + (n%:R * average n x * eps) ^+ 2 < spread n x -> spread n t = 1 &
      (forall i, (i < n)%N -> x i = x 0%N) -> forall i, (i < n)%N -> t i = 0].
Proof.
move=> R I eps k n d X T He SX SF Hk HT j Hj x t.
have C : Compatible X X by right; split=> //; case: SF.
have ET : T = scaled eps k X X (cnames X).
{ by have := transform_string eps k SX SF SX C; rewrite /fit1 HT => [[->]]. }
set c := nth [::] (cols X) j.
have Hc : size c = n by exact: column_size SX Hj.
have Hn : (0 < size c)%N by rewrite Hc; case: SX.
set tc := map (apply k (column_params eps k c)) c.
have Ht : nth [::] (cols T) j = tc by rewrite ET; exact: (column_scaled eps k SX SX Hj).
have Htc : size tc = n by rewrite size_map.
have Ea : average n x = mean c by rewrite /x /cell -Hc averageE.
have Es : spread n x = variance c by rewrite /x /cell -Hc spreadE.
have Eat : average n t = mean tc by rewrite /t /cell Ht -Htc averageE.
have Est : spread n t = variance tc by rewrite /t /cell Ht -Htc spreadE.
have Ec i : (i < n)%N -> t i = apply k (column_params eps k c) (x i) by move=> Hi; rewrite /t ET; exact: (cell_scaled eps k SX SX Hi Hj).
split.
- rewrite Eat /tc; case: (k) Hk => // _; [exact: mean_centered | exact: mean_standard].
- by move=> E i Hi; rewrite Ec // E Ea.
- move=> E H; rewrite Est /tc E variance_standard //.
  by rewrite /is_constant Hc -Es -Ea leNgt H.
- move=> H i Hi; rewrite Ec //.
  have Em : mean c = x 0%N.
  { rewrite -Ea /average (eq_bigr (fun=> x 0%N)); last by move=> a _; exact: H.
    rewrite big_const card_ord iter_addr_0 -[x 0%N *+ n]mulr_natl mulrA mulVf ?mul1r //.
    by rewrite pnatr_eq0 -lt0n -Hc. }
  by case: (k) Hk => //= _; rewrite Em (H i Hi) subrr ?mul0r.
Qed.
Print Assumptions C107_standardized.

(** C107: "min-max" maps the training data into [0, 1]; the smallest value of every feature goes to 0
    and the largest to 1, unless the values differ by less than ten times the precision. *)
Theorem C107_min_max :
  forall (R : rcfType) (I : Type) (eps : R) n d (X T : table R I),
  0 < eps -> 10%:R * eps <= 1 -> Shape n d X -> StringFrame X ->
  transform MinMax (fit eps MinMax (init R) X).1 X = Ok T ->
  forall j, (j < d)%N ->
  [/\ forall i, (i < n)%N -> 0 <= cell T i j <= 1,
      forall i, (i < n)%N -> (forall i', (i' < n)%N -> cell X i j <= cell X i' j) -> cell T i j = 0 &
      forall i i', (i < n)%N -> (i' < n)%N -> (forall a, (a < n)%N -> cell X i' j <= cell X a j <= cell X i j) ->
        10%:R * eps <= cell X i j - cell X i' j -> cell T i j = 1].
Proof.
move=> R I eps n d X T He H10 SX SF.
have C : Compatible X X by right; split=> //; case: SF.
have := transform_string eps MinMax SX SF SX C; rewrite /fit1 => -> [<-] j Hj.
set c := nth [::] (cols X) j.
have Hc : size c = n by exact: column_size SX Hj.
have Hn : (0 < size c)%N by rewrite Hc; case: SX.
have Hin i : (i < n)%N -> cell X i j \in c by move=> Hi; apply: mem_nth; rewrite Hc.
have Hmin i : (i < n)%N -> (forall i', (i' < n)%N -> cell X i j <= cell X i' j) -> cell X i j = minimum c.
{ move=> Hi H; apply/eqP; rewrite eq_le (minimum_le (Hin i Hi)) andbT.
  have /(nthP 0) [a Ha <-] := minimum_in Hn; by apply: H; rewrite -Hc. }
have Hmax i : (i < n)%N -> (forall i', (i' < n)%N -> cell X i' j <= cell X i j) -> cell X i j = maximum c.
{ move=> Hi H; apply/eqP; rewrite eq_le (maximum_ge (Hin i Hi)) /=.
  have /(nthP 0) [a Ha <-] := maximum_in Hn; by apply: H; rewrite -Hc. }
split.
- move=> i Hi; rewrite (cell_scaled eps MinMax SX SX) //; apply: minmax_range => //; exact: Hin.
- move=> i Hi H; rewrite (cell_scaled eps MinMax SX SX) // (Hmin i Hi H); exact: minmax_zero.
- move=> i i' Hi Hi' H Hd; rewrite (cell_scaled eps MinMax SX SX) //.
  rewrite (Hmax i Hi); last by move=> a /H /andP [].
  apply: minmax_one => //.
  have E1 : cell X i j = maximum c by apply: Hmax => // a /H /andP [].
  have E2 : cell X i' j = minimum c by apply: Hmin => // a /H /andP [].
  by rewrite -E1 -E2.
Qed.
Print Assumptions C107_min_max.

(** C107: [fit_transform] is [fit] followed by [transform]. *)
Theorem C107_fit_transform :
  forall (R : rcfType) (I : Type) (eps : R) k n d (X : table R I),
  Shape n d X -> (kind X = NumpyArray \/ StringFrame X \/ (kind X <> NumpyArray /\ NumberNames X)) ->
  fit_transform eps k (init R) X = ((fit eps k (init R) X).1, transform k (fit eps k (init R) X).1 X) /\
  (fit eps k (init R) X).2 = Ok tt.
Proof.
move=> R I eps k n d X SX HK; split; first exact: fit_transform_eq SX HK.
case: HK => [E|[SF|[HA HN]]].
- by rewrite (fit_array eps k SX E).
- by rewrite (fit_string eps k SX SF).
- by rewrite (fit_numbers eps k SX HA HN).
Qed.
Print Assumptions C107_fit_transform.

(** C107: arrays are transformed but never mapped back: the inverse transformation raises an
    AttributeError for every object fitted to an array (or to a pandas frame with numbers as labels),
    although the documentation lists arrays and the same type is promised. *)
Theorem C107_array_inverse_refuted :
  forall (R : rcfType) (I : Type) (eps : R) k n m d (X Z : table R I),
  Shape n d X -> (kind X = NumpyArray \/ (kind X = PandasFrame /\ NumberNames X)) -> Shape m d Z ->
  (kind X = NumpyArray -> kind Z = NumpyArray -> exists T, transform k (fit eps k (init R) X).1 Z = Ok T /\ Shape m d T) /\
  inverse_transform k (fit eps k (init R) X).1 Z = Err AttributeError.
Proof.
move=> R I eps k n m d X Z SX HK SZ; split; last exact: inverse_nameless SX HK SZ.
move=> KX KZ; exists (scaled eps k X Z [::]); split; first exact: transform_array SX KX SZ KZ.
by have := scaled_shape eps k SX SZ; case: (SZ) => [_ [_ [_ [_]]]]; rewrite KZ => [[_ ->]].
Qed.
Print Assumptions C107_array_inverse_refuted.

(** C107: a time series collection with numbers as labels gets the labels x0, x1, ...; the inverse
    transformation restores the numbers. *)
Theorem C107_number_labels :
  forall (R : rcfType) (I : Type) (eps : R) k n m d (X Z : table R I),
  0 < eps -> Shape n d X -> kind X = TimeSeries -> NumberNames X ->
  Shape m d Z -> kind Z = TimeSeries -> cnames Z = cnames X ->
  let s := (fit eps k (init R) X).1 in
  exists T, transform k s Z = Ok T /\ index T = index Z /\
  cnames T = map (fun i => Str (String.append "x" (str_of_nat i))) (iota 0 d) /\
  inverse_transform k s T = Ok Z.
Proof.
move=> R I eps k n m d X Z He SX KX NX SZ KZ EZ s.
have NZ : NumberNames Z by rewrite /NumberNames EZ.
have Hs : size (cols X) = size (cols Z) by case: SX => [_ [_ [-> _]]]; case: SZ => [_ [_ []]].
exists (scaled eps k X Z (x_names d)); split; first exact: transform_numbers SX KX NX SZ KZ NZ.
do 2 (split; first by []).
have ST : Shape m d (scaled eps k X Z (x_names d)).
{ have [Hm [Hd [H1 [H2 H3]]]] := scaled_shape eps k SX SZ.
  do 4 (split; first by []).
  move: H3; rewrite /= KZ => [[-> _]]; by rewrite size_map size_iota. }
have KT : kind (scaled eps k X Z (x_names d)) = TimeSeries by [].
rewrite /s (inverse_numbers eps k SX KX NX ST KT) /= zip_with_invK //; last by move=> c x; exact: unapplyK.
by rewrite -EZ -KZ; case: (Z).
Qed.
Print Assumptions C107_number_labels.

(** C107: a fit that fails destroys an earlier fit, a failing [fit_transform] on empty data does not. *)
Theorem C107_failed_fit :
  forall (R : rcfType) (I : Type) (eps : R) k (s : state R) (X Z : table R I),
  cols X = [::] ->
  (exists e, (fit eps k s X).2 = Err e) /\
  (exists e, transform k (fit eps k s X).1 Z = Err e) /\
  inverse_transform k (fit eps k s X).1 Z = Err AttributeError /\
  (fit_transform eps k s X).1 = s.
Proof.
move=> R I eps k s X Z E; rewrite /fit /fit_transform.
have V : exists e, validate_data X = Err e by rewrite /validate_data E orbT; case: (kind X); eexists.
case: V => e ->; split; first by exists e.
split; last by [].
rewrite /transform /=; case: (validate_data Z) => [u|e'] /=; last by eexists.
case: (n_features_in s) => [a|]; last by eexists.
case: (n_features_out s) => [b|]; last by eexists.
by case: (check_features _ _ _) => [u'|e'] /=; eexists.
Qed.
Print Assumptions C107_failed_fit.

(** C107: labels are not compared by the inverse transformation: a frame with other (for example
    exchanged) labels is accepted, scaled by position and gets the labels of the fit;
    [transform] rejects such a frame. *)
Theorem C107_labels_refuted :
  forall (R : rcfType) (I : Type) (eps : R) k n m d (X Z : table R I) labels,
  Shape n d X -> StringFrame X -> Shape m d Z -> kind Z <> NumpyArray ->
  size labels = d -> (forall a, List.In a labels -> exists s, a = Str s) -> labels <> cnames X ->
  let s := (fit eps k (init R) X).1 in
  let Z' := Table (kind Z) (index Z) labels (cols Z) in
  transform k s Z' = Err ValueError /\
  inverse_transform k s Z' = inverse_transform k s Z /\
  exists Y, inverse_transform k s Z' = Ok Y /\ cnames Y = cnames X.
Proof.
move=> R I eps k n m d X Z l SX SF SZ KZ Hl HS HN s Z'.
have SZ' : Shape m d Z'.
{ case: SZ => [Hm [Hd [H1 [H2 H3]]]]; do 4 (split; first by []).
  by rewrite /Z' /=; case: (kind Z) KZ H3 => // _ [H3 _]. }
have SF' : StringFrame Z' by split.
split.
- rewrite /s (fit_string eps k SX SF) /transform /= (shape_valid SZ') /=.
  by rewrite (check_other SZ' SF') //= => E; apply: HN.
- have E1 := inverse_string eps k SX SF SZ'; have E2 := inverse_string eps k SX SF SZ.
  rewrite /fit1 in E1 E2; rewrite /s E1 E2; split; first by [].
  eexists; split; first by [].
  by rewrite /=; case: (kind Z) KZ => // KZ; case: (KZ erefl).
Qed.
Print Assumptions C107_labels_refuted.

(** C107: an object cannot be fitted to data with other labels: the second fit succeeds, but its own
    training data is then rejected. *)
Theorem C107_refit_refuted :
  forall (R : rcfType) (I : Type) (eps : R) k n m d (X Y : table R I),
  Shape n d X -> StringFrame X -> Shape m d Y -> StringFrame Y -> cnames Y <> cnames X ->
  let s := (fit eps k (init R) X).1 in
  let s' := (fit eps k s Y).1 in
  (fit eps k s Y).2 = Ok tt /\ transform k s' Y = Err ValueError /\
  exists T, transform k (fit eps k (init R) Y).1 Y = Ok T.
Proof.
move=> R I eps k n m d X Y SX FX SY FY N s s'.
have [f E] : exists f, fit eps k s Y = (State (Some (Some f)) (Some d) (Some (cnames X)) (Some d), Ok tt).
{ by rewrite /s (fit_string eps k SX FX); apply: (refit_stale eps k Y SY FY). }
rewrite /s' E; split; first by [].
split.
- rewrite /transform /= (shape_valid SY) /= (check_other SY FY) // => E'; exact: N.
- exists (scaled eps k Y Y (cnames Y)); apply: (transform_string eps k SY FY SY); right; split=> //; by case: FY.
Qed.
Print Assumptions C107_refit_refuted.

(** A concrete case: two features, the second constant. *)
Example C107_example :
  forall (R : rcfType) (eps : R), 0 < eps -> 10%:R * eps <= 1 ->
  let X := Table TimeSeries [:: (0, 0); (0, 1); (7, 5)]%N [:: Str "a"; Str "b"] [:: [:: 2%:R; 6%:R; 4%:R]; [:: 5%:R; 5%:R; 5%:R]] in
  Shape 3 2 X /\ StringFrame X /\
  transform MinMax (fit eps MinMax (init R) X).1 X =
  Ok (Table TimeSeries [:: (0, 0); (0, 1); (7, 5)]%N [:: Str "a"; Str "b"] [:: [:: 0; 1; 2%:R^-1]; [:: 0; 0; 0]]).
Proof.
move=> R eps He H10 X.
have SX : Shape 3 2 X by do 3 (split; first by []); split; [move=> c [<-|[<-|[]]] | split].
have SF : StringFrame X by split=> // a [<-|[<-|[]]]; eexists.
split=> //; split=> //.
have C : Compatible X X by right.
have -> := @transform_string R _ eps MinMax 3 3 2 X X SX SF SX C.
rewrite /scaled /X /= /minimum /maximum /= !minxx !maxxx !subrr.
have L26 : (2%:R : R) <= 6%:R by rewrite ler_nat.
have L24 : (2%:R : R) <= 4%:R by rewrite ler_nat.
have L46 : (4%:R : R) <= 6%:R by rewrite ler_nat.
have -> : Order.min (4%:R : R) 2%:R = 2%:R by apply/min_idPr.
have -> : Order.min (6%:R : R) 2%:R = 2%:R by apply/min_idPr.
have -> : Order.max (4%:R : R) 2%:R = 4%:R by apply/max_idPl.
have -> : Order.max (6%:R : R) 4%:R = 6%:R by apply/max_idPl.
have -> : Order.max (2%:R : R) 6%:R = 6%:R by apply/max_idPr.
rewrite minxx.
have D : (6%:R - 2%:R : R) = 4%:R by rewrite -natrB.
rewrite D.
have -> : ((4%:R : R) < 10%:R * eps) = false.
{ apply/negbTE; rewrite -leNgt; apply: le_trans H10 _; by rewrite ler1n. }
have -> : ((0 : R) < 10%:R * eps) = true by rewrite mulr_gt0 // ltr0n.
have N4 : (4%:R : R) != 0 by rewrite pnatr_eq0.
rewrite !sub0r !subrr.
have -> : 6%:R * (1 / 4%:R) - 2%:R * (1 / 4%:R) = 1 :> R by rewrite -mulrBl D mul1r divff.
have -> // : 4%:R * (1 / 4%:R) - 2%:R * (1 / 4%:R) = 2%:R^-1 :> R.
have E2 : 4%:R = 2%:R * 2%:R :> R by rewrite -natrM.
by rewrite -mulrBl mul1r -natrB // {1}(_ : (4 - 2 = 2)%N) // E2 invfM mulrA divff ?mul1r // pnatr_eq0.
Qed.
Print Assumptions C107_example.
