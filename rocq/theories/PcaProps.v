(** * Theorems about principal components (C108). *)

From Coq Require Import String List ZArith.
From mathcomp Require Import all_ssreflect all_algebra.
From Verif Require Import Np TrModel ScaModel ScaProofs PcaModel PcaSpec PcaProofs PcaExample.
Import Order.Theory GRing.Theory Num.Theory.
Set Implicit Arguments.
Unset Strict Implicit.
Unset Printing Implicit Defensive.
Local Open Scope ring_scope.

(** C108: after a fit on a frame there are orthonormal directions such that, for all later data,
    the inverse transformation of the transformation is the projection to the affine subspace through
    the average of the training data (so it returns exactly the data that lies in it), and the
    transformation of the inverse transformation is the identity; types, rows and labels are kept,
    reduced data has the labels pca0, pca1, ... *)
Theorem C108_projection :
  forall (R : rcfType) (I : Type) (svd : svd_t R) nc whiten n d (X : mtable R I n d) sv,
  let k := components nc n d in
  (0 < n)%N -> (0 < d)%N -> (k <= minn n d)%N -> GoodFrame X -> Decomposed svd whiten k (vals X) sv ->
  (p_fit svd nc (pinit R) X).2 = Ok tt /\
  let s := (p_fit svd nc (pinit R) X).1 in
  let b := average_row (vals X) in
  exists C : 'M[R]_(k, d), C *m C^T = 1%:M /\
  (forall m (Z : mtable R I m d), (0 < m)%N -> Labelled (mnames X) Z ->
     exists (T : mtable R I m k) (Y : mtable R I m d),
     p_transform whiten s Z = Ok (existT (fun q => mtable R I m q) k T) /\ mkind T = mkind Z /\ mindex T = mindex Z /\ Labelled (pca_labels k) T /\
     p_inverse whiten s T = Ok (existT (fun q => mtable R I m q) d Y) /\ mkind Y = mkind Z /\ mindex Y = mindex Z /\ mnames Y = mnames Z /\
     vals Y = project b C (vals Z) /\
     (vals Y = vals Z <-> InSubspace b C (vals Z))) /\
  (forall m (T : mtable R I m k), (0 < m)%N -> Labelled (pca_labels k) T ->
     exists Y : mtable R I m d, p_inverse whiten s T = Ok (existT (fun q => mtable R I m q) d Y) /\ mindex Y = mindex T /\
       Labelled (mnames X) Y /\ p_transform whiten s Y = Ok (existT (fun q => mtable R I m q) k T)).
Proof.
move=> R I svd nc whiten n d X sv k Hn Hd Hk HG HD.
have [U [V [HS [Ef _]]]] := p_fitE (pinit R) Hn Hd HG Hk HD.
rewrite Ef; split=> // s b; exists (first_rows k V).
have HC := cut_orth HS Hk; split=> //.
have Hv := @scale_nz R svd nc whiten n d (vals X) sv Hn Hk HD.
have [HK [Hl HN]] := HG; have Hstr := strings_all HN.
have ET m (Z : mtable R I m d) := p_transformE whiten b (first_rows k V) (first_entries k (\row_j (sv 0 j ^+ 2 / (n.-1)%:R))) Hd Hstr (Z := Z).
have EI m (Z : mtable R I m k) := p_inverseE whiten b (first_rows k V) (first_entries k (\row_j (sv 0 j ^+ 2 / (n.-1)%:R))) Hl (Z := Z).
split=> m Z Hm HZ.
- eexists; eexists; split; first exact: ET.
  do 2 (split; first by []).
  have HT : forall W, Labelled (pca_labels k) (MTable (mkind Z) (mindex Z) (if mkind Z is NumpyArray then [::] else pca_names k) W : mtable R I m k).
  { move=> W; case: HZ => [[E [Ei En]]|[E En]]; first by left; rewrite /= E Ei.
    by right; split=> //=; case: (mkind Z) E => // E; case: (E erefl). }
  split; first exact: HT.
  split; first exact: EI.
  do 2 (split; first by []).
  split.
  { by case: HZ => [[E [_ En]]|[E En]]; rewrite /= En ?E //; case: (mkind Z) E => // E; case: (E erefl). }
  rewrite /= (transformK _ _ Hv); split=> //.
  exact: project_fix.
- eexists; split; first exact: EI.
  split; first by [].
  have HY : forall W, Labelled (mnames X) (MTable (mkind Z) (mindex Z) (if mkind Z is NumpyArray then [::] else mnames X) W : mtable R I m d).
  { move=> W; case: HZ => [[E [Ei En]]|[E En]]; first by left; rewrite /= E Ei.
    by right; split=> //=; case: (mkind Z) E => // E; case: (E erefl). }
  split; first exact: HY.
  rewrite ET //= inverseK //.
  case: HZ => [[E [Ei En]]|[E En]]; first by case: (Z) E En => a i l w /= -> ->.
  by case: (Z) E En => a i l w /= E ->; case: a E => // E; case: (E erefl).
Qed.
Print Assumptions C108_projection.

(** C108: among all affine subspaces with at most [k] dimensions, the reconstruction of the training
    data has the least error; the error is the energy of the dropped singular values, so with all
    components the training data is reconstructed exactly. *)
Theorem C108_optimal :
  forall (R : rcfType) (I : Type) (svd : svd_t R) nc whiten n d (X : mtable R I n d) sv,
  let k := components nc n d in
  (0 < n)%N -> (0 < d)%N -> (k <= minn n d)%N -> GoodFrame X -> Decomposed svd whiten k (vals X) sv ->
  let s := (p_fit svd nc (pinit R) X).1 in
  exists (T : mtable R I n k) (Y : mtable R I n d),
  p_transform whiten s X = Ok (existT _ k T) /\ p_inverse whiten s T = Ok (existT _ d Y) /\
  sq_norm (vals X - vals Y) = \sum_(j < minn n d | (k <= j)%N) sv 0 j ^+ 2 /\
  (forall t (b : 'rV[R]_d) (W : 'M[R]_(t, d)), (t <= k)%N -> W *m W^T = 1%:M ->
     sq_norm (vals X - vals Y) <= sq_norm (vals X - project b W (vals X))) /\
  (k = minn n d -> Y = X).
Proof.
move=> R I svd nc whiten n d X sv k Hn Hd Hk HG HD.
have [U [V [HS [Ef _]]]] := p_fitE (pinit R) Hn Hd HG Hk HD.
rewrite Ef => s.
have Hv := @scale_nz R svd nc whiten n d (vals X) sv Hn Hk HD.
have [HK [Hl HN]] := HG; have Hstr := strings_all HN.
have ET m (Z : mtable R I m d) := p_transformE whiten (average_row (vals X)) (first_rows k V) (first_entries k (\row_j (sv 0 j ^+ 2 / (n.-1)%:R))) Hd Hstr (Z := Z).
have EI m (Z : mtable R I m k) := p_inverseE whiten (average_row (vals X)) (first_rows k V) (first_entries k (\row_j (sv 0 j ^+ 2 / (n.-1)%:R))) Hl (Z := Z).
eexists; eexists; split; first by apply: ET => //; right.
split; first by apply: EI; right; split=> //=; case: (mkind X) HK.
have EP : vals X - project (average_row (vals X)) (first_rows k V) (vals X) =
          (vals X - repeat_row n (average_row (vals X))) - (vals X - repeat_row n (average_row (vals X))) *m (first_rows k V)^T *m first_rows k V.
{ by rewrite /project opprD addrA. }
have EE : sq_norm (vals X - project (average_row (vals X)) (first_rows k V) (vals X)) = \sum_(j < minn n d | (k <= j)%N) sv 0 j ^+ 2.
{ rewrite EP; exact: cut_error HS Hk. }
rewrite /= (transformK _ _ Hv); split=> //; split.
- move=> t b W Ht HW; exact: project_best Hn HS Hk Ht HW.
- move=> E; have H0 : project (average_row (vals X)) (first_rows k V) (vals X) = vals X.
  { apply/esym/eqP; rewrite -subr_eq0; apply/eqP; apply: sq_norm_eq0; rewrite EE big1 // => j; rewrite E.
    by rewrite leqNgt ltn_ord. }
  rewrite H0; by case: (X) HK => a i l w /=; case: a => // HK; case: (HK erefl).
Qed.
Print Assumptions C108_optimal.

(** C108: [fit_transform] is [fit] followed by [transform]; the columns of the reduced training data
    have average zero and are orthogonal, their energy is the square of the singular values or, with
    [whiten], n - 1. *)
Theorem C108_scores :
  forall (R : rcfType) (I : Type) (svd : svd_t R) nc whiten n d (X : mtable R I n d) sv,
  let k := components nc n d in
  (0 < n)%N -> (0 < d)%N -> (k <= minn n d)%N -> GoodFrame X -> Decomposed svd whiten k (vals X) sv ->
  let s := (p_fit svd nc (pinit R) X).1 in
  exists T : mtable R I n k,
  p_fit_transform svd nc whiten (pinit R) X = (s, Ok (existT _ k T)) /\
  p_transform whiten s X = Ok (existT _ k T) /\
  mkind T = mkind X /\ mindex T = mindex X /\ mnames T = pca_labels k /\
  average_row (vals T) = 0 /\
  forall (i j : 'I_k) (l : 'I_(minn n d)), val l = val j ->
    ((vals T)^T *m vals T) i j = if i == j then (if whiten then n%:R - 1 else sv 0 l ^+ 2) else 0.
Proof.
move=> R I svd nc whiten n d X sv k Hn Hd Hk HG HD.
have [U [V [HS [Ef Ef2]]]] := p_fitE (pinit R) Hn Hd HG Hk HD.
rewrite Ef Ef2 => s.
have [HK [Hl HN]] := HG; have Hstr := strings_all HN.
exists (MTable (mkind X) (mindex X) (pca_names k) (pca_scores whiten ((first_rows k U^T)^T, first_entries k sv))).
split.
{ by rewrite /= /p_same_type pca_names_size eqxx /=; case: (mkind X) HK => // H; case: (H erefl). }
split.
{ rewrite /s /= (p_transformE _ _ _ _ Hd Hstr) //; last by right.
  rewrite -(scores_eq Hn Hk HD HS); by case: (mkind X) HK => // H; case: (H erefl). }
do 3 (split; first by []).
split; first by rewrite /=; exact: (scores_average Hn Hk HD HS).
move=> i j l El; rewrite /= (scores_gram whiten Hk HS) mxE; case: eqP => [->|_]; last by rewrite mulr0n.
rewrite mulr1n mxE; case: ifP => _; first by rewrite -{2}(prednK Hn) mulrS addrC addKr.
have Hj : (val j < minn n d)%N by rewrite -El; exact: ltn_ord.
by rewrite mxE insubT /=; congr (sv 0 _ ^+ 2); apply: val_inj.
Qed.
Print Assumptions C108_scores.

(** C108: more components than rows or features are refused, and then nothing is fitted. *)
Theorem C108_components :
  forall (R : rcfType) (I : Type) (svd : svd_t R) k whiten n d (X : mtable R I n d),
  (0 < n)%N -> (0 < d)%N -> GoodFrame X -> (minn n d < k)%N ->
  (p_fit svd (Some k) (pinit R) X).2 = Err ValueError /\
  forall m (Z : mtable R I m d), p_transform whiten (p_fit svd (Some k) (pinit R) X).1 Z = Err AttributeError.
Proof.
move=> R I svd k whiten n d X Hn Hd HG Hk.
by rewrite /p_fit (p_valid X Hn Hd) (good_names HG) /pca_fit Hk.
Qed.
Print Assumptions C108_components.

(** C108 (refuted): after a fit on an array or on a frame with numbers as labels, no reduced data can
    be transformed back: the labels are read without being set. *)
Theorem C108_array_refuted :
  forall (R : rcfType) (I : Type) (svd : svd_t R) nc whiten n d (X : mtable R I n d),
  let k := components nc n d in
  (0 < n)%N -> (0 < d)%N -> (k <= minn n d)%N ->
  mkind X = NumpyArray \/
  mkind X = PandasFrame /\ size (mnames X) = d /\ (forall a, List.In a (mnames X) -> exists z, a = Num z) ->
  (p_fit svd nc (pinit R) X).2 = Ok tt /\
  let s := (p_fit svd nc (pinit R) X).1 in
  (exists T : mtable R I n k, p_transform whiten s X = Ok (existT _ k T)) /\
  forall m (T : mtable R I m k), Labelled (pca_labels k) T -> p_inverse whiten s T = Err AttributeError.
Proof.
move=> R I svd nc whiten n d X k Hn Hd Hk HX.
have EN : names_of (mkind X) (mnames X) = Ok None.
{ case: HX => [->|[-> [Hl HN]]] //; rewrite /names_of.
  rewrite numbers_not_all //; last by rewrite Hl.
  have -> : has is_str (mnames X) = false; last by [].
  elim: (mnames X) HN => //= x l IH HN; rewrite IH; last by move=> a Ha; apply: HN; right.
  by have [z ->] := HN x (or_introl erefl). }
rewrite /p_fit (p_valid X Hn Hd) EN /pca_fit -/(components nc n d) ltnNge Hk /=.
case: (svd n d _) => [[U sv] V]; split=> //; split.
- rewrite /p_transform /= (p_valid X Hn Hd) /=.
  have -> : (match mkind X with TimeSeries => if is_str (head (Num 0) (mnames X)) then None else Some (mnames X) | _ => None end) = None.
  { by case: HX => [->|[-> _]]. }
  rewrite /p_setup /check_header /= eqxx EN /=.
  case: eqP => // e; rewrite /p_same_type pca_names_size eqxx /=.
  case: HX => [->|[-> _]]; by eexists.
- move=> m T HT; rewrite /p_inverse /p_setup /= pca_names_size eqxx /=.
  have -> : (if mkind T is NumpyArray then true else names_equal (pca_names k) (mnames T)) = true.
  { by case: HT => [[-> _] //|[HK ->]]; case: (mkind T) HK => // _; rewrite names_equal_refl. }
  case: eqP => // e.
  by case: HX => [->|[-> _]].
Qed.
Print Assumptions C108_array_refuted.

(** C108: after a second fit with as many components as the first the object is the one a single fit
    gives, whatever the labels of the first data. *)
Theorem C108_refit :
  forall (R : rcfType) (I : Type) (svd : svd_t R) nc1 nc2 whiten n1 d1 (X1 : mtable R I n1 d1) sv1 n2 d2 (X2 : mtable R I n2 d2) sv2,
  let k1 := components nc1 n1 d1 in let k2 := components nc2 n2 d2 in
  (0 < n1)%N -> (0 < d1)%N -> (k1 <= minn n1 d1)%N -> GoodFrame X1 -> Decomposed svd whiten k1 (vals X1) sv1 ->
  (0 < n2)%N -> (0 < d2)%N -> (k2 <= minn n2 d2)%N -> GoodFrame X2 -> Decomposed svd whiten k2 (vals X2) sv2 ->
  k1 = k2 ->
  p_fit svd nc2 (p_fit svd nc1 (pinit R) X1).1 X2 = p_fit svd nc2 (pinit R) X2.
Proof.
move=> R I svd nc1 nc2 whiten n1 d1 X1 sv1 n2 d2 X2 sv2 k1 k2 Hn1 Hd1 Hk1 HG1 HD1 Hn2 Hd2 Hk2 HG2 HD2 Ek.
have [U1 [V1 [HS1 [-> _]]]] := p_fitE (pinit R) Hn1 Hd1 HG1 Hk1 HD1.
rewrite /p_fit (p_valid X2 Hn2 Hd2) (good_names HG2) /pca_fit -/(components nc2 n2 d2) -/k2 ltnNge Hk2 /=.
case: (svd n2 d2 _) => [[U sv] V]; by rewrite /p_setup /= pca_names_size -/k1 Ek.
Qed.
Print Assumptions C108_refit.

(** C108 (refuted): after a second fit with another number of components the object transforms, but
    refuses to transform back what it returned. *)
Theorem C108_refit_refuted :
  forall (R : rcfType) (I : Type) (svd : svd_t R) nc1 nc2 whiten n1 d1 (X1 : mtable R I n1 d1) sv1 n2 d2 (X2 : mtable R I n2 d2) sv2,
  let k1 := components nc1 n1 d1 in let k2 := components nc2 n2 d2 in
  (0 < n1)%N -> (0 < d1)%N -> (k1 <= minn n1 d1)%N -> GoodFrame X1 -> Decomposed svd whiten k1 (vals X1) sv1 ->
  (0 < n2)%N -> (0 < d2)%N -> (k2 <= minn n2 d2)%N -> GoodFrame X2 -> Decomposed svd whiten k2 (vals X2) sv2 ->
  k1 <> k2 ->
  let r := p_fit svd nc2 (p_fit svd nc1 (pinit R) X1).1 X2 in
  r.2 = Ok tt /\
  (exists T : mtable R I n2 k2, p_transform whiten r.1 X2 = Ok (existT _ k2 T) /\ p_inverse whiten r.1 T = Err ValueError).
Proof.
move=> R I svd nc1 nc2 whiten n1 d1 X1 sv1 n2 d2 X2 sv2 k1 k2 Hn1 Hd1 Hk1 HG1 HD1 Hn2 Hd2 Hk2 HG2 HD2 Ek.
have [U1 [V1 [HS1 [-> _]]]] := p_fitE (pinit R) Hn1 Hd1 HG1 Hk1 HD1.
set s1 := PState _ _ _ _.
have [U2 [V2 [HS2 [-> _]]]] := p_fitE s1 Hn2 Hd2 HG2 Hk2 HD2.
move=> r; split=> //.
have [HK [Hl HN]] := HG2; have Hstr := strings_all HN.
have := p_transformE whiten (average_row (vals X2)) (first_rows k2 V2) (first_entries k2 (\row_j (sv2 0 j ^+ 2 / (n2.-1)%:R))) Hd2 Hstr Hn2 (or_intror (conj HK erefl)).
rewrite /p_transform /= => ->; eexists; split; first by [].
by rewrite /p_inverse /= -/k1 -/k2; move/eqP: Ek => ->.
Qed.
Print Assumptions C108_refit_refuted.

(** C108: frames with other labels and data with another number of columns are refused, by
    [transform] and by [inverse_transform]. *)
Theorem C108_labels :
  forall (R : rcfType) (I : Type) (svd : svd_t R) nc whiten n d (X : mtable R I n d) sv,
  let k := components nc n d in
  (0 < n)%N -> (0 < d)%N -> (k <= minn n d)%N -> GoodFrame X -> Decomposed svd whiten k (vals X) sv ->
  let s := (p_fit svd nc (pinit R) X).1 in
  (forall m q (Z : mtable R I m q), (0 < m)%N -> (0 < q)%N -> q <> d -> p_transform whiten s Z = Err ValueError) /\
  (forall m (Z : mtable R I m d), (0 < m)%N -> GoodFrame Z -> mnames Z <> mnames X -> p_transform whiten s Z = Err ValueError) /\
  (forall m q (Z : mtable R I m q), q <> k -> p_inverse whiten s Z = Err ValueError) /\
  (forall m (Z : mtable R I m k), mkind Z <> NumpyArray -> mnames Z <> pca_labels k -> p_inverse whiten s Z = Err ValueError).
Proof.
move=> R I svd nc whiten n d X sv k Hn Hd Hk HG HD.
have [U [V [HS [-> _]]]] := p_fitE (pinit R) Hn Hd HG Hk HD; move=> s; split; [|split; [|split]].
- move=> m q Z Hm Hq Ne; rewrite /p_transform /= (p_valid Z Hm Hq) /= /check_header; by move/eqP: Ne => ->.
- move=> m Z Hm HZ Ne; rewrite /p_transform /= (p_valid Z Hm Hd) /= /check_header eqxx (good_names HZ) /=.
  case E : (names_equal _ _) => //; by case: Ne; rewrite (names_equal_eq E).
- by move=> m q Z Ne; rewrite /p_inverse /= eq_sym; move/eqP: Ne => ->.
- move=> m Z HK Ne; rewrite /p_inverse /= eqxx /=.
  have -> : (if mkind Z is NumpyArray then true else names_equal (pca_names k) (mnames Z)) = false; last by [].
  have E : names_equal (pca_names k) (mnames Z) = false.
  { by apply/negP => /names_equal_eq E; case: Ne. }
  by case: (mkind Z) HK => // H; case: (H erefl).
Qed.
Print Assumptions C108_labels.

(** The hypotheses are met by four points in the plane, reduced to one component with or without
    whitening: the error is the square of the second singular value, 100. *)
Example C108_example (R : rcfType) (whiten : bool) :
  GoodFrame (ex_frame R) /\ Decomposed (@ex_svd R) whiten (components (Some 1%N) 4 2) (vals (ex_frame R)) (ex_s R) /\
  exists T Y, p_transform whiten (p_fit (@ex_svd R) (Some 1%N) (pinit R) (ex_frame R)).1 (ex_frame R) = Ok (existT _ 1%N T) /\
    p_inverse whiten (p_fit (@ex_svd R) (Some 1%N) (pinit R) (ex_frame R)).1 T = Ok (existT _ 2%N Y) /\
    mnames T = [:: Str "pca0"] /\ mnames Y = [:: Str "x"; Str "y"] /\
    sq_norm (vals (ex_frame R) - vals Y) = 10%:R ^+ 2.
Proof.
have HG := ex_good R; have HD := ex_decomposed R whiten 1.
split=> //; split=> //.
have [T [Y [E1 [E2 [E3 _]]]]] := C108_optimal (isT : (0 < 4)%N) (isT : (0 < 2)%N) (isT : (components (Some 1%N) 4 2 <= minn 4 2)%N) HG HD.
exists T, Y; do 2 (split; first by []).
have [T' [_ [E1' [_ [_ [EN _]]]]]] := C108_scores (isT : (0 < 4)%N) (isT : (0 < 2)%N) (isT : (components (Some 1%N) 4 2 <= minn 4 2)%N) HG HD.
have [_ [C [_ [HP _]]]] := C108_projection (isT : (0 < 4)%N) (isT : (0 < 2)%N) (isT : (components (Some 1%N) 4 2 <= minn 4 2)%N) HG HD.
have HL : Labelled (mnames (ex_frame R)) (ex_frame R) by right.
have [T2 [Y2 [F1 [_ [_ [_ [F2 [_ [_ [F3 _]]]]]]]]]] := HP 4%N (ex_frame R) isT HL.
have inj (m : nat) (q : nat) (A B : mtable R nat m q) :
  Ok (existT (fun q => mtable R nat m q) q A) = Ok (existT (fun q => mtable R nat m q) q B) -> A = B.
{ move=> E; have E' : existT (fun q => mtable R nat m q) q A = existT (fun q => mtable R nat m q) q B by case: E.
  exact: Eqdep_dec.inj_pair2_eq_dec PeanoNat.Nat.eq_dec _ _ _ _ E'. }
have ET : T' = T by apply: inj; rewrite -E1'; exact: E1.
have ET2 : T2 = T by apply: inj; rewrite -F1; exact: E1.
have EY : Y2 = Y by apply: inj; rewrite -F2 ET2; exact: E2.
split; first by rewrite -ET EN.
split; first by rewrite -EY F3.
rewrite E3 (bigD1 (Ordinal (isT : 1 < minn 4 2)%N)) //= big1 ?addr0; first by rewrite mxE.
by case=> [[|[|//]]] Hj /andP [].
Qed.
