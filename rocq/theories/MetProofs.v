(** * Lemmas about metrics of time series collections. *)

From Coq Require Import ZArith List.
From mathcomp Require Import all_ssreflect all_algebra.
From Verif Require Import Np NpFacts TscModel TscSpec MetModel MetSpec.
Import Order.Theory GRing.Theory Num.Theory.
Set Implicit Arguments.
Unset Strict Implicit.
Unset Printing Implicit Defensive.
Local Open Scope ring_scope.

Section Proofs.
Variables (R : rcfType) (f : nat).
Notation vec := ('rV[R]_f).
Notation frame := (list (row vec)).

(** ** Pairing of samples *)

Lemma same_indexP (Y P : frame) : reflect (SameIndex Y P) (same_index Y P).
Proof.
apply: (iffP andP).
- case=> /eqP; elim: Y P => [|a Y IH] [|b P] //= [E] /andP[/andP[/Z.eqb_eq h1 /Z.eqb_eq h2] h].
  by rewrite /SameIndex /= /key h1 h2; congr (_ :: _); apply: IH.
- elim: Y P => [|a Y IH] [|b P] //= [h1 h2 h]; have [/eqP h3 h4] := IH _ h.
  by rewrite h3 h1 h2 !Z.eqb_refl /=.
Qed.

Lemma key_find (P : frame) r : List.NoDup (map (@key R f) P) -> List.In r P ->
  List.find (fun r' => Z.eqb (rid r') (rid r) && Z.eqb (rtime r') (rtime r)) P = Some r.
Proof.
elim: P => //= a P IH N; inversion N as [|? ? N1 N2]; subst.
case=> [->|h]; first by rewrite !Z.eqb_refl.
case E: (_ && _); last exact: IH.
move: E => /andP[/Z.eqb_eq h1 /Z.eqb_eq h2]; case: N1.
have -> : key a = key r by rewrite /key h1 h2.
exact: (List.in_map (@key R f)).
Qed.

Lemma valid_nodup (F : frame) : ValidRows F -> List.NoDup (map (@key R f) F).
Proof.
move=> V; have := vr_inc _ V; elim: F {V} => [|a F IH] H; first exact: List.NoDup_nil.
have H' : TimeIncreasing F.
  by move=> x y [l [m [r E]]]; apply: H; exists (a :: l)%list, m, r; rewrite E.
apply: List.NoDup_cons; last exact: IH.
move=> h; have [b [[e1 e2] /(List.in_split _ _) [l [r E']]]] := proj1 (List.in_map_iff _ _ _) h.
have B : Before (a :: F) a b by exists nil, l, r; rewrite E'.
by have := H _ _ B (esym e1); rewrite e2 => /Z.lt_irrefl.
Qed.

Definition Keyed (F : frame) : Prop := List.NoDup (map (@key R f) F).

Lemma zip_find (Y P : frame) (g : row vec -> row vec -> R) (g0 : row vec -> R) (q : row vec -> bool) :
  List.NoDup (map (@key R f) P) -> SameIndex Y P ->
  forall P', (forall r, List.In r P -> List.find (fun r' => Z.eqb (rid r') (rid r) && Z.eqb (rtime r') (rtime r)) P' = Some r) ->
  [seq (if List.find (fun r' => Z.eqb (rid r') (rid r) && Z.eqb (rtime r') (rtime r)) P' is Some r' then g r r' else g0 r) | r <- Y & q r]
  = [seq g x.1 x.2 | x <- zip Y P & q x.1].
Proof.
elim: Y P => [|a Y IH] [|b P] //= N [k1 k2 S] P' H.
inversion N as [|? ? N1 N2]; subst.
have E : List.find (fun r' => Z.eqb (rid r') (rid a) && Z.eqb (rtime r') (rtime a)) P' = Some b.
  by rewrite k1 k2; apply: H; left.
have H' : forall r, List.In r P -> List.find (fun r' => Z.eqb (rid r') (rid r) && Z.eqb (rtime r') (rtime r)) P' = Some r by move=> r h; apply: H; right.
by case: (q a) => /=; rewrite ?E (IH P N2 S P' H').
Qed.

Lemma errors_zip (Y P : frame) q j : Keyed Y -> SameIndex Y P ->
  errors Y P q j = [seq feat x.1 j - feat x.2 j | x <- zip Y P & q (rid x.1) (rtime x.1)].
Proof.
move=> V S; have V' : List.NoDup (map (@key R f) P) by rewrite -[map _ P]S.
have H r : List.In r P -> _ := key_find V'.
rewrite -(@zip_find Y P (fun x y => feat x j - feat y j) (fun x => feat x j - 0)
  (fun r => q (rid r) (rtime r)) V' S P H).
by apply: eq_map => r; rewrite /value_at; case: List.find.
Qed.


(** The model selects the same samples of both frames. *)
Lemma diff_rows (Y P : frame) (q : Z -> Z -> bool) j : Keyed Y -> SameIndex Y P ->
  diff (column j (rows_where (fun r => q (rid r) (rtime r)) Y))
       (column j (rows_where (fun r => q (rid r) (rtime r)) P)) = errors Y P q j.
Proof.
move=> V S; rewrite errors_zip // /diff /column /rows_where.
elim: Y P S {V} => [|a Y IH] [|b P] //= [k1 k2 S].
by rewrite k1 k2; case: (q _ _) => /=; rewrite (IH P S).
Qed.

Lemma size_rows (Y P : frame) (q : Z -> Z -> bool) : SameIndex Y P ->
  size (rows_where (fun r => q (rid r) (rtime r)) Y) = size (rows_where (fun r => q (rid r) (rtime r)) P).
Proof.
elim: Y P => [|a Y IH] [|b P] //= [k1 k2 S]; have := IH P S.
by rewrite /rows_where /= k1 k2 !size_map; case: (q _ _) => //= ->.
Qed.

(** ** The error of one column *)

Lemma averageE w (g : R -> R) (d : seq R) e : average w [seq g x | x <- d] = Ok e ->
  e = wsum w g d / wtotal w d.
Proof.
case: w => [ws|] /=; last by rewrite big_map size_map => -[].
case: ifP => // _; case: ifP => // _ [<-]; congr (_ / _).
elim: ws d {e} => [|a ws IH] [|b d] //=; rewrite ?big_nil //.
by rewrite !big_cons /= IH.
Qed.

Lemma column_errorE m w (y p : seq R) e : column_error m w y p = Ok e -> e = total m w (diff y p).
Proof.
have W d' d : weight w d = Ok d' -> d' = weighted w d.
  by case: w {e} => [ws|] /=; [case: ifP => // _ [<-] | case=> <-].
case: m => /=; try exact: averageE.
- case E: (average _ _) => [x|] //= -[<-]; by rewrite (averageE E).
- case E: (weight _ _) => [x|] //= -[<-]; by rewrite (W _ _ E).
- case E: (weight _ _) => [x|] //= -[<-]; by rewrite (W _ _ E).
- by case=> <-.
Qed.

Lemma all_okP A (l : seq (result A)) s : all_ok l = Ok s -> l = [seq Ok x | x <- s].
Proof.
elim: l s => [|[a|e] l IH] s //=; first by case=> <-.
by case E: (all_ok l) => [s'|] //= [<-]; rewrite (IH _ E).
Qed.

Lemma all_ok_map A (s : seq A) : all_ok [seq Ok x | x <- s] = Ok s.
Proof. by elim: s => //= a s ->. Qed.

Lemma all_ok_eq A B (g : A -> result B) (l : seq A) s : all_ok [seq g x | x <- l] = Ok s ->
  size s = size l /\ forall x0 y0 k, (k < size l)%N -> g (nth x0 l k) = Ok (nth y0 s k).
Proof.
move=> /all_okP E; have Es : size s = size l by rewrite -(size_map (@Ok B)) -E size_map.
split=> // x0 y0 k h.
by rewrite -(nth_map x0 (Err ValueError)) // E (nth_map y0) // Es.
Qed.

Lemma all_ok_mapE A B (g : A -> result B) (h : A -> B) (l : seq A) s :
  (forall x b, g x = Ok b -> b = h x) ->
  all_ok [seq g x | x <- l] = Ok s -> s = [seq h x | x <- l].
Proof.
move=> H; elim: l s => [|a l IH] s //=; first by case=> <-.
case E: (g a) => [b|] //=; case E': (all_ok _) => [s'|] //= -[<-].
by rewrite (H _ _ E) (IH _ E').
Qed.

Lemma column_errorsE m w (y p : seq vec) s : column_errors m w y p = Ok s ->
  s = [seq total m w (diff (column j y) (column j p)) | j <- enum 'I_f].
Proof. by apply: all_ok_mapE => j b; apply: column_errorE. Qed.

Lemma evaluate_raw m w (y p : seq vec) s : m <> rrmse -> evaluate m w (@raw_values R f) y p = Ok s ->
  s = [seq total m w (diff (column j y) (column j p)) | j <- enum 'I_f].
Proof.
case: m => // _ /=; try by case E: (column_errors _ _ _ _) => [x|] //= [<-]; apply: (column_errorsE E).
by case: ifP => // _; apply: column_errorsE.
Qed.

Lemma total_size w m (y p : seq vec) s : evaluate m w (@raw_values R f) y p = Ok s -> m <> rrmse -> size s = f.
Proof. by move=> E n; rewrite (evaluate_raw n E) size_map size_enum_ord. Qed.

Lemma assign_same (v : seq R) n : size v = n -> assign n v = Ok v.
Proof. by rewrite /assign => ->; rewrite eqxx. Qed.


(** ** The tables *)

Definition spec_row m w (Y P : frame) (q : Z -> Z -> bool) : seq R :=
  [seq total m w (errors Y P q j) | j <- enum 'I_f].

Lemma size_spec_row m w Y P q : size (spec_row m w Y P q) = f.
Proof. by rewrite size_map size_enum_ord. Qed.

Lemma rows_errors m w (Y P : frame) q : Keyed Y -> SameIndex Y P ->
  [seq total m w (diff (column j (rows_where (fun r => q (rid r) (rtime r)) Y))
                       (column j (rows_where (fun r => q (rid r) (rtime r)) P))) | j <- enum 'I_f]
  = spec_row m w Y P q.
Proof. by move=> V S; apply: eq_map => j; rewrite diff_rows. Qed.

Lemma evaluate_rows m w (Y P : frame) q s : m <> rrmse -> Keyed Y -> SameIndex Y P ->
  evaluate m w (@raw_values R f) (rows_where (fun r => q (rid r) (rtime r)) Y)
     (rows_where (fun r => q (rid r) (rtime r)) P) = Ok s -> s = spec_row m w Y P q.
Proof. by move=> n V S /(evaluate_raw n) ->; rewrite rows_errors. Qed.

Lemma table_raw m w (Y P : frame) (mk : Z -> Z -> Z -> bool) (l : seq Z) T :
  m <> rrmse -> Keyed Y -> SameIndex Y P ->
  all_ok [seq bind (evaluate m w (@raw_values R f) (rows_where (fun r => mk i (rid r) (rtime r)) Y)
                                      (rows_where (fun r => mk i (rid r) (rtime r)) P))
                     (fun v => bind (assign f v) (fun row => Ok (i, row)))
           | i <- l] = Ok T ->
  T = [seq (i, spec_row m w Y P (mk i)) | i <- l].
Proof.
move=> n V S; apply: (@all_ok_mapE _ _ _ (fun i => (i, spec_row m w Y P (mk i)))) => i b.
case E: (evaluate _ _ _ _ _) => [v|] //=; rewrite (evaluate_rows n V S E).
by rewrite assign_same ?size_spec_row //= => -[<-].
Qed.

Lemma per_timeseries_raw m w (Y P : frame) T : m <> rrmse -> Keyed Y -> SameIndex Y P ->
  per_timeseries m w (@raw_values R f) Y P = Ok T ->
  T = [seq (i, spec_row m w Y P (of_series i)) | i <- ids Y].
Proof.
move=> n V S; rewrite /per_timeseries.
have H := @table_raw m w Y P of_series (ids Y) T n V S.
case: w H => [ws|] H //; case: ifP => // _; case: n_timesteps => // k; case: ifP => // _.
Qed.

Lemma per_timestep_raw m w (Y P : frame) T : m <> rrmse -> Keyed Y -> SameIndex Y P ->
  per_timestep m w (@raw_values R f) Y P = Ok T ->
  T = [seq (t, spec_row m w Y P (of_time t)) | t <- time_values Y].
Proof.
move=> n V S; rewrite /per_timestep.
have H := @table_raw m w Y P of_time (time_values Y) T n V S.
by case: w H => [ws|] H //; case: ifP => // _; case: ifP.
Qed.

Lemma per_feature_raw m w (Y P : frame) e : m <> rrmse -> Keyed Y -> SameIndex Y P ->
  per_feature m w Y P = Ok e -> e = spec_row m w Y P everywhere.
Proof.
move=> n V S; rewrite /per_feature.
have H := @evaluate_rows m w Y P everywhere e n V S.
by case: w H => [ws|] H //; case: ifP.
Qed.

(** ** Scaling *)

Lemma map_frame_id (F : frame) : map_frame id F = F.
Proof. by rewrite /map_frame -[RHS]map_id; apply: eq_map => -[]. Qed.

Lemma scale_id (Y P : frame) : scale id_scaling Y P = (Y, P).
Proof. by rewrite /scale /= !map_frame_id. Qed.

Lemma keys_map_frame g (F : frame) : map (@key R f) (map_frame g F) = map (@key R f) F.
Proof. by rewrite /map_frame -map_comp. Qed.

Lemma ids_map_frame g (F : frame) : ids (map_frame g F) = ids F.
Proof.
rewrite /ids; congr np_unique; rewrite /ids_index /map_frame.
by elim: F => //= a F ->.
Qed.

Lemma times_map_frame g (F : frame) : time_values (map_frame g F) = time_values F.
Proof.
rewrite /time_values; congr np_unique; rewrite /time_index /map_frame.
by elim: F => //= a F ->.
Qed.


Lemma keyed_map g (F : frame) : Keyed F -> Keyed (map_frame g F).
Proof. by rewrite /Keyed keys_map_frame. Qed.

Lemma same_map g h (Y P : frame) : SameIndex Y P -> SameIndex (map_frame g Y) (map_frame h P).
Proof. by rewrite /SameIndex !keys_map_frame. Qed.

Lemma zip_map_frame g (Y P : frame) : zip (map_frame g Y) (map_frame g P) =
  [seq (mkRow (rid x.1) (rtime x.1) (g (rval x.1)), mkRow (rid x.2) (rtime x.2) (g (rval x.2))) | x <- zip Y P].
Proof. by elim: Y P => [|a Y IH] [|b P] //=; rewrite IH. Qed.

(** A scaler that is affine in each feature scales the errors. *)
Lemma errors_affine (a s : 'I_f -> R) (g : vec -> vec) (Y P : frame) q j :
  (forall v, g v ord0 j = (v ord0 j - a j) / s j) -> Keyed Y -> SameIndex Y P ->
  errors (map_frame g Y) (map_frame g P) q j = [seq e / s j | e <- errors Y P q j].
Proof.
move=> H V S; rewrite errors_zip ?errors_zip //; [|exact: keyed_map|exact: same_map].
rewrite zip_map_frame filter_map -!map_comp; apply: eq_map => -[x y] /=.
by rewrite /feat /= !H -mulrBl opprB subrKA.
Qed.

(** ** Zero errors *)

Lemma big_max_ge (l : seq R) x : x \in l -> `|x| <= \big[Num.max/0]_(y <- l) `|y|.
Proof.
elim: l => //= a l IH; rewrite inE big_cons le_maxr => /orP[/eqP -> |/IH ->]; first by rewrite lexx.
by rewrite orbT.
Qed.

Lemma big_max_ge0 (l : seq R) : 0 <= \big[Num.max/0]_(y <- l) `|y|.
Proof. by elim: l => [|a l IH]; rewrite ?big_nil // big_cons le_maxr normr_ge0. Qed.

Lemma big_max_eq0 (l : seq R) : \big[Num.max/0]_(y <- l) `|y| = 0 <-> {in l, forall x, x = 0}.
Proof.
split=> [E x /big_max_ge|H]; first by rewrite E normr_le0 => /eqP.
rewrite big_seq (eq_bigr (fun=> 0)) => [|x /H ->]; last by rewrite normr0.
by rewrite -big_seq; elim: l {H} => [|a l IH]; rewrite ?big_nil // big_cons IH maxxx.
Qed.

Lemma sum_eq0 (g : R -> R) (l : seq R) : (forall x, 0 <= g x) -> (forall x, g x = 0 <-> x = 0) ->
  \sum_(x <- l) g x = 0 <-> {in l, forall x, x = 0}.
Proof.
move=> P Z; split=> [E x h|H].
- apply/Z; have := E => /eqP; rewrite psumr_eq0 // => /allP /(_ x h) /=; exact: (fun h => eqP h).
- by rewrite big_seq big1 // => x /H ->; apply/Z.
Qed.

Lemma total_ge0 m (d : seq R) : 0 <= total m None d.
Proof.
have S2 : 0 <= \sum_(x <- d) x ^+ 2 by rewrite sumr_ge0 // => x _; exact: sqr_ge0.
case: m => /=; rewrite ?sqrtr_ge0 ?big_max_ge0 ?divr_ge0 ?ler0n // sumr_ge0 // => x _; exact: normr_ge0.
Qed.

Lemma sqr_zero (x : R) : x ^+ 2 = 0 <-> x = 0.
Proof. by split=> [/eqP|->]; rewrite ?expr0n // sqrf_eq0 => /eqP. Qed.

Lemma norm_zero (x : R) : `|x| = 0 <-> x = 0.
Proof. by split=> [/eqP|->]; rewrite ?normr0 // normr_eq0 => /eqP. Qed.

Lemma sqrt_zero (x : R) : 0 <= x -> Num.sqrt x = 0 <-> x = 0.
Proof.
move=> h; split=> [E|->]; last exact: sqrtr0.
by rewrite -(sqr_sqrtr h) E expr0n.
Qed.

Lemma div_size_zero (x : R) (d : seq R) : (0 < size d)%N -> x / (size d)%:R = 0 <-> x = 0.
Proof.
move=> h; split=> [/eqP|->]; last by rewrite mul0r.
rewrite mulf_eq0 invr_eq0 pnatr_eq0 => /orP[/eqP //|].
by move=> /eqP E; rewrite E in h.
Qed.

Lemma total_eq0 m (d : seq R) : (0 < size d)%N -> total m None d = 0 <-> {in d, forall x, x = 0}.
Proof.
move=> h; have S2 : 0 <= \sum_(x <- d) x ^+ 2 by rewrite sumr_ge0 // => x _; exact: sqr_ge0.
have E2 := @sum_eq0 (fun x => x ^+ 2) d (@sqr_ge0 R) sqr_zero.
have E1 := @sum_eq0 (fun x => `|x|) d (@normr_ge0 R R) norm_zero.
have D x := @div_size_zero x d h.
case: m => /=.
- by rewrite D.
- by rewrite sqrt_zero ?divr_ge0 ?ler0n // D.
- by rewrite D.
- by rewrite sqrt_zero.
- exact: big_max_eq0.
- by rewrite D.
- exact: big_max_eq0.
Qed.


Lemma zero_errorsP (Y P : frame) q j : Keyed Y -> SameIndex Y P ->
  {in errors Y P q j, forall x, x = 0} <->
  (forall x, List.In x (zip Y P) -> q (rid x.1) (rtime x.1) -> feat x.1 j = feat x.2 j).
Proof.
move=> V S; rewrite errors_zip //.
elim: (zip Y P) => [|a l IH]; first by split.
split.
- move=> H x [<-|h] Q.
  + apply/eqP; rewrite -subr_eq0; apply/eqP/H; rewrite /= Q /= inE eqxx //.
  + apply: (proj1 IH) => // y hy; apply: H; rewrite /=; case: ifP => _ //=; by rewrite inE hy orbT.
- move=> H x; rewrite /=; case: ifP => [Q|_] /=.
  + rewrite inE => /orP[/eqP ->|]; first by rewrite (H a) ?subrr //; left.
    by apply: (proj2 IH) => y hy; apply: H; right.
  + by apply: (proj2 IH) => y hy; apply: H; right.
Qed.

Lemma equal_frames (Y P : frame) : SameIndex Y P ->
  (forall x, List.In x (zip Y P) -> forall j, feat x.1 j = feat x.2 j) <-> Y = P.
Proof.
move=> S; split; last first.
  move=> -> x; elim: P {S Y} => [|b P IH] //= [<-|h] j //; exact: IH.
elim: Y P S => [|a Y IH] [|b P] //= [k1 k2 S] H.
congr (_ :: _); last by apply: IH => // x h; apply: H; right.
have E : rval a = rval b by apply/rowP => j; exact: (H (a, b) (or_introl erefl)).
by case: a b k1 k2 E {H} => i1 t1 v1 [i2 t2 v2] /= -> -> ->.
Qed.

Lemma in_zip_fst (Y P : frame) x : List.In x (zip Y P) -> List.In x.1 Y.
Proof. by elim: Y P => [|a Y IH] [|b P] //= [<-|h]; [left|right; apply: IH h]. Qed.

Lemma size_errors (Y P : frame) (q : Z -> Z -> bool) j : (exists2 r, List.In r Y & q (rid r) (rtime r)) ->
  (0 < size (errors Y P q j))%N.
Proof.
rewrite /errors size_map; case=> r; elim: Y => //= a Y IH [->|h] Q; first by rewrite Q.
by case: ifP => // _; apply: IH.
Qed.

(** A set of selections that covers all samples detects every difference. *)
Lemma cover_exact m (Y P : frame) (L : seq Z) (mk : Z -> Z -> Z -> bool) :
  Keyed Y -> SameIndex Y P ->
  (forall i, List.In i L -> exists2 r, List.In r Y & mk i (rid r) (rtime r)) ->
  (forall r, List.In r Y -> exists2 i, List.In i L & mk i (rid r) (rtime r)) ->
  (forall i, List.In i L -> forall j, total m None (errors Y P (mk i) j) = 0) <-> Y = P.
Proof.
move=> V S N C; rewrite -(equal_frames S); split.
- move=> H x hx j; have [i hi Q] := C _ (in_zip_fst hx).
  have /total_eq0 E := H i hi j.
  by apply: (proj1 (zero_errorsP (mk i) j V S)) => //; apply: E; apply: size_errors; apply: N.
- move=> H i hi j; apply/total_eq0; first by apply: size_errors; apply: N.
  by apply/zero_errorsP => // x hx _; apply: H.
Qed.

Lemma ids_cover (Y : frame) :
  (forall i, List.In i (ids Y) -> exists2 r, List.In r Y & of_series i (rid r) (rtime r)) /\
  (forall r, List.In r Y -> exists2 i, List.In i (ids Y) & of_series i (rid r) (rtime r)).
Proof.
split=> [i /in_np_unique h|r h].
- have [r [<- hr]] := proj1 (List.in_map_iff _ _ _) h; exists r => //; exact: Z.eqb_refl.
- exists (rid r); last exact: Z.eqb_refl.
  by apply/in_np_unique; apply: (List.in_map rid).
Qed.

Lemma times_cover (Y : frame) :
  (forall t, List.In t (time_values Y) -> exists2 r, List.In r Y & of_time t (rid r) (rtime r)) /\
  (forall r, List.In r Y -> exists2 t, List.In t (time_values Y) & of_time t (rid r) (rtime r)).
Proof.
split=> [i /in_np_unique h|r h].
- have [r [<- hr]] := proj1 (List.in_map_iff _ _ _) h; exists r => //; exact: Z.eqb_refl.
- exists (rtime r); last exact: Z.eqb_refl.
  by apply/in_np_unique; apply: (List.in_map rtime).
Qed.

Lemma everywhere_cover (Y : frame) : Y <> [::] ->
  (forall t, List.In t [:: Z0] -> exists2 r, List.In r Y & everywhere (rid r) (rtime r)) /\
  (forall r, List.In r Y -> exists2 t, List.In t [:: Z0] & everywhere (rid r) (rtime r)).
Proof.
move=> N; split=> [t _|r _]; last by exists Z0 => //; left.
by case: Y N => // a Y _; exists a => //; left.
Qed.

(** ** Averages over features *)

Lemma evaluate_uniform m w (Y P : frame) q s : plain m -> Keyed Y -> SameIndex Y P ->
  evaluate m w (@uniform_average R f) (rows_where (fun r => q (rid r) (rtime r)) Y)
     (rows_where (fun r => q (rid r) (rtime r)) P) = Ok s ->
  s = [:: mean (spec_row m w Y P q)].
Proof.
move=> pm V S; case: m pm => //= _;
  case E: (column_errors _ _ _ _) => [x|] //= -[<-]; by rewrite (column_errorsE E) rows_errors.
Qed.

Lemma table_uniform m w (Y P : frame) (mk : Z -> Z -> Z -> bool) (l : seq Z) T :
  plain m -> Keyed Y -> SameIndex Y P ->
  all_ok [seq bind (evaluate m w (@uniform_average R f) (rows_where (fun r => mk i (rid r) (rtime r)) Y)
                                      (rows_where (fun r => mk i (rid r) (rtime r)) P))
                     (fun v => bind (assign 1%N v) (fun row => Ok (i, row)))
           | i <- l] = Ok T ->
  T = [seq (i, [:: mean (spec_row m w Y P (mk i))]) | i <- l].
Proof.
move=> n V S; apply: (@all_ok_mapE _ _ _ (fun i => (i, [:: mean (spec_row m w Y P (mk i))]))) => i b.
by case E: (evaluate _ _ _ _ _) => [v|] //=; rewrite (evaluate_uniform n V S E) /= => -[<-].
Qed.

Lemma per_timeseries_uniform m w (Y P : frame) T : plain m -> Keyed Y -> SameIndex Y P ->
  per_timeseries m w (@uniform_average R f) Y P = Ok T ->
  T = [seq (i, [:: mean (spec_row m w Y P (of_series i))]) | i <- ids Y].
Proof.
move=> n V S; rewrite /per_timeseries.
have H := @table_uniform m w Y P of_series (ids Y) T n V S.
by case: w H => [ws|] H //; case: ifP => // _; case: n_timesteps => // k; case: ifP.
Qed.

Lemma per_timestep_uniform m w (Y P : frame) T : plain m -> Keyed Y -> SameIndex Y P ->
  per_timestep m w (@uniform_average R f) Y P = Ok T ->
  T = [seq (t, [:: mean (spec_row m w Y P (of_time t))]) | t <- time_values Y].
Proof.
move=> n V S; rewrite /per_timestep.
have H := @table_uniform m w Y P of_time (time_values Y) T n V S.
by case: w H => [ws|] H //; case: ifP => // _; case: ifP.
Qed.

Lemma mean_ge0 (l : seq R) : {in l, forall x, 0 <= x} -> 0 <= mean l.
Proof. by move=> H; rewrite /mean divr_ge0 ?ler0n // big_seq sumr_ge0. Qed.

Lemma mean_eq0 (l : seq R) : {in l, forall x, 0 <= x} -> (0 < size l)%N ->
  mean l = 0 <-> {in l, forall x, x = 0}.
Proof.
move=> P h; rewrite /mean div_size_zero //; split=> [|H].
- elim: l P {h} => [|a l IH] P //; rewrite big_cons => /eqP.
  rewrite paddr_eq0; last first.
  + by rewrite big_seq sumr_ge0 // => x hx; apply: P; rewrite inE hx orbT.
  + by apply: P; rewrite inE eqxx.
  move=> /andP[/eqP -> /eqP E] x; rewrite inE => /orP[/eqP //|].
  by apply: IH => // y hy; apply: P; rewrite inE hy orbT.
- by rewrite big_seq big1.
Qed.

Lemma spec_row_ge0 m (Y P : frame) q : {in spec_row m None Y P q, forall x, 0 <= x}.
Proof. by move=> x /mapP[j _ ->]; apply: total_ge0. Qed.

Lemma spec_row_eq0 m (Y P : frame) q : {in spec_row m None Y P q, forall x, x = 0} <->
  forall j, total m None (errors Y P q j) = 0.
Proof.
split=> [H j|H x /mapP[j _ ->] //].
by apply: H; apply/mapP; exists j; rewrite ?mem_enum.
Qed.

End Proofs.
