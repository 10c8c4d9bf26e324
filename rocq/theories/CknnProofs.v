(** * Proofs for C44 (cut-off) and C45. *)

From mathcomp Require Import all_ssreflect all_algebra.
From Verif Require Import RingTac LinModel KernModel KernSpec KernProofs CknnModel CknnSpec.
Import Order.Theory GRing.Theory Num.Theory.
Set Implicit Arguments.
Unset Strict Implicit.
Unset Printing Implicit Defensive.
Local Open Scope ring_scope.

Section Proofs.
Variable R : rcfType.
Add Ring RRing : (rt_theory R).

Lemma card_count m n (D : 'M[R]_(m, n)) i (p : pred R) :
  #|[set j | p (D i j)]| = count p (row_list D i).
Proof.
rewrite /row_list -sum1_card -sum1_count big_map big_enum_cond /=.
by apply: eq_bigl => j; rewrite inE.
Qed.

Lemma sorted_nth_le (s : seq R) i j : sorted <=%R s -> (i <= j)%N -> (j < size s)%N -> nth 0 s i <= nth 0 s j.
Proof. by move=> Hs Hij Hj; apply: (sorted_leq_nth le_trans le_refl) => //; rewrite inE // (leq_ltn_trans Hij). Qed.

Lemma count_le_nth (s : seq R) k : sorted <=%R s -> (k < size s)%N -> (k < count (<= nth 0%R s k)%R s)%N.
Proof.
move=> Hs Hk.
have -> : s = take k.+1 s ++ drop k.+1 s by rewrite cat_take_drop.
rewrite [X in nth 0 X k]cat_take_drop count_cat.
have -> : count (<= nth 0 s k)%R (take k.+1 s) = k.+1; last by rewrite leq_addr.
have Hsz : size (take k.+1 s) = k.+1 by rewrite size_takel.
rewrite -[RHS]Hsz; apply/eqP; rewrite -all_count; apply/(all_nthP 0) => i.
rewrite Hsz => Hi; rewrite nth_take //; apply: sorted_nth_le => //; by rewrite -ltnS.
Qed.

Lemma count_lt_nth (s : seq R) k : sorted <=%R s -> (k < size s)%N -> (count (< nth 0%R s k)%R s <= k)%N.
Proof.
move=> Hs Hk.
rewrite -{2}(cat_take_drop k s) count_cat.
have -> : count (< nth 0 s k)%R (drop k s) = 0%N.
  apply/eqP; rewrite eqn0Ngt -has_count; apply/hasPn => x /(nthP 0)[i Hi <-].
  rewrite nth_drop -leNgt; apply: sorted_nth_le => //; first exact: leq_addr.
  by move: Hi; rewrite size_drop ltn_subRL.
by rewrite addn0; apply: leq_trans (count_size _ _) _; rewrite size_take; case: ltnP.
Qed.

Lemma row_list_size m n (D : 'M[R]_(m, n)) i : size (row_list D i) = n.
Proof. by rewrite size_map size_enum_ord. Qed.

Lemma kthE m n (D : 'M[R]_(m, n)) k v : kth_nearest_neighbor_dist D k = Some v ->
  (0 < k)%N /\ (k <= n)%N /\ forall i, v 0 i = nth 0 (sort <=%R (row_list D i)) k.-1.
Proof.
rewrite /kth_nearest_neighbor_dist; case: ifP => // /andP[H1 H2] [<-].
by split=> //; split=> // i; rewrite mxE.
Qed.

Lemma kth_nearest m n (D : 'M[R]_(m, n)) k v i : kth_nearest_neighbor_dist D k = Some v ->
  KthNearest D k i (v 0 i).
Proof.
move=> /kthE[k0 [kn ->]]; set s := sort _ _.
have Hs : sorted <=%R s by apply: sort_sorted; apply: le_total.
have Hz : size s = n by rewrite size_sort row_list_size.
have Hk : (k.-1 < size s)%N by rewrite Hz prednK.
have Hp : perm_eq s (row_list D i) by rewrite perm_sort.
split; [|split].
- rewrite (card_count D i (<= nth 0 s k.-1)%R) -(permP Hp).
  by have := count_le_nth Hs Hk; rewrite prednK.
- rewrite (card_count D i (< nth 0 s k.-1)%R) -(permP Hp).
  by have := count_lt_nth Hs Hk; rewrite -ltnS prednK.
- have : nth 0 s k.-1 \in row_list D i by rewrite -(perm_mem Hp) mem_nth.
  by case/mapP => j _ ->; exists j.
Qed.

(** ** The cut-off estimate *)

Lemma foldl_max_ge (a : R) l : a <= foldl Num.max a l /\ forall x, x \in l -> x <= foldl Num.max a l.
Proof.
elim: l a => [|b l IH] a /=; first by split.
have [H1 H2] := IH (Num.max a b); split; first by apply: le_trans H1; rewrite le_maxr lexx.
move=> x; rewrite inE => /orP[/eqP ->|]; last exact: H2.
by apply: le_trans H1; rewrite le_maxr lexx orbT.
Qed.

Lemma foldl_max_in (a : R) l : foldl Num.max a l \in a :: l.
Proof.
elim: l a => [|b l IH] a /=; first by rewrite inE.
have := IH (Num.max a b); rewrite !inE => /orP[/eqP ->|->]; last by rewrite !orbT.
by case: (leP a b) => _; rewrite eqxx ?orbT.
Qed.

Lemma cutoff_kth m n (D : 'M[R]_(m, n)) k cut : estimate_cutoff D k = Some cut ->
  (forall i, (k <= #|[set j | (D i j <= cut)%R]|)%N) /\ exists i, KthNearest D k i cut.
Proof.
rewrite /estimate_cutoff; case E: (kth_nearest_neighbor_dist D k) => [v|] //.
case El: [seq v 0 i | i <- enum 'I_m] => [|a l] // -[<-].
have Hin i : v 0 i \in a :: l by rewrite -El; apply/mapP; exists i; rewrite ?mem_enum.
split.
- move=> i; have [H _] := kth_nearest i E; apply: leq_trans H _; apply: subset_leq_card.
  apply/subsetP => j; rewrite !inE => Hj; apply: le_trans Hj _.
  have [M1 M2] := foldl_max_ge a l; move: (Hin i); rewrite inE => /orP[/eqP ->|] //; exact: M2.
- have := foldl_max_in a l; rewrite -El => /mapP[i _ ->]; exists i; exact: kth_nearest.
Qed.

(** ** C45 *)

Lemma sqrt_vecE n (v : 'rV[R]_n) i : sqrt_vec v 0 i = Num.sqrt (v 0 i).
Proof. by rewrite mxE. Qed.

Lemma kth_ge0 m n (D : 'M[R]_(m, n)) k v i : (forall i j, 0 <= D i j) ->
  kth_nearest_neighbor_dist D k = Some v -> 0 <= v 0 i.
Proof. by move=> H0 E; have [_ [_ [j <-]]] := kth_nearest i E. Qed.

Lemma sym_div_entry n (D F : 'M[R]_n) (v : 'rV[R]_n) sym : (forall i j, D i j = D j i) ->
  sym_division D v sym = Some F -> forall i j, v 0 i != 0 /\ F i j = D i j / (v 0 i * v 0 j).
Proof.
move=> HD; rewrite /sym_division; case Hz: (has_zero v) => // -[<-] i j.
split; first exact: (proj1 (has_zeroPn v) Hz).
set a := (v 0 i)^-1; set b := (v 0 j)^-1.
have E (i' j' : 'I_n) : mat_dot_diagmat (diagmat_dot_mat (reciprocal v) D) (reciprocal v) i' j'
    = (v 0 i')^-1 * D i' j' * (v 0 j')^-1 by rewrite !mxE; mring R.
case: sym.
- rewrite mxE !E (HD j i) -/a -/b invfM -/a -/b.
  have -> : a * D i j * b + b * D i j * a = 2%:R * (D i j * (a * b)) by mring R.
  by rewrite mulrAC mulfV ?two_neq0 // mul1r.
- by rewrite E invfM -/a -/b; mring R.
Qed.

Lemma lt_edge (d x y t : R) : 0 < x -> 0 < y ->
  (d / (Num.sqrt x * Num.sqrt y) < t) = (d < t * Num.sqrt (x * y)).
Proof.
move=> x0 y0; rewrite sqrtrM ?ltW // ltr_pdivr_mulr // mulr_gt0 // sqrtr_gt0 //.
Qed.

Lemma pdist_some n (c : cknn R n) sym (D : 'M[R]_n) A c' : evaluate_pdist c sym D = Some (A, c') ->
  exists dk F, [/\ kth_nearest_neighbor_dist D (k_neighbor c) = Some dk,
    sym_division D (sqrt_vec dk) sym = Some F, A = \matrix_(i, j) (F i j < delta c) &
    c' = Cknn (k_neighbor c) (delta c) (Some dk)].
Proof.
rewrite /evaluate_pdist; case: ifP => // _; case: (reference_dist_knn c) => //.
case E: (kth_nearest_neighbor_dist _ _) => [dk|] //; case EF: (sym_division _ _ _) => [F|] // [<- <-].
by exists dk, F.
Qed.

Lemma sqrt_pos (x : R) : 0 <= x -> Num.sqrt x != 0 -> 0 < x.
Proof. by move=> x0; case: ltgtP x0 => // <-; rewrite sqrtr0 eqxx. Qed.

Lemma edges n (c : cknn R n) sym (D : 'M[R]_n) A c' : Distances D ->
  evaluate_pdist c sym D = Some (A, c') ->
  exists dk : 'I_n -> R, (forall i, KthNearest D (k_neighbor c) i (dk i) /\ 0 < dk i) /\
    (forall i j, A i j = (D i j < delta c * Num.sqrt (dk i * dk j))) /\ (forall i j, A i j = A j i).
Proof.
move=> [HS [Hd H0]] /pdist_some [dk [F [Ek EF -> _]]]; exists (fun i => dk 0 i).
have Hp i : 0 < dk 0 i.
  apply: sqrt_pos; first exact: kth_ge0 H0 Ek.
  by have [+ _] := sym_div_entry HS EF i i; rewrite sqrt_vecE.
have HA i j : F i j < delta c = (D i j < delta c * Num.sqrt (dk 0 i * dk 0 j)).
  by have [_ ->] := sym_div_entry HS EF i j; rewrite !sqrt_vecE lt_edge.
split; first by move=> i; split; [exact: kth_nearest|exact: Hp].
by split=> i j; rewrite !mxE ?HA // HS (mulrC (dk 0 i)).
Qed.

Lemma training n (c : cknn R n) sym (D : 'M[R]_n) A c' : Distances D ->
  evaluate_pdist c sym D = Some (A, c') -> (k_neighbor c < n)%N -> evaluate_cdist c' D = Some A.
Proof.
move=> [HS [Hd H0]] E Hk; move: (E) => /pdist_some [dk [F [Ek EF EA Ec]]].
have [k0 _] := kthE Ek.
have Hn : (n - 1 < k_neighbor c)%N = false by rewrite ltnNge -ltnS subn1 prednK ?Hk // (leq_ltn_trans _ Hk).
rewrite Ec /evaluate_cdist /= ltnNge k0 /= Hn.
rewrite Ek /sym_division2.
have Hz : has_zero (sqrt_vec dk) = false.
  by move: EF; rewrite /sym_division; case: (has_zero _).
rewrite Hz /= EA; congr Some; apply/matrixP => i j; rewrite mxE [RHS]mxE; congr (_ < _).
have [_ ->] := sym_div_entry HS EF i j.
by rewrite !mxE invfM; mring R.
Qed.

Lemma k1_zero n (D : 'M[R]_n) i : Distances D ->
  forall v, kth_nearest_neighbor_dist D 1 = Some v -> v 0 i = 0.
Proof.
move=> [HS [Hd H0]] v E; have [_ [H _]] := kth_nearest i E.
apply/eqP; rewrite eq_le (kth_ge0 _ H0 E) andbT leNgt; apply/negP => Hp.
move: H; rewrite ltnS leqn0 cards_eq0 => /eqP/setP/(_ i); rewrite !inE Hd Hp //.
Qed.

Lemma k1_none n (c : cknn R n) sym (D : 'M[R]_n) : Distances D -> (0 < n)%N -> k_neighbor c = 1%N ->
  evaluate_pdist c sym D = None.
Proof.
move=> HD Hn Hk; case E: (evaluate_pdist c sym D) => [[A c']|] //.
have [dk [F [Ek EF _ _]]] := pdist_some E; rewrite Hk in Ek.
have [HS _] := HD.
have [+ _] := sym_div_entry HS EF (Ordinal Hn) (Ordinal Hn).
by rewrite sqrt_vecE (k1_zero _ HD Ek) sqrtr0 eqxx.
Qed.

End Proofs.
