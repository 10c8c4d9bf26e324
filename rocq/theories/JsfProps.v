(** * Property C104: jointly smooth functions are the smoothest ones. *)

From Coq Require Import Permutation.
From mathcomp Require Import all_ssreflect fingroup perm all_algebra.
From Verif Require Import Np KernModel KernSpec EmbModel EmbSpec EmbProofs EmbExample JsfModel JsfSpec JsfProofs.
Import Order.Theory GRing.Theory Num.Theory.
Set Implicit Arguments.
Unset Strict Implicit.
Unset Printing Implicit Defensive.
Local Open Scope ring_scope.

(** Two splits: the functions are the jointly smoothest ones, the energies are 1 + eigenvalues_. *)
Theorem C104_two_splits :
  forall (R : rcfType) s p1 p2 n (W1 : 'M[R]_(s, p1)) (W2 : 'M[R]_(s, p2)) e1 e2 (svd : full_svd_t R) sv F,
  Orthonormal W1 -> Orthonormal W2 -> FullSvd svd -> DescendingSvd svd ->
  jsf_vectors svd n W1 W2 = Some (sv, F) ->
  exists e, JointlySmoothest [:: Split W1 e1; Split W2 e2] F e /\
    forall (j : 'I_(n_functions n p1 p2)) (j' : 'I_(minn p1 p2)), val j = val j' -> e 0 j = 1 + sv 0 j'.
Proof.
move=> R s p1 p2 n W1 W2 e1 e2 svd sv F H1 H2 HS HD HF.
exists (\row_j (1 + sv 0 (first_block j))); split; first exact: two_smoothest HF.
by move=> j j' Hj; rewrite mxE; congr (1 + sv 0 _); apply/val_inj.
Qed.
Print Assumptions C104_two_splits.

(** Both splits see the same part of every function. *)
Theorem C104_two_splits_balanced :
  forall (R : rcfType) s p1 p2 n (W1 : 'M[R]_(s, p1)) (W2 : 'M[R]_(s, p2)) (svd : full_svd_t R) sv F,
  Orthonormal W1 -> Orthonormal W2 -> FullSvd svd -> DescendingSvd svd ->
  jsf_vectors svd n W1 W2 = Some (sv, F) ->
  forall (j : 'I_(n_functions n p1 p2)) (j' : 'I_(minn p1 p2)), val j = val j' ->
    seen W1 (col j F) = (1 + sv 0 j') / 2%:R /\ seen W2 (col j F) = (1 + sv 0 j') / 2%:R.
Proof.
move=> R s p1 p2 n W1 W2 svd sv F H1 H2 HS HD HF j j' Hj; rewrite !seen_sq.
have -> : j' = first_block j by exact/val_inj.
exact: (two_seen H1 H2 HS HD HF j).
Qed.
Print Assumptions C104_two_splits_balanced.

(** More splits: the same with the squares of eigenvalues_. *)
Theorem C104_more_splits :
  forall (R : rcfType) s k (svd : svd_t R k) (ws : seq (split R s)) sv F,
  SvdSolver svd -> LargestSvd svd -> jsf_vectors_multi svd ws = Some (sv, F) ->
  JointlySmoothest ws F (\row_j sv 0 j ^+ 2).
Proof. exact: multi_smoothest. Qed.
Print Assumptions C104_more_splits.

(** The energies are determined by the splits, in any order: no solver can return others, and asking
    for more functions does not change the first ones. *)
Theorem C104_energies_unique :
  forall (R : rcfType) s k k' (ws ws' : seq (split R s)) (F : 'M[R]_(s, k)) (F' : 'M[R]_(s, k')) e e',
  Permutation ws ws' -> JointlySmoothest ws F e -> JointlySmoothest ws' F' e' ->
  forall (j : 'I_k) (j' : 'I_k'), val j = val j' -> e 0 j = e' 0 j'.
Proof.
move=> R s k k' ws ws' F F' e e' HP H H' j j' Hj; have HE x := energy_perm x HP.
apply/le_anti; rewrite (energies_le HE H H' Hj).
by rewrite (energies_le (fun x => esym (HE x)) H' H (esym Hj)).
Qed.
Print Assumptions C104_energies_unique.

(** The two algorithms agree on two splits, although what they store as eigenvalues_ differs. *)
Theorem C104_algorithms_agree :
  forall (R : rcfType) s p1 p2 n k (W1 : 'M[R]_(s, p1)) (W2 : 'M[R]_(s, p2)) e1 e2
         (svd : full_svd_t R) (svd' : svd_t R k) sv F sv' F',
  Orthonormal W1 -> Orthonormal W2 -> FullSvd svd -> DescendingSvd svd -> SvdSolver svd' -> LargestSvd svd' ->
  jsf_vectors svd n W1 W2 = Some (sv, F) ->
  jsf_vectors_multi svd' [:: Split W1 e1; Split W2 e2] = Some (sv', F') ->
  forall (j : 'I_(n_functions n p1 p2)) (i : 'I_(minn p1 p2)) (j' : 'I_k), val j = val i -> val j = val j' ->
    1 + sv 0 i = sv' 0 j' ^+ 2.
Proof.
move=> R s p1 p2 n k W1 W2 e1 e2 svd svd' sv F sv' F' H1 H2 HS HD HS' HL HF HF' j i j' Hi Hj.
have [e [He Ee]] := C104_two_splits e1 e2 H1 H2 HS HD HF.
have := C104_energies_unique (Permutation_refl _) He (C104_more_splits HS' HL HF') Hj.
by rewrite (Ee _ _ Hi) mxE.
Qed.
Print Assumptions C104_algorithms_agree.

(** Energies are descending, between 0 and the number of splits, and equal to that number exactly
    for functions that lie in the span of the eigenvectors of every split. *)
Theorem C104_energies :
  forall (R : rcfType) s k (ws : seq (split R s)) (F : 'M[R]_(s, k)) e,
  (forall w, List.In w ws -> Orthonormal (evecs w)) -> JointlySmoothest ws F e ->
  (forall i j : 'I_k, (i <= j)%N -> e 0 j <= e 0 i) /\
  (forall j, 0 <= e 0 j <= (size ws)%:R) /\
  forall j, e 0 j = (size ws)%:R <-> forall w, List.In w ws -> exists c, col j F = evecs w *m c.
Proof.
move=> R s k ws F e HO H; have [/orthonormalE HF He Hm HP] := H.
have HU j : sq_length (col j F) = 1 by exact: unit_col.
split; first by move=> i j; exact: smooth_sorted H i j.
split.
  move=> j; rewrite -He; apply/andP; split.
    by apply: sumr_ge0 => w _; apply: sumr_ge0 => i _; rewrite sqr_ge0.
  by have := energy_le (col j F) HO; rewrite HU mulr1.
move=> j; split.
- move=> E w Hw; exists ((evecs w)^T *m col j F); apply/esym; apply: (energy_all HO) => //.
  by rewrite He E HU mulr1.
- move=> HC; rewrite -He /energy; clear -HO HC HU; elim: ws HO HC => [|w ws IH] HO HC; first by rewrite big_nil.
  rewrite big_cons /= -add1n natrD IH; try by move=> w' Hw'; (apply: HO || apply: HC); right.
  congr (_ + _); have [c E] := HC w (or_introl erefl).
  have /orthonormalE HW := HO w (or_introl erefl).
  by rewrite -(HU j) !seen_sq {1}E mulmxA HW mul1mx !sq_dot E dot_mull mulmxA HW mul1mx.
Qed.
Print Assumptions C104_energies.

(** The kernel eigenvectors: for symmetric kernel matrices every split has orthonormal eigenvectors
    with eigenvalues above the cut-off, and none of the computed ones is lost. *)
Theorem C104_kernel_eigenvectors :
  forall (R : rcfType) s k (eig : eig_t R k) cut (ks : seq 'M[R]_s) ws,
  EigenSolver eig -> OrthonormalSolver eig -> (forall K, List.In K ks -> Symmetric K) ->
  kernel_eigenpairs eig cut ks = Some ws ->
  List.Forall2 (fun K w => Orthonormal (evecs w) /\ EigenPairs K (evals w) (evecs w) /\
    (forall j, cut < evals w 0 j) /\
    exists e V, eig s K = Some (e, V) /\
      forall c, cut < e 0 c <-> exists j, evals w 0 j = e 0 c /\ col j (evecs w) = col c V) ks ws.
Proof.
move=> R s k eig cut ks ws HE HO HS /kernel_eigenpairs_in H.
elim: H HS => {ks ws} [|K w ks ws [e [V [E ->]]] _ IH] HS; constructor; last by apply: IH => K' HK; apply: HS; right.
have HK := HS K (or_introl erefl); have [HP _] := HE _ _ _ _ E.
split; first by apply: cut_orth; exact: HO E HK.
split; first exact: cut_pairs_eig.
by split=> [j|]; [exact: cut_above|exists e, V; split=> // c; exact: cut_exactly].
Qed.
Print Assumptions C104_kernel_eigenvectors.

(** The threshold of two splits is between 1/2 and 1, for every shuffling. *)
Theorem C104_threshold :
  forall (R : rcfType) s (shuffle : forall p, 'M[R]_(s, p) -> 'M[R]_(s, p)) (svds : svds_t R) n w1 w2 E0,
  Orthonormal (evecs w1) -> Orthonormal (evecs w2) ->
  (forall p (A : 'M[R]_(s, p)), RowsPermuted A (shuffle p A)) ->
  (forall m l (A : 'M[R]_(m, l)) k g x, svds m l A k = Ok g -> x \in g -> SingularValue A x) ->
  compute_E0 shuffle svds n [:: w1; w2] = Ok E0 -> 2%:R^-1 <= E0 <= 1.
Proof.
move=> R s shuffle svds n w1 w2 E0 /orthonormalE H1 /orthonormalE H2 Hsh Hsv.
rewrite /compute_E0 /=; case E: (svds _ _ _ _) => [g|//] /=; case: ifP => // Hg [<-].
have Hx : 0 <= nth 0 (sort (fun x y => y <= x) g) 2 <= 1.
  move: Hg; rewrite size_sort => Hg; apply: (sort_nth2 (P := fun x => 0 <= x <= 1)) => // x Hin.
  have HV := Hsv _ _ _ _ _ _ E Hin; have [H0 _] := HV; rewrite H0 /=.
  by apply: singular_le1 HV => //; apply: perm_orth H2.
move/andP: Hx => [Ha Hb]; apply/andP; split.
  by rewrite -{1}[2%:R^-1]mul1r ler_pmul2r ?invr_gt0 ?ltr0n // ler_addl.
by rewrite ler_pdivr_mulr ?ltr0n // mul1r -[2%:R]/(1 + 1) ler_add2l.
Qed.
Print Assumptions C104_threshold.

(** With three and more splits the shuffled eigenvectors are not used: the threshold is computed from
    the data it is meant to judge. *)
Theorem C104_threshold_not_shuffled_refuted :
  forall (R : rcfType) s (shuffle shuffle' : forall p, 'M[R]_(s, p) -> 'M[R]_(s, p)) (svds : svds_t R) n ws,
  size ws <> 2%N -> compute_E0 shuffle svds n ws = compute_E0 shuffle' svds n ws.
Proof. by move=> R s sh sh' svds n [|w1 [|w2 [|w3 ws]]]. Qed.
Print Assumptions C104_threshold_not_shuffled_refuted.

(** Accepted parameters. *)
Theorem C104_parameters :
  forall (R : rcfType) names n_eig n_fun (cut : R),
  validate_parameter names n_eig n_fun cut = Ok tt <->
  [/\ (2 <= size names)%N, uniq names, (1 <= n_eig)%N, (1 <= n_fun)%N & 0 <= cut].
Proof.
move=> R names ne nf cut; rewrite /validate_parameter.
case: (leqP (size names) 1) => H1; first by split=> // -[].
case: (uniq names); last by split=> // -[].
case: (ltnP ne 1) => H2 /=; first by split=> // -[].
case: (ltnP nf 1) => H3 /=; first by split=> // -[].
by case: (ltP cut 0) => H4; split=> // -[].
Qed.
Print Assumptions C104_parameters.

(** Two planes in four dimensions with singular values 3/5; three splits with three times the plane. *)
Example C104_two_splits_example :
  forall R : rcfType, exists (W1 W2 : 'M[R]_(2 + 2, 2)) (svd : full_svd_t R) sv F,
  Orthonormal W1 /\ Orthonormal W2 /\ FullSvd svd /\ DescendingSvd svd /\
  jsf_vectors svd 1 W1 W2 = Some (sv, F) /\ forall j, sv 0 j = 3%:R / 5%:R.
Proof. exact: two_example. Qed.

Example C104_more_splits_example :
  forall R : rcfType, exists (svd : svd_t R 2) (ws : seq (split R 2)) sv F,
  SvdSolver svd /\ LargestSvd svd /\ size ws = 3%N /\ jsf_vectors_multi svd ws = Some (sv, F).
Proof.
move=> R; pose w := Split (1%:M : 'M[R]_2) (const_mx 2%:R).
exists (@gram3_svd R), [:: w; w; w]; do 2 eexists; split; first exact: gram3_svd_ok.
split; first exact: gram3_largest; split=> //.
rewrite /jsf_vectors_multi /gram3_svd stack_gram.
have -> : \sum_(w <- [:: w; w; w]) evecs w *m (evecs w)^T = (3%:R)%:M :> 'M[R]_2.
  by rewrite !big_cons big_nil /= trmx1 mulmx1 addr0 -!raddfD /= !mulrS addr0.
by rewrite eqxx; reflexivity.
Qed.

(** Eigenvalues 2 and 1 with cut-off 1. *)
Example C104_cut_off_example :
  forall R : rcfType, let w := cut_pairs 1 (\row_(j < 2) (if j == 0 then 2%:R else 1)) (1%:M : 'M[R]_2) in
  n_eig w = 1%N /\ forall j, evals w 0 j = 2%:R.
Proof.
move=> R w.
have E : [seq i <- enum 'I_2 | (1 : R) < (\row_(j < 2) (if j == 0 then 2%:R else 1)) 0 i] = [:: 0].
  by rewrite !enum_ordS enum_ord0 /= !mxE /= ltxx -[1]/(1%:R) ltr_nat /=; congr (_ :: _); apply/val_inj.
split; first by rewrite /w /= E.
by rewrite /w /=; move: E; set l := filter _ _ => E; rewrite E => j; rewrite mxE [j]ord1 (tnth_nth 0) /= mxE.
Qed.

Example C104_threshold_example :
  forall R : rcfType,
  compute_E0 (s := 2) (fun p A => A) (fun m n A k => Ok [:: 1; 2%:R^-1; 0]) 3
    [:: Split (1%:M : 'M[R]_2) 0; Split (1%:M : 'M[R]_2) 0] = Ok ((1 + 0) / 2%:R).
Proof.
move=> R; rewrite /compute_E0 /= size_sort /=; congr (Ok ((1 + _) / _)).
have H0 : (2%:R^-1 : R) <= 1 by rewrite invf_le1 ?ltr0n // ler1n.
rewrite sorted_sort //=; last by rewrite H0 invr_ge0 ler0n.
by move=> y x z H1 H2; exact: le_trans H2 H1.
Qed.
