(** * C100: radial basis kernels (pcfold/kernels.py). *)

From Coq Require Import Reals List Arith Lia Lra Psatz.
From Verif Require Import Np RadModel RadSpec RadPos RadProofs.
Import ListNotations.
Local Open Scope R_scope.

(** C100: a call with a positive bandwidth returns one row per query point and one column per reference point with the
    documented function of their Euclidean distance, and leaves the kernel as it is. *)
Theorem C100_dense :
  forall k e d X Y, 0 < e -> Cloud d X -> Cloud d (query X Y) ->
    exists rows, call (Kernel k (Number e)) None X Y [] = (Kernel k (Number e), Ok (Dense rows)) /\
      length rows = length (query X Y) /\ (forall i, (i < length (query X Y))%nat -> length (nth i rows []) = length X) /\
      forall i j, (i < length (query X Y))%nat -> (j < length X)%nat ->
        entry (Dense rows) i j = radial k e (euclid (nth i (query X Y) []) (nth j X [])).
Proof. exact dense_call. Qed.
Print Assumptions C100_dense.

(** C100: with a cut-off the entries of the pairs below the cut-off, and only these, are stored, with the same values; this
    includes the diagonal. *)
Theorem C100_sparse :
  forall k e c d X Y, 0 < e -> 0 < c -> k <> Thinplate -> Cloud d X -> Cloud d (query X Y) ->
    exists rows, call (Kernel k (Number e)) (Some c) X Y [] = (Kernel k (Number e), Ok (Sparse (length X) rows)) /\
      length rows = length (query X Y) /\
      forall i j, (i < length (query X Y))%nat -> (j < length X)%nat ->
        let r := euclid (nth i (query X Y) []) (nth j X []) in
        (Stored (Sparse (length X) rows) i j <-> r < c) /\
        (r < c -> entry (Sparse (length X) rows) i j = radial k e r) /\
        (~ r < c -> entry (Sparse (length X) rows) i j = 0).
Proof. exact sparse_call. Qed.
Print Assumptions C100_sparse.

(** C100: the thin plate kernel cannot be evaluated with a cut-off. *)
Theorem C100_thinplate_sparse_refuted :
  forall e c X Y, snd (call (Kernel Thinplate e) (Some c) X Y []) = Err TypeError.
Proof. reflexivity. Qed.
Print Assumptions C100_thinplate_sparse_refuted.

(** C100: the Gaussian and both inverse kernels are 1 at distance 0, positive and strictly decreasing with the distance;
    the multiquadric kernel is strictly increasing from 1. *)
Theorem C100_monotone :
  forall k e r s, 0 < e -> 0 <= r < s ->
    (decaying k -> radial k e 0 = 1 /\ 0 < radial k e s < radial k e r) /\
    radial Multiquadric e 0 = 1 /\ radial Multiquadric e r < radial Multiquadric e s.
Proof. intros k e r s He H. split; [intros Hk; apply radial_bounds; assumption|]. apply multi_bounds; assumption. Qed.
Print Assumptions C100_monotone.

(** The kernel matrix of a cloud as returned by the call. *)
Lemma returned k e d X k' M : 0 < e -> Cloud d X -> call (Kernel k (Number e)) None X None [] = (k', Ok M) ->
  forall i j, (i < length X)%nat -> (j < length X)%nat -> entry M i j = kmatrix k e X i j.
Proof.
  intros He HX H i j Hi Hj. destruct (dense_call k e d X None He HX HX) as (rows & E & _ & _ & V).
  unfold settled in E. rewrite E in H. injection H as _ <-. exact (V i j Hi Hj).
Qed.

(** C100: the kernel matrix of a cloud is symmetric, and for the Gaussian and both inverse kernels positive semidefinite;
    it is positive definite if the points are distinct. *)
Theorem C100_positive :
  forall k e d X k' M, 0 < e -> Cloud d X -> call (Kernel k (Number e)) None X None [] = (k', Ok M) ->
    (forall i j, (i < length X)%nat -> (j < length X)%nat -> entry M i j = entry M j i) /\
    (decaying k -> PositiveSemidefinite (length X) (entry M)) /\
    (decaying k -> NoDup X -> PositiveDefinite (length X) (entry M)).
Proof.
  intros k e d X k' M He HX H. assert (R := returned k e d X k' M He HX H). split; [|split].
  - intros i j Hi Hj. rewrite !R by assumption. unfold kmatrix. f_equal. apply euclid_sym.
    rewrite (cloud_nth d X i), (cloud_nth d X j); auto.
  - intros Hk c. rewrite (quad_ext _ _ (kmatrix k e X) c c); [|reflexivity|exact R]. apply (cloud_psd k e d); assumption.
  - intros Hk HN c Hc. rewrite (quad_ext _ _ (kmatrix k e X) c c); [|reflexivity|exact R]. apply (cloud_pd k e d); assumption.
Qed.
Print Assumptions C100_positive.

(** C100: the multiquadric kernel matrix is conditionally negative definite, and not positive semidefinite as soon as there
    are two distinct points. *)
Theorem C100_multiquadric :
  forall e d X k' M, 0 < e -> Cloud d X -> NoDup X -> call (Kernel Multiquadric (Number e)) None X None [] = (k', Ok M) ->
    ConditionallyNegative (length X) (entry M) /\
    ((2 <= length X)%nat -> ~ PositiveSemidefinite (length X) (entry M)).
Proof.
  intros e d X k' M He HX HN H. assert (R := returned Multiquadric e d X k' M He HX H).
  assert (C : ConditionallyNegative (length X) (entry M)).
  { intros c Hc Sc. rewrite (quad_ext _ _ (kmatrix Multiquadric e X) c c); [|reflexivity|exact R]. apply (cloud_cnd e d); assumption. }
  split; [exact C|]. intros L P.
  set (c := fun i => match i with O => 1 | S O => -1 | _ => 0 end).
  assert (Hc : NonZero (length X) c) by (exists 0%nat; split; [lia|cbn; lra]).
  assert (Sc : sum (length X) c = 0).
  { destruct X as [|x [|y X]]; cbn [length] in *; try lia. rewrite !sum_shift. rewrite sum_zero; [cbn; ring|]. reflexivity. }
  specialize (C c Hc Sc). specialize (P c). lra.
Qed.
Print Assumptions C100_multiquadric.

(** C100: interpolation at distinct points has at most one solution: with these four kernels only the zero coefficients give
    the zero function on the points. *)
Theorem C100_interpolation_unique :
  forall k e d X k' M c, decaying k \/ k = Multiquadric -> 0 < e -> Cloud d X -> NoDup X ->
    call (Kernel k (Number e)) None X None [] = (k', Ok M) ->
    (forall i, (i < length X)%nat -> apply_mat (length X) (entry M) c i = 0) ->
    forall i, (i < length X)%nat -> c i = 0.
Proof.
  intros k e d X k' M c Hk He HX HN H Z. assert (R := returned k e d X k' M He HX H).
  assert (Z' : forall i, (i < length X)%nat -> apply_mat (length X) (kmatrix k e X) c i = 0).
  { intros i Hi. rewrite <- (Z i Hi). apply sum_ext. intros j Hj. rewrite R by assumption. reflexivity. }
  destruct Hk as [Hk| ->].
  - apply (pd_injective (length X) (kmatrix k e X) c); [apply (cloud_pd k e d); assumption|exact Z'].
  - set (K := fun i j => if (Nat.ltb i (length X) && Nat.ltb j (length X))%bool then kmatrix Multiquadric e X i j else 0).
    assert (KE : forall i j, (i < length X)%nat -> (j < length X)%nat -> K i j = kmatrix Multiquadric e X i j).
    { intros i j Hi Hj. unfold K. rewrite (proj2 (Nat.ltb_lt _ _) Hi), (proj2 (Nat.ltb_lt _ _) Hj). reflexivity. }
    apply (cnd_injective (length X) K c).
    + intros i j. unfold K. rewrite (Bool.andb_comm (Nat.ltb j _)). destruct (Nat.ltb_spec i (length X)); [|reflexivity].
      destruct (Nat.ltb_spec j (length X)); [|reflexivity]. cbn [andb]. unfold kmatrix. f_equal. apply euclid_sym.
      rewrite (cloud_nth d X i), (cloud_nth d X j); auto.
    + intros v Hv Sv. rewrite (quad_ext _ _ (kmatrix Multiquadric e X) v v); [|reflexivity|exact KE]. apply (cloud_cnd e d); assumption.
    + intros i Hi. rewrite KE by assumption. unfold kmatrix. rewrite (proj2 (euclid_zero _ _ eq_refl) eq_refl).
      rewrite (proj1 (multi_bounds e 0 1 He ltac:(lra))). lra.
    + intros i Hi. rewrite <- (Z' i Hi). apply sum_ext. intros j Hj. rewrite KE by assumption. reflexivity.
Qed.
Print Assumptions C100_interpolation_unique.

(** C100: diffusion maps rescale such a kernel matrix with positive weights (any power of the densities) and divide by the row
    sums: all its eigenvalues are in [0, 1], and positive for distinct points. *)
Theorem C100_markov_eigenvalues :
  forall k e d X k' M w lambda v, decaying k -> 0 < e -> Cloud d X ->
    call (Kernel k (Number e)) None X None [] = (k', Ok M) ->
    (forall i, (i < length X)%nat -> 0 < w i) ->
    let K i j := w i * w j * entry M i j in
    NonZero (length X) v ->
    (forall i, (i < length X)%nat -> sum (length X) (fun j => K i j / sum (length X) (K i) * v j) = lambda * v i) ->
    0 <= lambda <= 1 /\ (NoDup X -> 0 < lambda).
Proof.
  intros k e d X k' M w lambda v Hk He HX H Hw K NZ E. assert (R := returned k e d X k' M He HX H). set (n := length X) in *.
  destruct (C100_positive k e d X k' M He HX H) as (Sy & PS & PD). fold n in Sy, PS, PD.
  set (L := fun i j => if (Nat.ltb i n && Nat.ltb j n)%bool then K i j else 0).
  assert (LE : forall i j, (i < n)%nat -> (j < n)%nat -> L i j = K i j).
  { intros i j Hi Hj. unfold L. rewrite (proj2 (Nat.ltb_lt _ _) Hi), (proj2 (Nat.ltb_lt _ _) Hj). reflexivity. }
  assert (LP : PositiveSemidefinite n L).
  { intros c. rewrite (quad_ext _ _ K c c); [|reflexivity|exact LE]. unfold K. rewrite quad_weights. apply PS. exact Hk. }
  destruct (stochastic_eigenvalue n L lambda v LP) as (A & B); auto.
  - intros i j. unfold L. rewrite (Bool.andb_comm (Nat.ltb j _)). destruct (Nat.ltb_spec i n); [|reflexivity].
    destruct (Nat.ltb_spec j n); [|reflexivity]. cbn [andb]. unfold K. rewrite (Sy i j) by assumption. ring.
  - intros i j Hi Hj. rewrite LE by assumption. unfold K. rewrite R by assumption. apply Rmult_lt_0_compat; [apply Rmult_lt_0_compat; apply Hw; assumption|].
    unfold kmatrix. set (r := euclid _ _). assert (N : 0 <= r) by apply euclid_nonneg.
    destruct (radial_bounds k e r (r + 1) Hk He ltac:(lra)) as (_ & Q). lra.
  - intros i Hi. rewrite <- (E i Hi). apply sum_ext. intros j Hj. rewrite LE by assumption. f_equal. f_equal. apply sum_ext. intros m Hm. apply LE; assumption.
  - split; [exact A|]. intros HN. apply B. intros c Hc. rewrite (quad_ext _ _ K c c); [|reflexivity|exact LE]. unfold K. rewrite quad_weights.
    apply PD; [exact Hk|exact HN|]. destruct Hc as (p & Hp & Cp). exists p. split; [exact Hp|]. specialize (Hw p Hp).
    intros Z. apply Rmult_integral in Z. destruct Z; [contradiction|lra].
Qed.
Print Assumptions C100_markov_eigenvalues.

(** C100: a cut-off destroys the positivity: the matrix of three points on a line. *)
Theorem C100_cut_off_positive_refuted :
  exists M, snd (call (Kernel Gaussian (Number 4)) (Some (3 / 2)) [[0]; [1]; [2]] None []) = Ok M /\
    ~ PositiveSemidefinite 3 (entry M).
Proof.
  assert (HX : Cloud 1 [[0]; [1]; [2]]) by (repeat constructor).
  destruct (sparse_call Gaussian 4 (3 / 2) 1 [[0]; [1]; [2]] None ltac:(lra) ltac:(lra) ltac:(discriminate) HX HX) as (rows & E & _ & V).
  exists (Sparse 3 rows). unfold settled in E. rewrite E. split; [reflexivity|]. intros P. cbn [length query] in V.
  assert (D : forall i j r, (i < 3)%nat -> (j < 3)%nat -> euclid (nth i [[0]; [1]; [2]] []) (nth j [[0]; [1]; [2]] []) = r ->
    entry (Sparse 3 rows) i j = if Rlt_dec r (3 / 2) then radial Gaussian 4 r else 0).
  { intros i j r Hi Hj <-. destruct (V i j Hi Hj) as (_ & A & B). destruct (Rlt_dec _ (3 / 2)) as [G|G]; [apply A|apply B]; exact G. }
  assert (A0 : forall a, euclid [a] [a] = 0) by (intros a; apply euclid_zero; reflexivity).
  assert (A1 : euclid [0] [1] = 1) by (rewrite euclid_sq by reflexivity; cbn; transitivity (sqrt (1 * 1)); [f_equal; ring|apply sqrt_square; lra]).
  assert (A2 : euclid [1] [2] = 1) by (rewrite euclid_sq by reflexivity; cbn; transitivity (sqrt (1 * 1)); [f_equal; ring|apply sqrt_square; lra]).
  assert (A3 : euclid [0] [2] = 2) by (rewrite euclid_sq by reflexivity; cbn; transitivity (sqrt (2 * 2)); [f_equal; ring|apply sqrt_square; lra]).
  assert (B1 : euclid [1] [0] = 1) by (rewrite euclid_sym by reflexivity; exact A1).
  assert (B2 : euclid [2] [1] = 1) by (rewrite euclid_sym by reflexivity; exact A2).
  assert (B3 : euclid [2] [0] = 2) by (rewrite euclid_sym by reflexivity; exact A3).
  specialize (P (fun i => match i with O => 2 | S O => -3 | _ => 2 end)). unfold quad in P. cbn [sum] in P.
  rewrite (D 0%nat 0%nat 0), (D 0%nat 1%nat 1), (D 0%nat 2%nat 2), (D 1%nat 0%nat 1), (D 1%nat 1%nat 0), (D 1%nat 2%nat 1),
    (D 2%nat 0%nat 2), (D 2%nat 1%nat 1), (D 2%nat 2%nat 0) in P; try lia; try assumption; try apply A0.
  destruct (Rlt_dec 0 (3 / 2)); [|lra]. destruct (Rlt_dec 1 (3 / 2)); [|lra]. destruct (Rlt_dec 2 (3 / 2)); [lra|].
  cbn [radial] in P. replace (- (0 ^ 2 / (2 * 4))) with 0 in P by field. rewrite exp_0 in P.
  assert (Q := exp_ineq1_le (- (1 ^ 2 / (2 * 4)))). lra.
Qed.
Print Assumptions C100_cut_off_positive_refuted.

(** C100: a bandwidth given as a function is evaluated once, on the first distance matrix; whatever is evaluated later uses
    this number.  If the number is not positive, then every evaluation fails. *)
Theorem C100_bandwidth_history :
  forall f D Ds, let e := call_epsilon f D in
    evaluate_all (Kernel Gaussian (Callable f)) (D :: Ds)
    = (Kernel Gaussian (Number e),
       map (fun D' => if Rlt_dec 0 e then Ok (apply_kernel (kernel_value Gaussian e) D') else Err ValueError) (D :: Ds)).
Proof. intros f D Ds e. rewrite evaluate_all_callable. apply evaluate_all_number. Qed.
Print Assumptions C100_bandwidth_history.

(** C100: so the second data set is not evaluated with its own bandwidth. *)
Theorem C100_bandwidth_stale_refuted :
  forall f D rows i j, 0 < call_epsilon f D -> 0 < f (ArgArray rows) -> call_epsilon f D <> f (ArgArray rows) ->
    (i < length rows)%nat -> (j < length (nth i rows []))%nat -> nth j (nth i rows []) 0 <> 0 ->
    nth 1 (snd (evaluate_all (Kernel Gaussian (Callable f)) [D; Dense rows])) (Err ValueError)
    <> snd (evaluate (Kernel Gaussian (Callable f)) (Dense rows)).
Proof.
  intros f D rows i j H1 H2 N Hi Hj X E. rewrite C100_bandwidth_history in E. cbn [snd map nth] in E.
  destruct (Rlt_dec 0 (call_epsilon f D)); [|contradiction]. unfold evaluate in E. cbn [k_name k_eps call_epsilon check_bandwidth snd] in E.
  destruct (Rlt_dec 0 (f (ArgArray rows))); [|contradiction]. injection E as E. apply N.
  apply (gaussian_injective _ _ (nth j (nth i rows []) 0) H1 H2 X).
  assert (F : Dense (map (map (kernel_value Gaussian (call_epsilon f D))) rows) = Dense (map (map (kernel_value Gaussian (f (ArgArray rows)))) rows)) by (f_equal; exact E).
  rewrite <- !(apply_dense _ rows i j Hi Hj). cbn [apply_kernel]. rewrite F. reflexivity.
Qed.
Print Assumptions C100_bandwidth_stale_refuted.

(** C100: the metric is fixed: another metric is rejected. *)
Theorem C100_metric :
  forall required arg, match snd (radial_init required arg) with
    | Ok m => m = required /\ (arg = NoDist \/ arg = Algorithm required \/ arg = Dict None \/ arg = Dict (Some required))
    | Err e => e = ValueError /\ exists m, m <> required /\ (arg = Algorithm m \/ arg = Dict (Some m))
    end.
Proof.
  intros required [|m|[m|]]; cbn.
  - split; [reflexivity|left; reflexivity].
  - destruct m, required; cbn; try (split; [reflexivity|right; left; reflexivity]);
      (split; [reflexivity|]); eexists; (split; [|left; reflexivity]); discriminate.
  - destruct m, required; cbn; try (split; [reflexivity|right; right; right; reflexivity]);
      (split; [reflexivity|]); eexists; (split; [|right; reflexivity]); discriminate.
  - split; [reflexivity|right; right; left; reflexivity].
Qed.
Print Assumptions C100_metric.

(** C100: but the rejected call has removed the metric from the given dictionary: the same call repeated with the same
    dictionary is accepted, with a metric the caller did not ask for. *)
Theorem C100_metric_retry_refuted :
  forall required m, m <> required ->
    let (arg', r) := radial_init required (Dict (Some m)) in
    r = Err ValueError /\ snd (radial_init required arg') = Ok required.
Proof. intros required m N. destruct m, required; cbn; try contradiction; split; reflexivity. Qed.
Print Assumptions C100_metric_retry_refuted.

(** Concrete cases. *)
Example C100_cloud_example : Cloud 2 [[0; 0]; [3; 4]; [1; 1]] /\ NoDup [[0; 0]; [3; 4]; [1; 1]] /\ decaying Gaussian /\ euclid [0; 0] [3; 4] = 5.
Proof.
  split; [repeat constructor|]. split.
  - repeat constructor; cbn; intros H; repeat (destruct H as [H|H]; [injection H; intros; lra|]); exact H.
  - split; [left; reflexivity|]. rewrite euclid_sq by reflexivity. cbn. transitivity (sqrt (5 * 5)); [f_equal; ring|apply sqrt_square; lra].
Qed.

Example C100_bandwidth_example :
  let f a := match a with ArgArray rows => nth 0 (nth 0 rows []) 0 + 1 | ArgData _ => 1 end in
  call_epsilon f (Dense [[1]]) = 2 /\ f (ArgArray [[3]]) = 4.
Proof. cbn. split; lra. Qed.
