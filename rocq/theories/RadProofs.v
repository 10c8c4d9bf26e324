(** * Kernel matrices of point clouds *)

From Coq Require Import Reals List Arith Lia Lra Psatz.
From Verif Require Import Np RadModel RadSpec RadPos.
Import ListNotations.
Local Open Scope R_scope.

Lemma sum_shift n f : sum (S n) f = f 0%nat + sum n (fun i => f (S i)).
Proof. induction n; [cbn; ring|]. change (sum (S (S n)) f) with (sum (S n) f + f (S n)). rewrite IHn. cbn. ring. Qed.

Lemma sq_euclidean_sum x : forall y, length x = length y ->
  sq_euclidean x y = sum (length x) (fun a => (nth a x 0 - nth a y 0) * (nth a x 0 - nth a y 0)).
Proof.
  induction x as [|a x IH]; intros [|b y] H; cbn in H; try discriminate; [reflexivity|].
  cbn [length]. rewrite sum_shift. cbn [sq_euclidean nth]. rewrite IH by lia. reflexivity.
Qed.

Lemma euclid_sq x y : length x = length y -> euclid x y = sqrt (sq_euclidean x y).
Proof. intros H. unfold euclid. f_equal. rewrite sq_euclidean_sum by exact H. apply sum_ext. intros; ring. Qed.

Lemma sq_euclidean_nonneg x : forall y, 0 <= sq_euclidean x y.
Proof.
  induction x as [|a x IH]; intros [|b y]; cbn; try lra. specialize (IH y). assert (H := Rle_0_sqr (a - b)). unfold Rsqr in H. lra.
Qed.

Lemma sq_euclidean_comm x : forall y, sq_euclidean x y = sq_euclidean y x.
Proof. induction x as [|a x IH]; intros [|b y]; cbn; try reflexivity. rewrite IH. ring. Qed.

Lemma sq_euclidean_self x : sq_euclidean x x = 0.
Proof. induction x; cbn; [reflexivity|]. rewrite IHx. ring. Qed.

Lemma euclid_sym x y : length x = length y -> euclid x y = euclid y x.
Proof. intros H. rewrite !euclid_sq by auto. rewrite sq_euclidean_comm. reflexivity. Qed.

Lemma euclid_nonneg x y : 0 <= euclid x y.
Proof. apply sqrt_pos. Qed.

Lemma euclid_pow x y : length x = length y -> euclid x y ^ 2 = sq_euclidean x y.
Proof. intros H. rewrite euclid_sq by exact H. cbn. rewrite Rmult_1_r. apply sqrt_sqrt. apply sq_euclidean_nonneg. Qed.

Lemma euclid_zero x : forall y, length x = length y -> (euclid x y = 0 <-> x = y).
Proof.
  intros y H. split.
  - intros E. assert (Z : sq_euclidean x y = 0) by (rewrite <- euclid_pow by exact H; rewrite E; ring). clear E.
    revert y H Z. induction x as [|a x IH]; intros [|b y] H Z; cbn in H, Z; try discriminate; [reflexivity|].
    assert (P := sq_euclidean_nonneg x y). assert (Q := Rle_0_sqr (a - b)). unfold Rsqr in Q.
    f_equal; [nra|]. apply IH; [lia|lra].
  - intros ->. rewrite euclid_sq by reflexivity. rewrite sq_euclidean_self. apply sqrt_0.
Qed.

(** ** Kernel values *)

Lemma value_radial k e m x y : m = required_metric k -> length x = length y -> 0 < e ->
  kernel_value k e (mdist m x y) = radial k e (euclid x y).
Proof.
  intros -> H He. destruct k; cbn [required_metric mdist kernel_value radial];
    try rewrite <- euclid_sq by exact H.
  - rewrite euclid_pow by exact H. f_equal. field. lra.
  - rewrite euclid_pow by exact H. f_equal. field. lra.
  - rewrite euclid_pow by exact H. replace (1 / (2 * e) * sq_euclidean x y + 1) with (sq_euclidean x y / (2 * e) + 1) by (field; lra). unfold Rdiv. ring.
  - rewrite euclid_pow by exact H. replace (1 / (2 * e) * sq_euclidean x y + 1) with (sq_euclidean x y / (2 * e) + 1) by (field; lra). unfold Rdiv. ring.
  - destruct (Req_EM_T (euclid x y) 0) as [E|_]; [rewrite E; ring|reflexivity].
  - reflexivity.
  - reflexivity.
Qed.

Lemma cloud_nth d X i : Cloud d X -> (i < length X)%nat -> length (nth i X []) = d.
Proof. intros H Hi. exact (proj1 (Forall_forall _ _) H _ (nth_In X [] Hi)). Qed.

Lemma pdist_entry m d X i j : Cloud d X -> (i < length X)%nat -> (j < length X)%nat ->
  nth j (nth i (pdist m X) []) 0 = mdist m (nth i X []) (nth j X []).
Proof.
  intros HX Hi Hj. unfold pdist. set (f := fun i => map _ (seq 0 (length X))).
  rewrite (nth_indep _ _ (f 0%nat)) by (rewrite map_length, seq_length; exact Hi).
  rewrite (map_nth f), seq_nth by exact Hi. unfold f. cbn [plus].
  set (g := fun j => if (i <? j)%nat then _ else _).
  rewrite (nth_indep _ _ (g 0%nat)) by (rewrite map_length, seq_length; exact Hj).
  rewrite (map_nth g), seq_nth by exact Hj. unfold g. cbn [plus].
  destruct (Nat.ltb_spec i j); [reflexivity|]. destruct (Nat.ltb_spec j i).
  - unfold mdist. rewrite sq_euclidean_comm. reflexivity.
  - assert (i = j) by lia. subst j. unfold mdist. rewrite sq_euclidean_self, sqrt_0. destruct m; reflexivity.
Qed.

Lemma cdist_entry m X Y i j : (i < length Y)%nat -> (j < length X)%nat ->
  nth j (nth i (cdist m X Y) []) 0 = mdist m (nth j X []) (nth i Y []).
Proof.
  intros Hi Hj. unfold cdist. set (f := fun y => map _ X).
  rewrite (nth_indep _ _ (f [])) by (rewrite map_length; exact Hi). rewrite (map_nth f). unfold f.
  set (g := fun x => mdist m x (nth i Y [])). rewrite (nth_indep _ _ (g [])) by (rewrite map_length; exact Hj).
  rewrite (map_nth g). reflexivity.
Qed.

Definition dist_rows (m : metric) (X : list point) (Y : option (list point)) : list (list R) :=
  match Y with None => pdist m X | Some Y => cdist m X Y end.

Lemma dist_rows_length m X Y : length (dist_rows m X Y) = length (query X Y).
Proof. destruct Y; cbn; unfold pdist, cdist; rewrite map_length; [reflexivity|apply seq_length]. Qed.

Lemma dist_rows_width m X Y i : (i < length (query X Y))%nat -> length (nth i (dist_rows m X Y) []) = length X.
Proof.
  intros Hi. assert (F : Forall (fun r => length r = length X) (dist_rows m X Y)).
  { apply Forall_forall. intros r Hr. destruct Y; cbn in Hr; unfold pdist, cdist in Hr; apply in_map_iff in Hr; destruct Hr as (z & <- & _);
      rewrite map_length; [reflexivity|apply seq_length]. }
  apply (proj1 (Forall_forall _ _) F). apply nth_In. rewrite dist_rows_length. exact Hi.
Qed.

Lemma dist_rows_entry m d X Y i j : Cloud d X -> Cloud d (query X Y) -> (i < length (query X Y))%nat -> (j < length X)%nat ->
  nth j (nth i (dist_rows m X Y) []) 0 = mdist m (nth i (query X Y) []) (nth j X []).
Proof.
  intros HX HY Hi Hj. destruct Y as [Y|]; cbn in *.
  - rewrite cdist_entry by assumption. unfold mdist. rewrite sq_euclidean_comm. reflexivity.
  - apply (pdist_entry m d); assumption.
Qed.

Lemma apply_dense f rows i j : (i < length rows)%nat -> (j < length (nth i rows []))%nat ->
  entry (apply_kernel f (Dense rows)) i j = f (nth j (nth i rows []) 0).
Proof.
  intros Hi Hj. cbn. change (@nil R) with (map f (@nil R)) at 1. rewrite (map_nth (map f)).
  rewrite (nth_indep _ 0 (f 0)) by (rewrite map_length; exact Hj). apply map_nth.
Qed.

(** ** Calls *)

Definition settled (k : kernel_name) (e : R) := Kernel k (Number e).

Lemma evaluate_settled k e D : 0 < e -> (match D, k with Sparse _ _, Thinplate => False | _, _ => True end) ->
  evaluate (settled k e) D = (settled k e, Ok (apply_kernel (kernel_value k e) D)).
Proof.
  intros He Hk. unfold evaluate, settled. cbn [k_name k_eps]. unfold check_bandwidth.
  destruct k; cbn; try (destruct (Rlt_dec 0 e); [reflexivity|contradiction]); try reflexivity.
  destruct D; [reflexivity|contradiction].
Qed.

Lemma dense_call k e d X Y : 0 < e -> Cloud d X -> Cloud d (query X Y) ->
  exists rows, call (settled k e) None X Y [] = (settled k e, Ok (Dense rows)) /\
    length rows = length (query X Y) /\ (forall i, (i < length (query X Y))%nat -> length (nth i rows []) = length X) /\
    forall i j, (i < length (query X Y))%nat -> (j < length X)%nat ->
      entry (Dense rows) i j = radial k e (euclid (nth i (query X Y) []) (nth j X [])).
Proof.
  intros He HX HY. set (m := required_metric k).
  exists (map (map (kernel_value k e)) (dist_rows m X Y)). split.
  - unfold call, distance. fold (dist_rows (required_metric (k_name (settled k e))) X Y). cbn [k_name settled].
    rewrite evaluate_settled; [reflexivity|exact He|exact I].
  - split; [rewrite map_length; apply dist_rows_length|]. split.
    + intros i Hi. change (@nil R) with (map (kernel_value k e) []). rewrite (map_nth (map (kernel_value k e))), map_length.
      apply dist_rows_width. exact Hi.
    + intros i j Hi Hj. change (Dense (map (map (kernel_value k e)) (dist_rows m X Y))) with (apply_kernel (kernel_value k e) (Dense (dist_rows m X Y))).
      rewrite apply_dense; [|rewrite dist_rows_length; exact Hi|rewrite dist_rows_width; assumption].
      rewrite (dist_rows_entry m d) by assumption. apply value_radial; [reflexivity| |exact He].
      rewrite (cloud_nth d (query X Y)), (cloud_nth d X); auto.
Qed.

(** ** Positivity for clouds *)

Definition coord (X : list point) (i a : nat) : R := nth a (nth i X []) 0.

Lemma sq_coord d X i j : Cloud d X -> (i < length X)%nat -> (j < length X)%nat ->
  sq d (coord X) i j = euclid (nth i X []) (nth j X []) ^ 2.
Proof.
  intros HX Hi Hj. assert (Li := cloud_nth d X i HX Hi). assert (Lj := cloud_nth d X j HX Hj).
  rewrite euclid_pow by (rewrite Li, Lj; reflexivity). rewrite sq_euclidean_sum by (rewrite Li, Lj; reflexivity). rewrite Li. reflexivity.
Qed.

Lemma distinct_coord d X : Cloud d X -> NoDup X -> forall i j, (i < length X)%nat -> (j < length X)%nat -> i <> j ->
  exists a, (a < d)%nat /\ coord X i a <> coord X j a.
Proof.
  intros HX HN i j Hi Hj Hij.
  assert (Li := cloud_nth d X i HX Hi). assert (Lj := cloud_nth d X j HX Hj).
  assert (NE : nth i X [] <> nth j X []).
  { intros E. apply Hij. exact (proj1 (NoDup_nth X []) HN i j Hi Hj E). }
  unfold coord. revert NE Li Lj. generalize (nth i X []) (nth j X []). clear. intros x y NE <- Ly.
  revert y NE Ly. induction x as [|a x IH]; intros [|b y] NE Ly; cbn in Ly; try discriminate; [contradiction|].
  destruct (Req_EM_T a b) as [<-|N].
  - destruct (IH y) as (c & Hc & Dc); [congruence|lia|]. exists (S c). split; [cbn; lia|exact Dc].
  - exists 0%nat. split; [cbn; lia|exact N].
Qed.

Lemma radial_scale d X k e i j : 0 < e -> Cloud d X -> (i < length X)%nat -> (j < length X)%nat ->
  match k with
  | Gaussian => radial k e (euclid (nth i X []) (nth j X [])) = exp (- (/ (2 * e) * sq d (coord X) i j))
  | Multiquadric => radial k e (euclid (nth i X []) (nth j X [])) = sqrt (/ (2 * e) * sq d (coord X) i j + 1)
  | InvMultiquadric => radial k e (euclid (nth i X []) (nth j X [])) = / sqrt (/ (2 * e) * sq d (coord X) i j + 1)
  | InvQuadratic => radial k e (euclid (nth i X []) (nth j X [])) = / (/ (2 * e) * sq d (coord X) i j + 1)
  | _ => True
  end.
Proof.
  intros He HX Hi Hj. destruct k; try exact I; rewrite sq_coord by assumption; cbn [radial]; unfold Rdiv;
    rewrite (Rmult_comm (_ ^ 2)); reflexivity.
Qed.

Lemma scale_pos e : 0 < e -> 0 < / (2 * e).
Proof. intros H. apply Rinv_0_lt_compat. lra. Qed.


Definition kmatrix (k : kernel_name) (e : R) (X : list point) (i j : nat) : R :=
  radial k e (euclid (nth i X []) (nth j X [])).

Lemma cloud_psd k e d X : decaying k -> 0 < e -> Cloud d X -> PositiveSemidefinite (length X) (kmatrix k e X).
Proof.
  intros Hk He HX c. assert (P := scale_pos e He). destruct Hk as [->|[->| ->]].
  - rewrite (quad_ext _ _ (fun i j => exp (- (/ (2 * e) * sq d (coord X) i j))) c c);
      [apply gauss_psd; lra|reflexivity|intros i j Hi Hj; exact (radial_scale d X Gaussian e i j He HX Hi Hj)].
  - rewrite (quad_ext _ _ (fun i j => / sqrt (/ (2 * e) * sq d (coord X) i j + 1)) c c);
      [apply invmulti_psd; exact P|reflexivity|intros i j Hi Hj; exact (radial_scale d X InvMultiquadric e i j He HX Hi Hj)].
  - rewrite (quad_ext _ _ (fun i j => / (/ (2 * e) * sq d (coord X) i j + 1)) c c);
      [apply quadratic_psd; exact P|reflexivity|intros i j Hi Hj; exact (radial_scale d X InvQuadratic e i j He HX Hi Hj)].
Qed.

Lemma cloud_pd k e d X : decaying k -> 0 < e -> Cloud d X -> NoDup X -> PositiveDefinite (length X) (kmatrix k e X).
Proof.
  intros Hk He HX HN c Hc. assert (P := scale_pos e He). assert (D := distinct_coord d X HX HN). destruct Hk as [->|[->| ->]].
  - rewrite (quad_ext _ _ (fun i j => exp (- (/ (2 * e) * sq d (coord X) i j))) c c);
      [apply gauss_pd; assumption|reflexivity|intros i j Hi Hj; exact (radial_scale d X Gaussian e i j He HX Hi Hj)].
  - rewrite (quad_ext _ _ (fun i j => / sqrt (/ (2 * e) * sq d (coord X) i j + 1)) c c);
      [apply invmulti_pd; assumption|reflexivity|intros i j Hi Hj; exact (radial_scale d X InvMultiquadric e i j He HX Hi Hj)].
  - rewrite (quad_ext _ _ (fun i j => / (/ (2 * e) * sq d (coord X) i j + 1)) c c);
      [apply quadratic_pd; assumption|reflexivity|intros i j Hi Hj; exact (radial_scale d X InvQuadratic e i j He HX Hi Hj)].
Qed.

Lemma cloud_cnd e d X : 0 < e -> Cloud d X -> NoDup X -> ConditionallyNegative (length X) (kmatrix Multiquadric e X).
Proof.
  intros He HX HN c Hc Sc. assert (P := scale_pos e He). assert (D := distinct_coord d X HX HN).
  rewrite (quad_ext _ _ (fun i j => sqrt (/ (2 * e) * sq d (coord X) i j + 1)) c c);
    [apply multi_cnd; assumption|reflexivity|intros i j Hi Hj; exact (radial_scale d X Multiquadric e i j He HX Hi Hj)].
Qed.

(** ** Linear systems and eigenvalues *)


Lemma quad_apply n K c : quad n K c = sum n (fun i => c i * apply_mat n K c i).
Proof. apply sum_ext. intros i _. unfold apply_mat. rewrite <- sum_scal. apply sum_ext. intros j _. ring. Qed.

Lemma zero_or n c : (forall i, (i < n)%nat -> c i = 0) \/ NonZero n c.
Proof.
  induction n; [left; intros; lia|]. destruct IHn as [Z|(i & Hi & Ci)].
  - destruct (Req_EM_T (c n) 0) as [E|E]; [left|right; exists n; split; [lia|exact E]].
    intros i Hi. destruct (Nat.eq_dec i n) as [->|N]; [exact E|apply Z; lia].
  - right. exists i. split; [lia|exact Ci].
Qed.

Lemma pd_injective n K c : PositiveDefinite n K -> (forall i, (i < n)%nat -> apply_mat n K c i = 0) ->
  forall i, (i < n)%nat -> c i = 0.
Proof.
  intros P Z. destruct (zero_or n c) as [E|E]; [exact E|exfalso]. specialize (P c E). rewrite quad_apply in P.
  rewrite sum_zero in P; [lra|]. intros i Hi. rewrite Z by exact Hi. ring.
Qed.

(** Negative on the hyperplane of vectors with sum zero and positive somewhere: no kernel. *)
Lemma cnd_injective n K c : (forall i j, K i j = K j i) -> ConditionallyNegative n K -> (forall i, (i < n)%nat -> 0 < K i i) ->
  (forall i, (i < n)%nat -> apply_mat n K c i = 0) -> forall i, (i < n)%nat -> c i = 0.
Proof.
  intros Sy N Dg Z. destruct (zero_or n c) as [E|E]; [exact E|exfalso].
  assert (Q : quad n K c = 0) by (rewrite quad_apply; apply sum_zero; intros i Hi; rewrite Z by exact Hi; ring).
  destruct (Req_EM_T (sum n c) 0) as [Sc|Sc]; [specialize (N c E Sc); lra|].
  destruct E as (p & Hp & _).
  (* the unit vector p minus a multiple of c has sum zero *)
  set (u := fun i => if Nat.eqb i p then 1 else 0). set (t := - / sum n c).
  assert (Su : sum n u = 1).
  { rewrite (sum_single n u p Hp); [unfold u; rewrite Nat.eqb_refl; reflexivity|].
    intros i _ Hi. unfold u. rewrite (proj2 (Nat.eqb_neq i p) Hi). reflexivity. }
  set (w := fun i => 1 * u i + t * c i).
  assert (Sw : sum n w = 0).
  { unfold w. rewrite sum_plus, !sum_scal, Su. unfold t. field. exact Sc. }
  assert (Qu : quad n K u = K p p).
  { rewrite quad_apply. rewrite (sum_single n _ p Hp).
    - unfold apply_mat. rewrite (sum_single n _ p Hp); [unfold u; rewrite Nat.eqb_refl; ring|].
      intros j _ Hj. unfold u. rewrite (proj2 (Nat.eqb_neq j p) Hj). ring.
    - intros i _ Hi. unfold u at 1. rewrite (proj2 (Nat.eqb_neq i p) Hi). ring. }
  assert (C1 : sum n (fun i => sum n (fun j => u i * c j * K i j)) = 0).
  { rewrite (sum_ext n _ (fun i => u i * apply_mat n K c i)).
    - apply sum_zero. intros i Hi. rewrite Z by exact Hi. ring.
    - intros i _. unfold apply_mat. rewrite <- sum_scal. apply sum_ext. intros; ring. }
  assert (C2 : sum n (fun i => sum n (fun j => c i * u j * K i j)) = 0).
  { rewrite sum_swap. rewrite <- C1. apply sum_ext. intros i _. apply sum_ext. intros j _. rewrite (Sy j i). ring. }
  assert (Qw : quad n K w = K p p).
  { unfold w. rewrite quad_lin, Q, Qu, C1, C2. ring. }
  specialize (Dg p Hp).
  destruct (zero_or n w) as [Zw|Nw].
  - assert (quad n K w = 0); [|lra]. rewrite quad_apply. apply sum_zero. intros i Hi. rewrite Zw by exact Hi. ring.
  - specialize (N w Nw Sw). lra.
Qed.

Lemma sum_pos_squares n r v : (forall i, (i < n)%nat -> 0 < r i) -> NonZero n v -> 0 < sum n (fun i => r i * (v i * v i)).
Proof.
  intros Hr (p & Hp & Vp). assert (N : forall i, (i < n)%nat -> 0 <= r i * (v i * v i)).
  { intros i Hi. specialize (Hr i Hi). assert (T := Rle_0_sqr (v i)). unfold Rsqr in T. apply Rmult_le_pos; lra. }
  destruct (sum_nonneg n _ N) as [P|P]; [exact P|exfalso].
  assert (E := sum_nonneg_zero n _ N (eq_sym P) p Hp). cbn in E. specialize (Hr p Hp).
  apply Rmult_integral in E. destruct E as [E|E]; [lra|]. apply Rmult_integral in E. destruct E; contradiction.
Qed.

(** Eigenvalues of the rows divided by their sums. *)
Lemma stochastic_eigenvalue n K lambda v :
  PositiveSemidefinite n K -> (forall i j, K i j = K j i) ->
  (forall i j, (i < n)%nat -> (j < n)%nat -> 0 < K i j) ->
  NonZero n v -> (forall i, (i < n)%nat -> sum n (fun j => K i j / sum n (K i) * v j) = lambda * v i) ->
  0 <= lambda <= 1 /\ (PositiveDefinite n K -> 0 < lambda).
Proof.
  intros P Sy Pos NZ E. set (r := fun i => sum n (K i)).
  assert (Hr : forall i, (i < n)%nat -> 0 < r i).
  { intros i Hi. unfold r. assert (N : forall j, (j < n)%nat -> 0 <= K i j) by (intros; left; apply Pos; assumption).
    destruct (sum_nonneg n _ N) as [Q|Q]; [exact Q|]. assert (Z := sum_nonneg_zero n _ N (eq_sym Q) i Hi). specialize (Pos i i Hi Hi). lra. }
  assert (EQ : forall i, (i < n)%nat -> apply_mat n K v i = lambda * (r i * v i)).
  { intros i Hi. specialize (E i Hi). specialize (Hr i Hi). unfold apply_mat. fold (r i) in E.
    transitivity (r i * sum n (fun j => K i j / r i * v j)); [|rewrite E; ring].
    rewrite <- sum_scal. apply sum_ext. intros j _. field. lra. }
  assert (Q : quad n K v = lambda * sum n (fun i => r i * (v i * v i))).
  { rewrite quad_apply, <- sum_scal. apply sum_ext. intros i Hi. rewrite EQ by exact Hi. ring. }
  assert (W := sum_pos_squares n r v Hr NZ). set (w := sum n (fun i => r i * (v i * v i))) in *.
  assert (D : 0 <= w - quad n K v).
  { assert (D2 : sum n (fun i => sum n (fun j => K i j * ((v i - v j) * (v i - v j)))) = 2 * (w - quad n K v)).
    { assert (A1 : sum n (fun i => sum n (fun j => K i j * (v i * v i))) = w).
      { apply sum_ext. intros i _. unfold r. rewrite <- (Rmult_comm (v i * v i)), <- sum_scal. apply sum_ext. intros; ring. }
      assert (A2 : sum n (fun i => sum n (fun j => K i j * (v j * v j))) = w).
      { rewrite sum_swap. rewrite <- A1. apply sum_ext. intros i _. apply sum_ext. intros j _. rewrite (Sy j i). ring. }
      rewrite (sum_ext n _ (fun i => (sum n (fun j => K i j * (v i * v i)) + sum n (fun j => K i j * (v j * v j))) - 2 * sum n (fun j => v i * v j * K i j))).
      - rewrite sum_minus, sum_plus, sum_scal, A1, A2. unfold quad. ring.
      - intros i _. rewrite <- sum_plus, <- sum_scal, <- sum_minus. apply sum_ext. intros; ring. }
    assert (0 <= sum n (fun i => sum n (fun j => K i j * ((v i - v j) * (v i - v j))))); [|lra].
    apply sum_nonneg. intros i Hi. apply sum_nonneg. intros j Hj. apply Rmult_le_pos; [left; apply Pos; assumption|].
    apply (Rle_0_sqr (v i - v j)). }
  specialize (P v). rewrite Q in *. split.
  - split.
    + destruct (Rle_lt_dec 0 lambda) as [H|H]; [exact H|]. assert (lambda * w < 0) by nra. lra.
    + destruct (Rle_lt_dec lambda 1) as [H|H]; [exact H|]. assert (w < lambda * w) by nra. lra.
  - intros PD. specialize (PD v NZ). rewrite Q in PD. destruct (Rlt_le_dec 0 lambda) as [H|H]; [exact H|]. assert (lambda * w <= 0) by nra. lra.
Qed.

(** ** Bounds *)

Lemma radial_bounds k e r s : decaying k -> 0 < e -> 0 <= r < s ->
  radial k e 0 = 1 /\ 0 < radial k e s < radial k e r.
Proof.
  intros Hk He H. assert (P := scale_pos e He). set (q := / (2 * e)) in *.
  assert (L : r ^ 2 * q < s ^ 2 * q) by (apply Rmult_lt_compat_r; [exact P|nra]).
  assert (N : 0 <= r ^ 2 * q) by (apply Rmult_le_pos; [nra|lra]).
  destruct Hk as [->|[->| ->]]; cbn [radial]; unfold Rdiv; fold q; replace (0 ^ 2 * q) with 0 by ring.
  - rewrite Ropp_0, exp_0. split; [reflexivity|]. split; [apply exp_pos|]. apply exp_increasing. lra.
  - rewrite Rplus_0_l, sqrt_1, Rinv_1. split; [reflexivity|]. assert (0 < sqrt (r ^ 2 * q + 1)) by (apply sqrt_lt_R0; lra).
    assert (sqrt (r ^ 2 * q + 1) < sqrt (s ^ 2 * q + 1)) by (apply sqrt_lt_1; lra).
    split; [apply Rinv_0_lt_compat; lra|]. apply Rinv_lt_contravar; [apply Rmult_lt_0_compat; lra|assumption].
  - rewrite Rplus_0_l, Rinv_1. split; [reflexivity|]. split; [apply Rinv_0_lt_compat; lra|].
    apply Rinv_lt_contravar; [apply Rmult_lt_0_compat; lra|lra].
Qed.

Lemma multi_bounds e r s : 0 < e -> 0 <= r < s -> radial Multiquadric e 0 = 1 /\ radial Multiquadric e r < radial Multiquadric e s.
Proof.
  intros He H. assert (P := scale_pos e He). set (q := / (2 * e)) in *.
  assert (L : r ^ 2 * q < s ^ 2 * q) by (apply Rmult_lt_compat_r; [exact P|nra]).
  assert (N : 0 <= r ^ 2 * q) by (apply Rmult_le_pos; [nra|lra]).
  cbn [radial]; unfold Rdiv; fold q. replace (0 ^ 2 * q + 1) with 1 by ring. rewrite sqrt_1. split; [reflexivity|]. apply sqrt_lt_1; lra.
Qed.

(** ** Sparse matrices *)

Lemma csr_in cut row j v : In (j, v) (csr_row cut row) <-> (j < length row)%nat /\ nth j row 0 = v /\ v < cut.
Proof.
  unfold csr_row. rewrite filter_In. cbn [snd]. 
  assert (C : In (j, v) (combine (seq 0 (length row)) row) <-> (j < length row)%nat /\ nth j row 0 = v).
  { assert (G : forall s, In (j, v) (combine (seq s (length row)) row) <-> (s <= j)%nat /\ (j - s < length row)%nat /\ nth (j - s) row 0 = v).
    { induction row as [|x row IH]; intros s; cbn; [split; [contradiction|intros; lia]|]. rewrite IH. split.
      - intros [E|(H1 & H2 & H3)].
        + injection E as <- <-. rewrite Nat.sub_diag. split; [lia|split; [lia|reflexivity]].
        + split; [lia|]. replace (j - s)%nat with (S (j - S s)) by lia. split; [lia|exact H3].
      - intros (H1 & H2 & H3). destruct (Nat.eq_dec j s) as [->|N].
        + left. rewrite Nat.sub_diag in H3. congruence.
        + right. replace (j - s)%nat with (S (j - S s)) in H2, H3 by lia. split; [lia|split; [lia|exact H3]]. }
    rewrite G, Nat.sub_0_r. split; [intros (_ & H); exact H|intros H; split; [lia|exact H]]. }
  rewrite C. destruct (Rlt_dec v cut) as [H|H]; split; intros (A & B); try discriminate; tauto.
Qed.

Lemma csr_nodup cut row : NoDup (map fst (csr_row cut row)).
Proof.
  unfold csr_row. generalize 0%nat. induction row as [|x row IH]; intros s; cbn; [constructor|].
  assert (G : forall t, (s < t)%nat -> ~ In s (map fst (filter (fun p : nat * R => if Rlt_dec (snd p) cut then true else false) (combine (seq t (length row)) row)))).
  { intros t Ht Hin. apply in_map_iff in Hin. destruct Hin as ((a, b) & E & Hin). cbn in E. subst a. apply filter_In in Hin. destruct Hin as (Hin & _).
    apply in_combine_l in Hin. apply in_seq in Hin. lia. }
  destruct (Rlt_dec x cut); [cbn; constructor; [apply G; lia|apply IH]|apply IH].
Qed.

Lemma entry_row (row : list (nat * R)) f j v : NoDup (map fst row) -> In (j, v) row ->
  fold_right Rplus 0 (map snd (filter (fun p => Nat.eqb (fst p) j) (map (fun p => (fst p, f (snd p))) row))) = f v.
Proof.
  induction row as [|(a, b) row IH]; intros HN Hin; [contradiction|]. cbn in HN. inversion HN as [|? ? Hn HN']; subst. cbn.
  destruct Hin as [E|Hin].
  - injection E as -> ->. rewrite Nat.eqb_refl. cbn. 
    replace (filter _ (map _ row)) with (@nil (nat * R)); [cbn; ring|]. symmetry.
    clear - Hn. induction row as [|(a, b) row IH]; [reflexivity|]. cbn. destruct (Nat.eqb_spec a j) as [->|N]; [exfalso; apply Hn; left; reflexivity|].
    apply IH. intros H. apply Hn. right. exact H.
  - destruct (Nat.eqb_spec a j) as [->|N]; [|apply IH; assumption].
    exfalso. apply Hn. apply in_map_iff. exists (j, v). split; [reflexivity|exact Hin].
Qed.

Lemma entry_missing (row : list (nat * R)) f j : ~ In j (map fst row) ->
  fold_right Rplus 0 (map snd (filter (fun p => Nat.eqb (fst p) j) (map (fun p => (fst p, f (snd p))) row))) = 0.
Proof.
  induction row as [|(a, b) row IH]; intros H; [reflexivity|]. cbn. destruct (Nat.eqb_spec a j) as [->|N]; [exfalso; apply H; left; reflexivity|].
  apply IH. intros Hin. apply H. right. exact Hin.
Qed.

Lemma mdist_cut m d X Y i j c : m <> OtherMetric -> 0 < c -> Cloud d X -> Cloud d Y -> (i < length Y)%nat -> (j < length X)%nat ->
  mdist m (nth i Y []) (nth j X []) < cut_value m c <-> euclid (nth i Y []) (nth j X []) < c.
Proof.
  intros Hm Hc HX HY Hi Hj.
  assert (L : length (nth i Y []) = length (nth j X [])) by (rewrite (cloud_nth d Y), (cloud_nth d X); auto).
  assert (E := euclid_pow _ _ L). assert (N := euclid_nonneg (nth i Y []) (nth j X [])).
  destruct m; [| |contradiction]; cbn.
  - rewrite <- euclid_sq by exact L. reflexivity.
  - rewrite <- E. set (r := euclid _ _) in *. split; intros H.
    + destruct (Rlt_le_dec r c) as [G|G]; [exact G|]. assert (c * c <= r * r) by nra. cbn in H. lra.
    + cbn. nra.
Qed.

Lemma sparse_call k e c d X Y : 0 < e -> 0 < c -> k <> Thinplate -> Cloud d X -> Cloud d (query X Y) ->
  exists rows, call (settled k e) (Some c) X Y [] = (settled k e, Ok (Sparse (length X) rows)) /\ length rows = length (query X Y) /\
    forall i j, (i < length (query X Y))%nat -> (j < length X)%nat ->
      let r := euclid (nth i (query X Y) []) (nth j X []) in
      (Stored (Sparse (length X) rows) i j <-> r < c) /\
      (r < c -> entry (Sparse (length X) rows) i j = radial k e r) /\
      (~ r < c -> entry (Sparse (length X) rows) i j = 0).
Proof.
  intros He Hc Hk HX HY. set (m := required_metric k).
  set (D := dist_rows m X Y). set (S := map (csr_row (cut_value m c)) D).
  exists (map (map (fun p => (fst p, kernel_value k e (snd p)))) S). split; [|split].
  - unfold call, distance. fold (dist_rows (required_metric (k_name (settled k e))) X Y). cbn [k_name settled].
    rewrite evaluate_settled; [reflexivity|exact He|destruct k; try exact I; contradiction].
  - unfold S. rewrite !map_length. apply dist_rows_length.
  - intros i j Hi Hj r.
    assert (Row : nth i S [] = csr_row (cut_value m c) (nth i D [])).
    { unfold S. change (@nil (nat * R)) with (csr_row (cut_value m c) []). apply (map_nth (csr_row (cut_value m c))). }
    assert (W : length (nth i D []) = length X) by (apply dist_rows_width; exact Hi).
    assert (V : nth j (nth i D []) 0 = mdist m (nth i (query X Y) []) (nth j X [])) by (apply (dist_rows_entry m d); assumption).
    assert (CUT : nth j (nth i D []) 0 < cut_value m c <-> r < c).
    { rewrite V. apply (mdist_cut m d); try assumption. unfold m. destruct k; discriminate. }
    assert (IN : In j (map fst (nth i S [])) <-> r < c).
    { rewrite Row. rewrite in_map_iff. split.
      - intros ((a, b) & E & H). cbn in E. subst a. apply csr_in in H. destruct H as (_ & <- & H). apply CUT. exact H.
      - intros H. exists (j, nth j (nth i D []) 0). split; [reflexivity|]. apply csr_in. split; [rewrite W; exact Hj|split; [reflexivity|apply CUT; exact H]]. }
    assert (RowK : nth i (map (map (fun p : nat * R => (fst p, kernel_value k e (snd p)))) S) [] = map (fun p => (fst p, kernel_value k e (snd p))) (nth i S [])).
    { change (@nil (nat * R)) with (map (fun p : nat * R => (fst p, kernel_value k e (snd p))) []) at 1. apply (map_nth (map (fun p : nat * R => (fst p, kernel_value k e (snd p))))). }
    split; [|split].
    + cbn [Stored]. rewrite RowK, map_map. cbn [fst]. change (map (fun x : nat * R => fst x) (nth i S [])) with (map fst (nth i S [])). exact IN.
    + intros H. cbn [entry]. rewrite RowK.
      rewrite (entry_row (nth i S []) (kernel_value k e) j (nth j (nth i D []) 0)).
      * rewrite V. apply value_radial; [reflexivity| |exact He]. rewrite (cloud_nth d (query X Y)), (cloud_nth d X); auto.
      * rewrite Row. apply csr_nodup.
      * rewrite Row. apply csr_in. split; [rewrite W; exact Hj|split; [reflexivity|apply CUT; exact H]].
    + intros H. cbn [entry]. rewrite RowK. apply entry_missing. rewrite IN. exact H.
Qed.

(** ** Histories *)

Lemma evaluate_number e D : evaluate (Kernel Gaussian (Number e)) D
  = (Kernel Gaussian (Number e), if Rlt_dec 0 e then Ok (apply_kernel (kernel_value Gaussian e) D) else Err ValueError).
Proof. unfold evaluate. cbn. destruct (Rlt_dec 0 e); reflexivity. Qed.

Lemma evaluate_all_number e Ds : evaluate_all (Kernel Gaussian (Number e)) Ds
  = (Kernel Gaussian (Number e), map (fun D => if Rlt_dec 0 e then Ok (apply_kernel (kernel_value Gaussian e) D) else Err ValueError) Ds).
Proof. induction Ds as [|D Ds IH]; [reflexivity|]. cbn [evaluate_all]. rewrite evaluate_number, IH. reflexivity. Qed.

Lemma evaluate_all_callable f D Ds : let e := call_epsilon f D in
  evaluate_all (Kernel Gaussian (Callable f)) (D :: Ds) = evaluate_all (Kernel Gaussian (Number e)) (D :: Ds).
Proof. reflexivity. Qed.

Lemma gaussian_injective e1 e2 x : 0 < e1 -> 0 < e2 -> x <> 0 -> kernel_value Gaussian e1 x = kernel_value Gaussian e2 x -> e1 = e2.
Proof.
  intros H1 H2 Hx E. cbn in E. apply exp_inv in E. assert (F : (-1 / (2 * e1) - -1 / (2 * e2)) * x = 0) by lra.
  apply Rmult_integral in F. destruct F as [F|F]; [|contradiction].
  assert (G : (e1 - e2) / (2 * e1 * e2) = 0) by (rewrite <- F; field; lra).
  unfold Rdiv in G. apply Rmult_integral in G. destruct G as [G|G]; [lra|].
  exfalso. revert G. apply Rinv_neq_0_compat. assert (0 < e1 * e2) by (apply Rmult_lt_0_compat; assumption). lra.
Qed.
