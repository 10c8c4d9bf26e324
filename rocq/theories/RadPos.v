(** * Positivity of radial kernels *)

From Coq Require Import Reals List Lia Lra Psatz FunctionalExtensionality.
From Coquelicot Require Import Coquelicot.
From Verif Require Import RadModel RadSpec.
Import ListNotations.
Local Open Scope R_scope.

(** ** Sums *)

Lemma sum_ext n f g : (forall i, (i < n)%nat -> f i = g i) -> sum n f = sum n g.
Proof. induction n; intros H; cbn; [reflexivity|]. rewrite IHn, H; [reflexivity|lia|intros; apply H; lia]. Qed.

Lemma sum_zero n f : (forall i, (i < n)%nat -> f i = 0) -> sum n f = 0.
Proof. induction n; intros H; cbn; [reflexivity|]. rewrite IHn, H; [lra|lia|intros; apply H; lia]. Qed.

Lemma sum_plus n f g : sum n (fun i => f i + g i) = sum n f + sum n g.
Proof. induction n; cbn; [lra|]. rewrite IHn. lra. Qed.

Lemma sum_scal n a f : sum n (fun i => a * f i) = a * sum n f.
Proof. induction n; cbn; [lra|]. rewrite IHn. lra. Qed.

Lemma sum_minus n f g : sum n (fun i => f i - g i) = sum n f - sum n g.
Proof. induction n; cbn; [lra|]. rewrite IHn. lra. Qed.

Lemma sum_swap n m f : sum n (fun i => sum m (fun j => f i j)) = sum m (fun j => sum n (fun i => f i j)).
Proof.
  induction n; cbn; [symmetry; apply sum_zero; reflexivity|]. rewrite IHn. rewrite <- sum_plus. reflexivity.
Qed.

Lemma sum_nonneg n f : (forall i, (i < n)%nat -> 0 <= f i) -> 0 <= sum n f.
Proof.
  induction n; intros H; cbn; [lra|]. assert (0 <= f n) by (apply H; lia).
  assert (0 <= sum n f) by (apply IHn; intros; apply H; lia). lra.
Qed.

Lemma sum_nonneg_zero n f : (forall i, (i < n)%nat -> 0 <= f i) -> sum n f = 0 -> forall i, (i < n)%nat -> f i = 0.
Proof.
  induction n; intros H E i Hi; [lia|]. cbn in E.
  assert (0 <= f n) by (apply H; lia). assert (P : 0 <= sum n f) by (apply sum_nonneg; intros; apply H; lia).
  destruct (Nat.eq_dec i n) as [->|N]; [lra|]. apply IHn; [intros; apply H; lia|lra|lia].
Qed.

Lemma sum_single n f k : (k < n)%nat -> (forall i, (i < n)%nat -> i <> k -> f i = 0) -> sum n f = f k.
Proof.
  induction n; intros Hk H; [lia|]. cbn. destruct (Nat.eq_dec k n) as [->|N].
  - rewrite sum_zero; [lra|]. intros i Hi. apply H; lia.
  - rewrite IHn; [|lia|intros; apply H; lia]. rewrite (H n); [lra|lia|lia].
Qed.

Lemma sum_pos_nonzero n f : 0 < sum n (fun i => f i * f i) -> exists i, (i < n)%nat /\ f i <> 0.
Proof.
  induction n; cbn; intros H; [lra|]. destruct (Req_EM_T (f n) 0) as [E|E].
  - rewrite E in H. destruct IHn as (i & Hi & Fi); [lra|]. exists i. split; [lia|exact Fi].
  - exists n. split; [lia|exact E].
Qed.

(** ** Quadratic forms *)

Lemma quad_ext n K L c e : (forall i, (i < n)%nat -> c i = e i) -> (forall i j, (i < n)%nat -> (j < n)%nat -> K i j = L i j) ->
  quad n K c = quad n L e.
Proof. intros Hc HK. apply sum_ext. intros i Hi. apply sum_ext. intros j Hj. rewrite HK, !Hc; auto. Qed.

Lemma quad_weights n K c w : quad n (fun i j => w i * w j * K i j) c = quad n K (fun i => c i * w i).
Proof. apply sum_ext. intros i _. apply sum_ext. intros j _. ring. Qed.

Lemma quad_scal_matrix n K c a : quad n (fun i j => a * K i j) c = a * quad n K c.
Proof.
  unfold quad. rewrite <- sum_scal. apply sum_ext. intros i _. rewrite <- sum_scal. apply sum_ext. intros j _. ring.
Qed.

Lemma quad_minus_matrix n K L c : quad n (fun i j => K i j - L i j) c = quad n K c - quad n L c.
Proof.
  unfold quad. rewrite <- sum_minus. apply sum_ext. intros i _. rewrite <- sum_minus. apply sum_ext. intros j _. ring.
Qed.

Lemma quad_one n c : quad n (fun _ _ => 1) c = sum n c * sum n c.
Proof.
  unfold quad. rewrite <- sum_scal. apply sum_ext. intros i _. rewrite (Rmult_comm (sum n c)), <- sum_scal.
  apply sum_ext. intros j _. ring.
Qed.

Lemma quad_lin n K c e a b :
  quad n K (fun i => a * c i + b * e i)
  = a * a * quad n K c + a * b * sum n (fun i => sum n (fun j => c i * e j * K i j))
    + a * b * sum n (fun i => sum n (fun j => e i * c j * K i j)) + b * b * quad n K e.
Proof.
  unfold quad. rewrite <- !sum_scal, <- !sum_plus. apply sum_ext. intros i _.
  rewrite <- !sum_scal, <- !sum_plus. apply sum_ext. intros j _. ring.
Qed.

Lemma quad_parallel n K c e :
  quad n K (fun i => c i + e i) + quad n K (fun i => c i - e i) = 2 * quad n K c + 2 * quad n K e.
Proof.
  rewrite (quad_ext n K K (fun i => c i + e i) (fun i => 1 * c i + 1 * e i)) by (intros; ring).
  rewrite (quad_ext n K K (fun i => c i - e i) (fun i => 1 * c i + -1 * e i)) by (intros; ring).
  rewrite !quad_lin. ring.
Qed.

Lemma quad_scal n K c a : quad n K (fun i => a * c i) = a * a * quad n K c.
Proof.
  unfold quad. rewrite <- sum_scal. apply sum_ext. intros i _. rewrite <- sum_scal. apply sum_ext. intros j _. ring.
Qed.

(** ** Series and limits *)

Lemma is_series_sum m (f : nat -> nat -> R) (l : nat -> R) :
  (forall i, (i < m)%nat -> is_series (f i) (l i)) -> is_series (fun k => sum m (fun i => f i k)) (sum m l).
Proof.
  induction m; intros H; cbn.
  - assert (E : forall k, sum_n (fun _ => 0) k = 0).
    { induction k; [apply sum_O|]. rewrite sum_Sn, IHk. apply Rplus_0_l. }
    apply (is_lim_seq_ext (fun _ => 0) (sum_n (fun _ => 0)) 0); [intros k; symmetry; apply E|apply is_lim_seq_const].
  - apply (is_series_plus (V := R_NormedModule)); [apply IHm; intros; apply H; lia|apply H; lia].
Qed.

Lemma series_bound (a : nat -> R) l : (forall k, 0 <= a k) -> is_series a l -> forall k, a k <= l.
Proof.
  intros P HS k. assert (L : is_lim_seq (sum_n a) l) by exact HS.
  assert (E : forall m, sum_n a (S m) = sum_n a m + a (S m)) by (intros m; rewrite sum_Sn; reflexivity).
  assert (E0 : sum_n a 0 = a 0%nat) by apply sum_O.
  assert (N : forall m, 0 <= sum_n a m).
  { induction m; [rewrite E0; apply P|]. rewrite E. specialize (P (S m)). lra. }
  assert (B : forall m, (k <= m)%nat -> a k <= sum_n a m).
  { intros m Hm. induction Hm.
    - destruct k; [rewrite E0; apply Rle_refl|]. rewrite E. specialize (N k). lra.
    - rewrite E. specialize (P (S m)). lra. }
  apply (is_lim_seq_le_loc (fun _ => a k) (sum_n a) (a k) l); [exists k; exact B|apply is_lim_seq_const|exact L].
Qed.

(** A family of forms that grows from zero has a positive limit. *)
Lemma is_derive_sum m (f : nat -> R -> R) (g : nat -> R) t :
  (forall i, (i < m)%nat -> is_derive (f i) t (g i)) -> is_derive (fun t => sum m (fun i => f i t)) t (sum m g).
Proof.
  induction m; intros H; cbn; [apply (is_derive_const (V := R_NormedModule))|].
  apply (is_derive_plus (V := R_NormedModule)); [apply IHm; intros; apply H; lia|apply H; lia].
Qed.

Lemma is_derive_quad n (K : R -> nat -> nat -> R) (L : nat -> nat -> R) c t :
  (forall i j, is_derive (fun t => K t i j) t (L i j)) -> is_derive (fun t => quad n (K t) c) t (quad n L c).
Proof.
  intros H. unfold quad. apply (is_derive_sum n (fun i t => sum n (fun j => c i * c j * K t i j))). intros i _.
  apply (is_derive_sum n (fun j t => c i * c j * K t i j)). intros j _. apply (is_derive_scal (fun t => K t i j)). apply H.
Qed.

Lemma is_lim_sum m (f : nat -> nat -> R) (l : nat -> R) :
  (forall i, (i < m)%nat -> is_lim_seq (f i) (l i)) -> is_lim_seq (fun k => sum m (fun i => f i k)) (sum m l).
Proof.
  induction m; intros H; cbn; [apply is_lim_seq_const|].
  apply is_lim_seq_plus'; [apply IHm; intros; apply H; lia|apply H; lia].
Qed.

Lemma is_lim_quad n (K : nat -> nat -> nat -> R) (L : nat -> nat -> R) c :
  (forall i j, is_lim_seq (fun k => K k i j) (L i j)) -> is_lim_seq (fun k => quad n (K k) c) (quad n L c).
Proof.
  intros H. unfold quad. apply (is_lim_sum n (fun i k => sum n (fun j => c i * c j * K k i j))). intros i _.
  apply (is_lim_sum n (fun j k => c i * c j * K k i j)). intros j _.
  apply (is_lim_seq_scal_l (fun k => K k i j) (c i * c j) (L i j)). apply H.
Qed.

Lemma grow n (K L : R -> nat -> nat -> R) (Kinf : nat -> nat -> R) c :
  (forall t i j, 0 <= t -> is_derive (fun t => K t i j) t (L t i j)) ->
  (forall i j, K 0 i j = 0) ->
  (forall t, 0 < t -> 0 < quad n (L t) c) ->
  (forall i j, is_lim_seq (fun k => K (INR k) i j) (Kinf i j)) ->
  0 < quad n Kinf c.
Proof.
  intros HD H0 HP HL.
  set (F := fun t => quad n (K t) c).
  assert (D : forall t, 0 <= t -> is_derive F t (quad n (L t) c)) by (intros t Ht; apply is_derive_quad; intros; apply HD; exact Ht).
  assert (F0 : F 0 = 0).
  { unfold F, quad. apply sum_zero. intros i _. apply sum_zero. intros j _. rewrite H0. ring. }
  assert (INC : forall a b, 0 <= a -> a < b -> F a < F b).
  { intros a b Ha Hab. destruct (MVT_cor2 F (fun t => quad n (L t) c) a b Hab) as (u & E & Hu).
    - intros u Hu. apply is_derive_Reals. apply D. lra.
    - assert (0 < quad n (L u) c) by (apply HP; lra). assert (0 < b - a) by lra. assert (0 < quad n (L u) c * (b - a)) by (apply Rmult_lt_0_compat; assumption). lra. }
  assert (P1 : 0 < F 1) by (rewrite <- F0; apply INC; lra).
  assert (LIM : is_lim_seq (fun k => F (INR k)) (quad n Kinf c)) by (apply (is_lim_quad n (fun k => K (INR k))); exact HL).
  assert (B : F 1 <= quad n Kinf c).
  { apply (is_lim_seq_le_loc (fun _ => F 1) (fun k => F (INR k)) (F 1) (quad n Kinf c)); [|apply is_lim_seq_const|exact LIM].
    exists 1%nat. intros k Hk. destruct (Nat.eq_dec k 1) as [->|N]; [right; reflexivity|]. left. apply INC; [lra|].
    apply (lt_INR 1). lia. }
  lra.
Qed.

Lemma grow_weak n (K L : R -> nat -> nat -> R) (Kinf : nat -> nat -> R) c :
  (forall t i j, 0 <= t -> is_derive (fun t => K t i j) t (L t i j)) ->
  (forall i j, K 0 i j = 0) ->
  (forall t, 0 < t -> 0 <= quad n (L t) c) ->
  (forall i j, is_lim_seq (fun k => K (INR k) i j) (Kinf i j)) ->
  0 <= quad n Kinf c.
Proof.
  intros HD H0 HP HL.
  set (F := fun t => quad n (K t) c).
  assert (D : forall t, 0 <= t -> is_derive F t (quad n (L t) c)) by (intros t Ht; apply is_derive_quad; intros; apply HD; exact Ht).
  assert (F0 : F 0 = 0).
  { unfold F, quad. apply sum_zero. intros i _. apply sum_zero. intros j _. rewrite H0. ring. }
  assert (INC : forall b, 0 < b -> 0 <= F b).
  { intros b Hb. destruct (MVT_cor2 F (fun t => quad n (L t) c) 0 b Hb) as (u & E & Hu).
    - intros u Hu. apply is_derive_Reals. apply D. lra.
    - assert (0 <= quad n (L u) c) by (apply HP; lra). assert (0 <= quad n (L u) c * (b - 0)) by (apply Rmult_le_pos; lra). lra. }
  assert (LIM : is_lim_seq (fun k => F (INR k)) (quad n Kinf c)) by (apply (is_lim_quad n (fun k => K (INR k))); exact HL).
  apply (is_lim_seq_le_loc (fun _ => 0) (fun k => F (INR k)) 0 (quad n Kinf c)); [|apply is_lim_seq_const|exact LIM].
  exists 1%nat. intros k Hk. apply INC. apply (lt_INR 0). lia.
Qed.

Lemma lim_atan b : 0 < b -> is_lim_seq (fun k => atan (INR k / b)) (PI / 2).
Proof.
  intros Hb. apply (is_lim_seq_ext_loc (fun k => PI / 2 - atan (b * / INR k))).
  { exists 1%nat. intros k Hk. assert (P : 0 < INR k) by (apply (lt_INR 0); lia).
    rewrite <- atan_inv by (apply Rdiv_lt_0_compat; assumption). f_equal. field. split; lra. }
  replace (PI / 2) with (PI / 2 - atan (b * 0)) at 1 by (rewrite Rmult_0_r, atan_0; ring).
  apply is_lim_seq_minus'; [apply is_lim_seq_const|].
  apply is_lim_seq_continuous.
  - apply derivable_continuous_pt. apply derivable_pt_atan.
  - apply is_lim_seq_mult'; [apply is_lim_seq_const|]. 
    assert (L := is_lim_seq_inv INR p_infty is_lim_seq_INR). cbn in L. apply L. discriminate.
Qed.

Lemma derive_atan_sqrt b t : 0 < b -> is_derive (fun t => atan (t / sqrt b) / sqrt b) t (/ (b + t * t)).
Proof.
  intros Hb. assert (S := sqrt_lt_R0 b Hb). assert (Q := sqrt_sqrt b (Rlt_le _ _ Hb)).
  auto_derive; [trivial|]. unfold Rsqr. set (q := sqrt b) in *. clearbody q. rewrite <- Q. field. nra.
Qed.

(** ** Powers of the inner product *)

Section Powers.
Variables (n d : nat) (x : nat -> nat -> R).

Definition ip (i j : nat) : R := sum d (fun a => x i a * x j a).
Definition qpow (k : nat) (c : nat -> R) : R := quad n (fun i j => ip i j ^ k) c.

Lemma qpow_0 c : qpow 0 c = sum n c * sum n c.
Proof. unfold qpow. cbn. apply quad_one. Qed.

Lemma qpow_S k c : qpow (S k) c = sum d (fun a => qpow k (fun i => c i * x i a)).
Proof.
  unfold qpow, quad. symmetry. rewrite sum_swap. apply sum_ext. intros i _. rewrite sum_swap. apply sum_ext. intros j _.
  cbn [pow]. unfold ip at 2.
  transitivity (c i * c j * ip i j ^ k * sum d (fun a => x i a * x j a)); [|ring].
  rewrite <- sum_scal. apply sum_ext. intros a _. ring.
Qed.

Lemma qpow_nonneg k : forall c, 0 <= qpow k c.
Proof.
  induction k; intros c; [rewrite qpow_0; nra|]. rewrite qpow_S. apply sum_nonneg. intros; apply IHk.
Qed.

Definition Null c := forall k, qpow k c = 0.

Lemma null_ext c e : (forall i, (i < n)%nat -> c i = e i) -> Null c -> Null e.
Proof. intros H Z k. rewrite <- (Z k). apply quad_ext; [intros; symmetry; apply H; assumption|reflexivity]. Qed.

Lemma null_coord c a : (a < d)%nat -> Null c -> Null (fun i => c i * x i a).
Proof.
  intros Ha Z k. assert (E := Z (S k)). rewrite qpow_S in E.
  exact (sum_nonneg_zero d _ (fun b _ => qpow_nonneg k _) E a Ha).
Qed.

Lemma null_minus c e : Null c -> Null e -> Null (fun i => c i - e i).
Proof.
  intros Zc Ze k. assert (E := quad_parallel n (fun i j => ip i j ^ k) c e).
  assert (A := qpow_nonneg k (fun i => c i + e i)). assert (B := qpow_nonneg k (fun i => c i - e i)).
  assert (C := Zc k). assert (D := Ze k). unfold qpow in *. lra.
Qed.

Lemma null_scal c b : Null c -> Null (fun i => b * c i).
Proof. intros Z k. unfold qpow. rewrite quad_scal. assert (E := Z k). unfold qpow in E. rewrite E. ring. Qed.

Lemma null_factor c a b : (a < d)%nat -> Null c -> Null (fun i => c i * (x i a - b)).
Proof.
  intros Ha Z. apply (null_ext (fun i => c i * x i a - b * c i)); [intros; ring|].
  apply null_minus; [apply null_coord; assumption|apply null_scal; exact Z].
Qed.

Hypothesis distinct : forall i j, (i < n)%nat -> (j < n)%nat -> i <> j -> exists a, (a < d)%nat /\ x i a <> x j a.

(** All entries other than [p] can be made zero one after the other. *)
Lemma null_separate p m : (p < n)%nat -> (m <= n)%nat -> forall c, Null c -> c p <> 0 ->
  exists e, Null e /\ e p <> 0 /\ forall j, (j < m)%nat -> j <> p -> e j = 0.
Proof.
  intros Hp. induction m; intros Hm c Z Cp.
  - exists c. split; [exact Z|split; [exact Cp|intros; lia]].
  - destruct (IHm ltac:(lia) c Z Cp) as (e & Ze & Ep & E0). destruct (Nat.eq_dec m p) as [->|N].
    + exists e. split; [exact Ze|split; [exact Ep|]]. intros j Hj Nj. apply E0; lia.
    + destruct (distinct p m Hp ltac:(lia) ltac:(lia)) as (a & Ha & Da).
      exists (fun i => e i * (x i a - x m a)). split; [apply null_factor; assumption|]. split.
      * intros E. apply Rmult_integral in E. destruct E; [contradiction|]. apply Da. lra.
      * intros j Hj Nj. destruct (Nat.eq_dec j m) as [->|Nm]; [ring|]. rewrite E0; [ring|lia|exact Nj].
Qed.

Lemma null_zero c : Null c -> forall p, (p < n)%nat -> c p = 0.
Proof.
  intros Z p Hp. destruct (Req_EM_T (c p) 0) as [E|E]; [exact E|exfalso].
  destruct (null_separate p n Hp (le_n n) c Z E) as (e & Ze & Ep & E0).
  assert (S := Ze 0%nat). rewrite qpow_0 in S. rewrite (sum_single n e p Hp) in S by exact E0.
  apply Ep. nra.
Qed.

(** ** The exponential of the inner product *)

Definition qexp (s : R) (c : nat -> R) : R := quad n (fun i j => exp (s * ip i j)) c.

Lemma qexp_series s c : is_series (fun k => s ^ k / INR (fact k) * qpow k c) (qexp s c).
Proof.
  unfold qexp, quad. eapply is_series_ext; [|apply is_series_sum with (f := fun i k => sum n (fun j => c i * c j * ((s * ip i j) ^ k / INR (fact k))))].
  - intros k. cbn beta. unfold qpow, quad. rewrite <- sum_scal. apply sum_ext. intros i _. rewrite <- sum_scal.
    apply sum_ext. intros j _. rewrite Rpow_mult_distr. unfold Rdiv. ring.
  - intros i _. apply is_series_sum with (f := fun j k => c i * c j * ((s * ip i j) ^ k / INR (fact k))).
    intros j _. apply (is_series_scal_l (K := R_AbsRing) (V := R_NormedModule) (c i * c j) (fun k => (s * ip i j) ^ k / INR (fact k)) (exp (s * ip i j))). assert (E := is_exp_Reals (s * ip i j)). unfold is_pseries in E.
    eapply is_series_ext; [|exact E]. intros k. cbn beta. rewrite pow_n_pow. unfold scal, Rdiv; cbn. unfold mult; cbn. reflexivity.
Qed.

Lemma term_nonneg s c : 0 <= s -> forall k, 0 <= s ^ k / INR (fact k) * qpow k c.
Proof.
  intros Hs k. apply Rmult_le_pos; [|apply qpow_nonneg]. apply Rmult_le_pos; [apply pow_le; exact Hs|].
  left. apply Rinv_0_lt_compat. apply INR_fact_lt_0.
Qed.

Lemma qexp_nonneg s c : 0 <= s -> 0 <= qexp s c.
Proof.
  intros Hs. eapply Rle_trans; [|apply (series_bound _ _ (term_nonneg s c Hs) (qexp_series s c) 0)]. apply term_nonneg. exact Hs.
Qed.

Lemma qexp_null s c : 0 < s -> qexp s c = 0 -> Null c.
Proof.
  intros Hs E k. assert (B := series_bound _ _ (term_nonneg s c (Rlt_le _ _ Hs)) (qexp_series s c) k). rewrite E in B.
  assert (P := qpow_nonneg k c).
  assert (F : 0 < s ^ k / INR (fact k)) by (apply Rdiv_lt_0_compat; [apply pow_lt; exact Hs|apply INR_fact_lt_0]).
  destruct P as [P|P]; [|symmetry; exact P]. assert (0 < s ^ k / INR (fact k) * qpow k c) by (apply Rmult_lt_0_compat; assumption). lra.
Qed.

(** ** The kernels *)

Definition sq (i j : nat) : R := sum d (fun a => (x i a - x j a) * (x i a - x j a)).

Lemma sq_nonneg i j : 0 <= sq i j.
Proof. apply sum_nonneg. intros a _. apply (Rle_0_sqr (x i a - x j a)). Qed.

Lemma sq_ip i j : sq i j = ip i i + ip j j - 2 * ip i j.
Proof.
  unfold sq, ip. rewrite <- sum_scal, <- sum_plus, <- sum_minus. apply sum_ext. intros a _. ring.
Qed.

Lemma gauss_factor s i j : exp (- (s * sq i j)) = exp (- (s * ip i i)) * exp (- (s * ip j j)) * exp (2 * s * ip i j).
Proof. rewrite <- !exp_plus. f_equal. rewrite sq_ip. ring. Qed.

Lemma gauss_quad s c : quad n (fun i j => exp (- (s * sq i j))) c = qexp (2 * s) (fun i => c i * exp (- (s * ip i i))).
Proof.
  unfold qexp. rewrite <- quad_weights. apply quad_ext; [reflexivity|]. intros i j _ _. apply gauss_factor.
Qed.

Lemma gauss_psd s : 0 <= s -> PositiveSemidefinite n (fun i j => exp (- (s * sq i j))).
Proof. intros Hs c. rewrite gauss_quad. apply qexp_nonneg. clear - Hs. lra. Qed.

Lemma gauss_pd s : 0 < s -> PositiveDefinite n (fun i j => exp (- (s * sq i j))).
Proof.
  intros Hs c (p & Hp & Cp). destruct (gauss_psd s (Rlt_le _ _ Hs) c) as [P|P]; [exact P|exfalso].
  rewrite gauss_quad in P. assert (Z := qexp_null (2 * s) _ ltac:(lra) (eq_sym P)).
  assert (E := null_zero _ Z p Hp). cbn in E. apply Rmult_integral in E. destruct E as [E|E]; [contradiction|].
  assert (X := exp_pos (- (s * ip p p))). lra.
Qed.


(** 1 / (1 + s |x - y|^2) is the integral of exp(-t) exp(-t s |x - y|^2). *)
Lemma quadratic_pd s : 0 < s -> PositiveDefinite n (fun i j => / (s * sq i j + 1)).
Proof.
  intros Hs c Hc. assert (A : forall i j, 0 < s * sq i j + 1) by (intros i j; assert (H := sq_nonneg i j); assert (0 <= s * sq i j) by nra; lra).
  apply (grow n (fun t i j => (1 - exp (- (t * (s * sq i j + 1)))) / (s * sq i j + 1))
                (fun t i j => exp (- t) * exp (- ((t * s) * sq i j)))).
  - intros t i j _. specialize (A i j). set (b := s * sq i j + 1) in *.
    replace (exp (- t) * exp (- (t * s * sq i j))) with (exp (- (t * b))) by (rewrite <- exp_plus; f_equal; unfold b; ring).
    auto_derive; [trivial|]. field. lra.
  - intros i j. rewrite Rmult_0_l, Ropp_0, exp_0. unfold Rdiv. ring.
  - intros t Ht. rewrite quad_scal_matrix. apply Rmult_lt_0_compat; [apply exp_pos|].
    apply gauss_pd; [nra|exact Hc].
  - intros i j. specialize (A i j). set (b := s * sq i j + 1) in *.
    replace (Finite (/ b)) with (Finite ((1 - 0) * / b)) by (f_equal; ring).
    apply (is_lim_seq_ext (fun k => (1 - exp (- (INR k * b))) * / b)); [intros; reflexivity|].
    apply is_lim_seq_mult'; [|apply is_lim_seq_const]. apply is_lim_seq_minus'; [apply is_lim_seq_const|].
    apply (is_lim_comp_seq exp (fun k => - (INR k * b)) m_infty 0 is_lim_exp_m); [exists 0%nat; discriminate|].
    apply (is_lim_seq_opp (fun k => INR k * b) p_infty).
    apply (is_lim_seq_mult INR (fun _ => b) p_infty b p_infty); [apply is_lim_seq_INR|apply is_lim_seq_const|].
    unfold is_Rbar_mult; cbn. destruct (Rle_dec 0 b) as [H|H]; [|lra]. destruct (Rle_lt_or_eq_dec 0 b H); [reflexivity|lra].
Qed.

Lemma shifted_pd s t : 0 < s -> PositiveDefinite n (fun i j => / (s * sq i j + 1 + t * t)).
Proof.
  intros Hs c Hc. assert (P : 0 < 1 + t * t) by nra.
  rewrite (quad_ext n _ (fun i j => / (1 + t * t) * / (s / (1 + t * t) * sq i j + 1)) c c); [|reflexivity|].
  - rewrite quad_scal_matrix. apply Rmult_lt_0_compat; [apply Rinv_0_lt_compat; exact P|].
    apply quadratic_pd; [apply Rdiv_lt_0_compat; assumption|exact Hc].
  - intros i j _ _. assert (H := sq_nonneg i j). assert (0 <= s * sq i j) by nra. field. repeat split; lra.
Qed.

(** 1 / sqrt b is 2 / pi times the integral of 1 / (b + t^2). *)
Lemma invmulti_pd s : 0 < s -> PositiveDefinite n (fun i j => / sqrt (s * sq i j + 1)).
Proof.
  intros Hs c Hc. assert (A : forall i j, 0 < s * sq i j + 1) by (intros i j; assert (H := sq_nonneg i j); assert (0 <= s * sq i j) by nra; lra).
  assert (P : 0 < quad n (fun i j => PI / 2 * / sqrt (s * sq i j + 1)) c).
  { apply (grow n (fun t i j => atan (t / sqrt (s * sq i j + 1)) / sqrt (s * sq i j + 1))
                  (fun t i j => / (s * sq i j + 1 + t * t))).
    - intros t i j _. apply derive_atan_sqrt. apply A.
    - intros i j. unfold Rdiv. rewrite Rmult_0_l, atan_0. ring.
    - intros t Ht. apply shifted_pd; assumption.
    - intros i j. apply (is_lim_seq_mult' (fun k => atan (INR k / sqrt (s * sq i j + 1))) (fun _ => / sqrt (s * sq i j + 1)));
        [apply lim_atan; apply sqrt_lt_R0; apply A|apply is_lim_seq_const]. }
  rewrite quad_scal_matrix in P. assert (Q := PI_RGT_0). apply (Rmult_lt_reg_l (PI / 2)); [lra|]. lra.
Qed.

(** sqrt b is 2 / pi times the integral of b / (b + t^2) = 1 - t^2 / (b + t^2). *)
Lemma multi_cnd s : 0 < s -> ConditionallyNegative n (fun i j => sqrt (s * sq i j + 1)).
Proof.
  intros Hs c Hc Sc. assert (A : forall i j, 0 < s * sq i j + 1) by (intros i j; assert (H := sq_nonneg i j); assert (0 <= s * sq i j) by nra; lra).
  assert (P : 0 < quad n (fun i j => - (PI / 2) * sqrt (s * sq i j + 1)) c).
  { apply (grow n (fun t i j => - (atan (t / sqrt (s * sq i j + 1)) * sqrt (s * sq i j + 1)))
                  (fun t i j => t * t * / (s * sq i j + 1 + t * t) - 1)).
    - intros t i j _. specialize (A i j). set (b := s * sq i j + 1) in *.
      assert (D := derive_atan_sqrt b t A). assert (Q := sqrt_sqrt b (Rlt_le _ _ A)). assert (Z := sqrt_lt_R0 b A).
      apply (is_derive_ext (fun t => - b * (atan (t / sqrt b) / sqrt b))).
      + intros u. change (- b * (atan (u / sqrt b) / sqrt b) = - (atan (u / sqrt b) * sqrt b)).
        rewrite <- Q at 1. field. lra.
      + replace (t * t * / (b + t * t) - 1) with (- b * / (b + t * t)) by (field; nra).
        apply (is_derive_scal (fun t => atan (t / sqrt b) / sqrt b)). exact D.
    - intros i j. unfold Rdiv. rewrite Rmult_0_l, atan_0. ring.
    - intros t Ht. rewrite (quad_minus_matrix n (fun i j => t * t * / (s * sq i j + 1 + t * t)) (fun _ _ => 1)).
      rewrite quad_one, Sc, quad_scal_matrix, Rmult_0_l, Rminus_0_r.
      apply Rmult_lt_0_compat; [apply Rmult_lt_0_compat; assumption|apply shifted_pd; assumption].
    - intros i j. apply (is_lim_seq_ext (fun k => atan (INR k / sqrt (s * sq i j + 1)) * - sqrt (s * sq i j + 1))); [intros; ring|].
      replace (- (PI / 2) * sqrt (s * sq i j + 1)) with (PI / 2 * - sqrt (s * sq i j + 1)) by ring.
      apply is_lim_seq_mult'; [apply lim_atan; apply sqrt_lt_R0; apply A|apply is_lim_seq_const]. }
  rewrite quad_scal_matrix in P. assert (Q := PI_RGT_0). nra.
Qed.

(** ** Semidefinite forms for clouds with equal points *)

Lemma base_pos s i j : 0 <= s -> 0 < s * sq i j + 1.
Proof. clear. intros Hs. assert (H := sq_nonneg i j). assert (0 <= s * sq i j) by (apply Rmult_le_pos; assumption). lra. Qed.

Lemma quadratic_psd s : 0 < s -> PositiveSemidefinite n (fun i j => / (s * sq i j + 1)).
Proof.
  clear distinct. intros Hs c. assert (A : forall i j, 0 < s * sq i j + 1) by (intros i j; apply base_pos; lra).
  apply (grow_weak n (fun t i j => (1 - exp (- (t * (s * sq i j + 1)))) / (s * sq i j + 1))
                (fun t i j => exp (- t) * exp (- ((t * s) * sq i j)))).
  - intros t i j _. specialize (A i j). set (b := s * sq i j + 1) in *.
    replace (exp (- t) * exp (- (t * s * sq i j))) with (exp (- (t * b))) by (rewrite <- exp_plus; f_equal; unfold b; ring).
    auto_derive; [trivial|]. field. lra.
  - intros i j. rewrite Rmult_0_l, Ropp_0, exp_0. unfold Rdiv. ring.
  - intros t Ht. rewrite quad_scal_matrix. apply Rmult_le_pos; [left; apply exp_pos|].
    apply gauss_psd. apply Rmult_le_pos; lra.
  - intros i j. specialize (A i j). set (b := s * sq i j + 1) in *.
    replace (Finite (/ b)) with (Finite ((1 - 0) * / b)) by (f_equal; ring).
    apply (is_lim_seq_ext (fun k => (1 - exp (- (INR k * b))) * / b)); [intros; reflexivity|].
    apply is_lim_seq_mult'; [|apply is_lim_seq_const]. apply is_lim_seq_minus'; [apply is_lim_seq_const|].
    apply (is_lim_comp_seq exp (fun k => - (INR k * b)) m_infty 0 is_lim_exp_m); [exists 0%nat; discriminate|].
    apply (is_lim_seq_opp (fun k => INR k * b) p_infty).
    apply (is_lim_seq_mult INR (fun _ => b) p_infty b p_infty); [apply is_lim_seq_INR|apply is_lim_seq_const|].
    unfold is_Rbar_mult; cbn. destruct (Rle_dec 0 b) as [H|H]; [|lra]. destruct (Rle_lt_or_eq_dec 0 b H); [reflexivity|lra].
Qed.

Lemma shifted_psd s t : 0 < s -> PositiveSemidefinite n (fun i j => / (s * sq i j + 1 + t * t)).
Proof.
  clear distinct. intros Hs c. assert (P : 0 < 1 + t * t) by (assert (T := Rle_0_sqr t); unfold Rsqr in T; lra).
  rewrite (quad_ext n _ (fun i j => / (1 + t * t) * / (s / (1 + t * t) * sq i j + 1)) c c); [|reflexivity|].
  - rewrite quad_scal_matrix. apply Rmult_le_pos; [left; apply Rinv_0_lt_compat; exact P|].
    apply quadratic_psd. apply Rdiv_lt_0_compat; assumption.
  - intros i j _ _. assert (H := base_pos s i j (Rlt_le _ _ Hs)).
    assert (T := Rle_0_sqr t). unfold Rsqr in T. field. repeat split; lra.
Qed.

Lemma invmulti_psd s : 0 < s -> PositiveSemidefinite n (fun i j => / sqrt (s * sq i j + 1)).
Proof.
  clear distinct. intros Hs c. assert (A : forall i j, 0 < s * sq i j + 1) by (intros i j; apply base_pos; lra).
  assert (P : 0 <= quad n (fun i j => PI / 2 * / sqrt (s * sq i j + 1)) c).
  { apply (grow_weak n (fun t i j => atan (t / sqrt (s * sq i j + 1)) / sqrt (s * sq i j + 1))
                  (fun t i j => / (s * sq i j + 1 + t * t))).
    - intros t i j _. apply derive_atan_sqrt. apply A.
    - intros i j. unfold Rdiv. rewrite Rmult_0_l, atan_0. ring.
    - intros t Ht. apply shifted_psd; assumption.
    - intros i j. apply (is_lim_seq_mult' (fun k => atan (INR k / sqrt (s * sq i j + 1))) (fun _ => / sqrt (s * sq i j + 1)));
        [apply lim_atan; apply sqrt_lt_R0; apply A|apply is_lim_seq_const]. }
  rewrite quad_scal_matrix in P. assert (Q := PI_RGT_0). apply (Rmult_le_reg_l (PI / 2)); [lra|]. lra.
Qed.
End Powers.
