(** * Proofs about the evolution of a linear system. *)

From Coq Require Import List ZArith Bool Arith Lia.
From Verif Require Import Np TscModel TscSpec TscBuild BldBuild SysModel EvoModel EvoSpec.
Import ListNotations.

Lemma holds_ext {R} (F : list (row (list R))) ids ts n (f g : nat -> nat -> nat -> R) :
  Holds F ids ts n f ->
  (forall j b i, (j < length ids)%nat -> (b < length ts)%nat -> (i < n)%nat -> f j b i = g j b i) -> Holds F ids ts n g.
Proof.
  intros H E r. rewrite (H r).
  assert (X : forall j b, nth_error ids j = Some (rid r) -> nth_error ts b = Some (rtime r) ->
    map (f j b) (seq 0 n) = map (g j b) (seq 0 n)).
  { intros j b Hj Hb. apply map_ext_in. intros i Hi. apply in_seq in Hi. apply E.
    - apply nth_error_Some; congruence.
    - apply nth_error_Some; congruence.
    - lia. }
  split; intros (j & b & Hj & Hb & Hv); exists j, b; (split; [exact Hj|split; [exact Hb|]]); rewrite Hv;
    [|symmetry]; apply X; assumption.
Qed.

Section Proofs.
Context {R : Type}.
Variables (zero : R) (add mul : R -> R -> R).
Variables (mexp : arr2 R -> Z -> arr2 R) (mpow : arr2 R -> Z -> Z -> arr2 R)
          (sexp : R -> Z -> R) (spow : R -> Z -> Z -> R)
          (affine : (nat -> R) -> (nat -> nat -> R) -> list Z -> result (list (list R))).

Notation evolve := (evolve zero add mul mexp mpow sexp spow affine).
Notation mv := (mv zero add mul).
Notation initial := (initial zero).
Notation control := (control zero).
Notation trajectory := (trajectory zero add mul).

Lemma tensor_holds (sl : list (arr2 R)) ids ts n m :
  (1 <= m)%nat -> length sl = length ts -> GoodIds ids m -> GoodTimes ts ->
  exists F, from_tensor (map (series_of n sl) (seq 0 m)) (length ts) (Some ids) (Some ts) = Ok F /\
    ValidRows F /\ IdsSorted F /\
    Holds F ids ts n (fun j b i => at2 (nth b sl (Arr2 0 0 (fun _ _ => zero))) i j).
Proof.
  intros Hm Hl (H1 & H2 & H3) (T1 & T2 & T3).
  destruct (from_tensor_spec (map (series_of n sl) (seq 0 m)) (length ts) (Some ids) (Some ts))
    as (F & EF & HV & HS & _ & HI); cbn [opt_ids].
  - destruct m; [lia|discriminate].
  - destruct ts; [congruence|cbn; lia].
  - intros s Hs. apply in_map_iff in Hs. destruct Hs as (j & <- & _). unfold series_of. now rewrite map_length.
  - now rewrite map_length, seq_length.
  - exact H2.
  - exact H3.
  - reflexivity.
  - exact T2.
  - exact T3.
  - exists F. split; [exact EF|]. split; [exact HV|]. split; [exact HS|]. intros r. rewrite HI. cbn [opt_ids].
    split.
    + intros (a & b & s & Ha & Hs & Hb & Hv). exists a, b. split; [exact Ha|]. split; [exact Hb|].
      rewrite nth_error_map in Hs.
      assert (La : (a < m)%nat) by (apply nth_error_Some_lt in Ha || (rewrite <- H1; apply nth_error_Some; congruence)).
      rewrite (nth_error_nth' _ O) in Hs by now rewrite seq_length. rewrite seq_nth in Hs by exact La. cbn in Hs.
      injection Hs as <-. unfold series_of in Hv.
      destruct (nth_error sl b) as [M|] eqn:EM; [|rewrite nth_error_map, EM in Hv; discriminate].
      rewrite nth_error_map, EM in Hv. cbn in Hv. injection Hv as <-. rewrite (nth_error_nth _ _ _ EM). reflexivity.
    + intros (a & b & Ha & Hb & Hv). exists a, b, (series_of n sl a). split; [exact Ha|].
      assert (La : (a < m)%nat) by (rewrite <- H1; apply nth_error_Some; congruence).
      assert (Lb : (b < length sl)%nat) by (rewrite Hl; apply nth_error_Some; congruence).
      split; [|split; [exact Hb|]].
      * rewrite nth_error_map, (nth_error_nth' _ O) by now rewrite seq_length. now rewrite seq_nth.
      * unfold series_of. rewrite nth_error_map, (nth_error_nth' _ (Arr2 0 0 (fun _ _ => zero)) Lb). cbn.
        rewrite Hv. reflexivity.
Qed.

Lemma check_ic x n : state_dim x n ->
  exists X, check_initial_condition zero x n = Ok X /\ nrow X = n /\ ncol X = n_initial x /\
    forall i j, at2 X i j = initial x j i.
Proof.
  destruct x as [a|m v|M|]; cbn.
  - intros ->. cbn. eexists. split; [reflexivity|]. split; [reflexivity|]. split; [reflexivity|]. intros i j. reflexivity.
  - intros ->. rewrite Nat.eqb_refl. eexists. split; [reflexivity|]. split; [reflexivity|]. split; [reflexivity|]. intros i j. reflexivity.
  - intros <-. rewrite Nat.eqb_refl. eexists. split; [reflexivity|]. split; [reflexivity|]. split; [reflexivity|]. intros i j. reflexivity.
  - intros [].
Qed.

Lemma check_tv tv ts : times_given tv ts -> check_time_values tv = Ok ts.
Proof. intros [->|(t & -> & ->)]; reflexivity. Qed.

Lemma matmul_col A X i j x : (forall k, at2 X k j = x k) -> at2 (matmul zero add mul A X) i j = mv A x i.
Proof.
  intros H. cbn. unfold sum_to, EvoSpec.mv. f_equal. apply map_ext. intros k. now rewrite H.
Qed.

Lemma mv_ext A x y i : (forall k, (k < ncol A)%nat -> x k = y k) -> mv A x i = mv A y i.
Proof.
  intros H. unfold EvoSpec.mv. f_equal. apply map_ext_in. intros k Hk. apply in_seq in Hk. rewrite H; [reflexivity|lia].
Qed.

Lemma matmul_col_ext A X i j x : (forall k, (k < ncol A)%nat -> at2 X k j = x k) -> at2 (matmul zero add mul A X) i j = mv A x i.
Proof.
  intros H. cbn. unfold sum_to, EvoSpec.mv. f_equal. apply map_ext_in. intros k Hk. apply in_seq in Hk. rewrite H; [reflexivity|lia].
Qed.

(** Systems without control. *)
Lemma evolve_free c s rl D x tv u o S d dt oi names ts (st : nat -> nat -> nat -> R) :
  new_system c = Ok s -> c_controlled c = false ->
  set_sys_matrix D o = Ok S -> state_dim x (ncol S) -> times_given tv ts -> GoodTimes ts ->
  check_time_delta c d = Ok dt -> (1 <= n_initial x)%nat ->
  GoodIds (ids_given oi (n_initial x)) (n_initial x) -> names_given names (ncol S) = nrow S ->
  (forall X, nrow X = ncol S -> ncol X = n_initial x -> (forall i j, at2 X i j = initial x j i) ->
     exists sl, evolve_states zero add mul mexp mpow sexp spow affine D s S X None ts dt
                = Ok (map (series_of (nrow S) sl) (seq 0 (ncol X))) /\ length sl = length ts /\
       forall b j i, (b < length ts)%nat -> at2 (nth b sl (Arr2 0 0 (fun _ _ => zero))) i j = st j b i) ->
  exists F, evolve c rl D x tv u o d oi names = Ok F /\ ValidRows F /\
    Holds F (ids_given oi (n_initial x)) ts (nrow S) st.
Proof.
  intros Hs Hc HS Hx Ht HT Hd Hn Hi Hnm Hst. unfold EvoModel.evolve. rewrite Hs. cbn [bind]. rewrite HS. cbn [bind].
  destruct (check_ic x _ Hx) as (X & EX & X1 & X2 & X3). rewrite EX. cbn [bind]. rewrite (check_tv _ _ Ht). cbn [bind].
  rewrite Hc. cbn [bind]. rewrite Hd. cbn [bind]. change (match names with None => ncol S | Some n => n end) with (names_given names (ncol S)). rewrite Hnm, Nat.eqb_refl. cbn [negb].
  destruct (Hst X X1 X2 X3) as (sl' & E & L & Hv). rewrite E. cbn [bind].
  rewrite X2. change (match oi with None => np_arange (n_initial x) | Some l => l end) with (ids_given oi (n_initial x)).
  destruct (tensor_holds sl' (ids_given oi (n_initial x)) ts (nrow S) (n_initial x) Hn L Hi HT) as (F & EF & HV & _ & HH).
  exists F. split; [exact EF|]. split; [exact HV|]. eapply holds_ext; [exact HH|]. intros j b i _ Hb _. now apply Hv.
Qed.

Lemma nth_map_ts (f : Z -> arr2 R) ts b d : (b < length ts)%nat -> nth b (map f ts) d = f (nth b ts 0%Z).
Proof. intros H. rewrite (nth_indep _ d (f 0%Z)) by now rewrite map_length. apply map_nth. Qed.

Lemma solve_matrix_ok A X f ts : ts <> [] -> nrow A = ncol A ->
  solve_matrix zero add mul A X f ts = Ok (map (fun t => matmul zero add mul (f A t) X) ts).
Proof. intros H1 H2. destruct ts; [congruence|]. unfold solve_matrix, square. rewrite H2, Nat.eqb_refl. reflexivity. Qed.

Lemma flowmap_matrix_evolves af rl D x tv u o A d oi names ts :
  set_sys_matrix D o = Ok A -> nrow A = ncol A -> state_dim x (ncol A) -> times_given tv ts -> GoodTimes ts ->
  (0 < d)%Z -> (1 <= n_initial x)%nat -> GoodIds (ids_given oi (n_initial x)) (n_initial x) ->
  names_given names (ncol A) = nrow A ->
  exists F, evolve (Config TFlowmap MMatrix false af true) rl D x tv u o (DScalar d) oi names = Ok F /\ ValidRows F /\
    Holds F (ids_given oi (n_initial x)) ts (nrow A) (fun j b => mv (mpow A (nth b ts 0%Z) d) (initial x j)).
Proof.
  intros HS Hsq Hx Ht HT Hd Hn Hi Hnm.
  eapply evolve_free; try eassumption.
  - reflexivity.
  - reflexivity.
  - cbn. rewrite (proj2 (Z.leb_gt d 0)) by exact Hd. reflexivity.
  - intros X X1 X2 X3. cbn [evolve_states]. rewrite solve_matrix_ok by (apply HT || exact Hsq). cbn [bind].
    eexists. split; [reflexivity|]. split; [apply map_length|]. intros b j i Hb. rewrite nth_map_ts by exact Hb.
    apply matmul_col. intros k. apply X3.
Qed.

Lemma differential_matrix_evolves ct af rl D x tv u o A d oi names ts :
  ct = false ->
  set_sys_matrix D o = Ok A -> nrow A = ncol A -> state_dim x (ncol A) -> times_given tv ts -> GoodTimes ts ->
  (1 <= n_initial x)%nat -> GoodIds (ids_given oi (n_initial x)) (n_initial x) ->
  names_given names (ncol A) = nrow A ->
  exists F, evolve (Config TDifferential MMatrix ct af true) rl D x tv u o d oi names = Ok F /\ ValidRows F /\
    Holds F (ids_given oi (n_initial x)) ts (nrow A) (fun j b => mv (mexp A (nth b ts 0%Z)) (initial x j)).
Proof.
  intros -> HS Hsq Hx Ht HT Hn Hi Hnm.
  eapply evolve_free; try eassumption; try reflexivity.
  intros X X1 X2 X3. cbn [evolve_states]. rewrite solve_matrix_ok by (apply HT || exact Hsq). cbn [bind].
  eexists. split; [reflexivity|]. split; [apply map_length|]. intros b j i Hb. rewrite nth_map_ts by exact Hb.
  apply matmul_col. intros k. apply X3.
Qed.

Lemma solve_spectral_ok D S X f ts : ts <> [] -> y_neig D = nrow X ->
  solve_spectral zero add mul D S X f ts =
  Ok (map (fun t => matmul zero add mul S (diagmat_dot_mat mul (fun i => f (y_eig D i) t) X)) ts).
Proof. intros H1 H2. destruct ts; [congruence|]. unfold solve_spectral. rewrite H2, Nat.eqb_refl. reflexivity. Qed.

Lemma flowmap_spectral_evolves af rl D x tv u o A d oi names ts :
  set_sys_matrix D o = Ok A -> y_neig D = ncol A -> state_dim x (ncol A) -> times_given tv ts -> GoodTimes ts ->
  (0 < d)%Z -> (1 <= n_initial x)%nat -> GoodIds (ids_given oi (n_initial x)) (n_initial x) ->
  names_given names (ncol A) = nrow A ->
  exists F, evolve (Config TFlowmap MSpectral false af true) rl D x tv u o (DScalar d) oi names = Ok F /\ ValidRows F /\
    Holds F (ids_given oi (n_initial x)) ts (nrow A)
      (fun j b => mv A (fun k => mul (spow (y_eig D k) (nth b ts 0%Z) d) (initial x j k))).
Proof.
  intros HS Hsq Hx Ht HT Hd Hn Hi Hnm.
  eapply evolve_free; try eassumption; try reflexivity.
  - cbn. rewrite (proj2 (Z.leb_gt d 0)) by exact Hd. reflexivity.
  - intros X X1 X2 X3. cbn [evolve_states]. rewrite solve_spectral_ok by (apply HT || congruence). cbn [bind].
    eexists. split; [reflexivity|]. split; [apply map_length|]. intros b j i Hb. rewrite nth_map_ts by exact Hb.
    apply matmul_col. intros k. cbn. now rewrite X3.
Qed.

Lemma differential_spectral_evolves af rl D x tv u o A d oi names ts :
  set_sys_matrix D o = Ok A -> y_neig D = ncol A -> state_dim x (ncol A) -> times_given tv ts -> GoodTimes ts ->
  (1 <= n_initial x)%nat -> GoodIds (ids_given oi (n_initial x)) (n_initial x) ->
  names_given names (ncol A) = nrow A ->
  exists F, evolve (Config TDifferential MSpectral false af true) rl D x tv u o d oi names = Ok F /\ ValidRows F /\
    Holds F (ids_given oi (n_initial x)) ts (nrow A)
      (fun j b => mv A (fun k => mul (sexp (y_eig D k) (nth b ts 0%Z)) (initial x j k))).
Proof.
  intros HS Hsq Hx Ht HT Hn Hi Hnm.
  eapply evolve_free; try eassumption; try reflexivity.
  intros X X1 X2 X3. cbn [evolve_states]. rewrite solve_spectral_ok by (apply HT || congruence). cbn [bind].
  eexists. split; [reflexivity|]. split; [apply map_length|]. intros b j i Hb. rewrite nth_map_ts by exact Hb.
  apply matmul_col. intros k. cbn. now rewrite X3.
Qed.

(** Systems with control. *)
Lemma control_steps_length A B T n : forall X idx, length (control_steps zero add mul A B T X idx n) = (n + 1)%nat.
Proof. induction n as [|n IH]; intros X idx; cbn; [reflexivity|]. now rewrite IH. Qed.

Lemma trajectory_ext A B u v x y : forall k i,
  ncol A = nrow A ->
  (forall i, (i < ncol A)%nat -> x i = y i) -> (forall k i, u k i = v k i) -> (i < ncol A)%nat ->
  trajectory A B u x k i = trajectory A B v y k i.
Proof.
  induction k as [|k IH]; intros i HA Hx Hu Hi; cbn; [now apply Hx|]. f_equal; [apply mv_ext|apply mv_ext].
  - intros j Hj. now apply IH.
  - intros j _. apply Hu.
Qed.

Lemma control_steps_nth A B T n : forall X idx b j i d, nrow A = ncol A -> (b <= n)%nat -> (i < nrow A)%nat ->
  at2 (nth b (control_steps zero add mul A B T X idx n) d) i j
  = trajectory A B (fun k i => at3 T j (idx + k) i) (fun i => at2 X i j) b i.
Proof.
  induction n as [|n IH]; intros X idx b j i d HA Hb Hi.
  - assert (b = O) by lia. subst b. reflexivity.
  - destruct b as [|b]; [reflexivity|]. cbn [control_steps nth]. rewrite IH by (assumption || lia).
    clear IH Hb. revert i Hi.
    induction b as [|b IH]; intros i Hi.
    + cbn [EvoSpec.trajectory mat_add at2]. f_equal.
      apply matmul_col. intros k. cbn. rewrite Nat.add_0_r. reflexivity.
    + change (add (mv A (trajectory A B (fun k i => at3 T j (idx + 1 + k) i)
         (fun i => at2 (mat_add add (matmul zero add mul A X) (matmul zero add mul B (control_slice T idx))) i j) b) i)
         (mv B ((fun k i => at3 T j (idx + 1 + k) i) b) i)
        = add (mv A (trajectory A B (fun k i => at3 T j (idx + k) i) (fun i => at2 X i j) (S b)) i)
              (mv B (at3 T j (idx + S b)) i)).
      f_equal.
      * apply mv_ext. intros k Hk. apply IH. lia.
      * apply mv_ext. intros k _. cbn. f_equal. lia.
Qed.

Lemma check_control D (rl : bool) u nt ni b q B : control_shape u ni b q -> y_control D = Some B ->
  (b + (if rl then 0 else 1))%nat = nt -> q = ncol B ->
  exists T, check_control_input D rl u nt ni = Ok T /\ forall j k i, (j < ni)%nat -> at3 T j k i = control u j k i.
Proof.
  intros Hu HB Hb Hq. unfold check_control_input. rewrite HB.
  destruct u as [|n v|M|T]; cbn in Hu; [destruct Hu| | |].
  - destruct Hu as (-> & -> & ->). eexists. cbn [dim0 dim1 dim2]. rewrite Hb, <- Hq, !Nat.eqb_refl. cbn. split; reflexivity.
  - destruct Hu as (-> & -> & ->). eexists. cbn [dim0 dim1 dim2]. rewrite Hb, <- Hq, !Nat.eqb_refl. cbn. split; reflexivity.
  - destruct Hu as (-> & -> & ->). eexists. cbn [dim0 dim1 dim2]. rewrite Hb, <- Hq, !Nat.eqb_refl. cbn. split; reflexivity.
Qed.

Lemma flowmap_matrix_controlled_evolves (rl : bool) D x tv u o A B d oi names ts b q :
  set_sys_matrix D o = Ok A -> nrow A = ncol A -> y_control D = Some B -> nrow B = nrow A ->
  state_dim x (ncol A) -> times_given tv ts -> GoodTimes ts ->
  control_shape u (n_initial x) b q -> (b + (if rl then 0 else 1))%nat = length ts -> q = ncol B ->
  (0 < d)%Z -> (1 <= n_initial x)%nat -> GoodIds (ids_given oi (n_initial x)) (n_initial x) ->
  names_given names (ncol A) = nrow A ->
  exists F, evolve (Config TFlowmap MMatrix true false true) rl D x tv u o (DScalar d) oi names = Ok F /\ ValidRows F /\
    Holds F (ids_given oi (n_initial x)) ts (nrow A) (fun j b => trajectory A B (control u j) (initial x j) b).
Proof.
  intros HS Hsq HB HBn Hx Ht HT Hu Hb Hq Hd Hn Hi Hnm. unfold EvoModel.evolve. cbn [new_system stype_eqb smode_eqb c_type c_mode select_strategy c_invariant c_controlled c_affine negb andb bind]. rewrite HS. cbn [bind].
  destruct (check_ic x _ Hx) as (X & EX & X1 & X2 & X3). rewrite EX. cbn [bind]. rewrite (check_tv _ _ Ht). cbn [bind].
  rewrite X2. destruct (check_control D rl u (length ts) (n_initial x) b q B Hu HB Hb Hq) as (T & ET & HTt).
  rewrite ET. cbn [bind]. unfold check_time_delta. cbn [c_type stype_eqb]. rewrite (proj2 (Z.leb_gt d 0)) by exact Hd. cbn [bind].
  change (match names with None => ncol A | Some n => n end) with (names_given names (ncol A)). rewrite Hnm, Nat.eqb_refl. cbn [negb]. cbn [evolve_states]. rewrite HB.
  unfold solve_matrix_controlled, square. destruct ts as [|t0 ts']; [destruct HT; congruence|]. set (ts := t0 :: ts') in *.
  rewrite HBn, Hsq, !Nat.eqb_refl. cbn [negb orb bind]. rewrite X2.
  change (match oi with None => np_arange (n_initial x) | Some l => l end) with (ids_given oi (n_initial x)). rewrite <- Hsq.
  set (sl := control_steps zero add mul A B T X 0 (length ts - 1)).
  assert (L : length sl = length ts). { unfold sl. rewrite control_steps_length. unfold ts. cbn. lia. }
  destruct (tensor_holds sl (ids_given oi (n_initial x)) ts (nrow A) (n_initial x) Hn L Hi HT) as (F & EF & HV & _ & HH).
  exists F. split; [exact EF|]. split; [exact HV|]. eapply holds_ext; [exact HH|]. intros j k i Hj Hk Hi'. cbn beta.
  destruct Hi as (Hi1 & _). rewrite Hi1 in Hj.
  unfold sl. rewrite control_steps_nth by (assumption || lia). cbn [plus].
  apply trajectory_ext; [congruence| | |lia].
  - intros i' _. apply X3.
  - intros k' i'. now apply HTt.
Qed.

Lemma flowmap_spectral_controlled_evolves (rl : bool) D x tv u o A B d oi names ts b q :
  let M := matmul zero add mul A (diagmat_dot_mat mul (y_eig D) (y_left D)) in
  set_sys_matrix D o = Ok A -> nrow A = ncol (y_left D) -> y_neig D = ncol A -> nrow (y_left D) = ncol A ->
  y_control D = Some B -> nrow B = nrow A ->
  state_dim x (ncol A) -> times_given tv ts -> GoodTimes ts ->
  control_shape u (n_initial x) b q -> (b + (if rl then 0 else 1))%nat = length ts -> q = ncol B ->
  (0 < d)%Z -> (1 <= n_initial x)%nat -> GoodIds (ids_given oi (n_initial x)) (n_initial x) ->
  names_given names (ncol A) = nrow A ->
  exists F, evolve (Config TFlowmap MSpectral true false true) rl D x tv u o (DScalar d) oi names = Ok F /\ ValidRows F /\
    Holds F (ids_given oi (n_initial x)) ts (nrow A) (fun j b => trajectory M B (control u j) (mv A (initial x j)) b).
Proof.
  intros M HS Hsq Hne Hle HB HBn Hx Ht HT Hu Hb Hq Hd Hn Hi Hnm. unfold EvoModel.evolve. cbn [new_system stype_eqb smode_eqb c_type c_mode select_strategy c_invariant c_controlled c_affine negb andb bind]. rewrite HS. cbn [bind].
  destruct (check_ic x _ Hx) as (X & EX & X1 & X2 & X3). rewrite EX. cbn [bind]. rewrite (check_tv _ _ Ht). cbn [bind].
  rewrite X2. destruct (check_control D rl u (length ts) (n_initial x) b q B Hu HB Hb Hq) as (T & ET & HTt).
  rewrite ET. cbn [bind]. unfold check_time_delta. cbn [c_type stype_eqb]. rewrite (proj2 (Z.leb_gt d 0)) by exact Hd. cbn [bind].
  change (match names with None => ncol A | Some n => n end) with (names_given names (ncol A)). rewrite Hnm, Nat.eqb_refl. cbn [negb]. cbn [evolve_states]. rewrite HB.
  unfold solve_spectral_controlled. destruct ts as [|t0 ts']; [destruct HT; congruence|]. set (ts := t0 :: ts') in *.
  fold M. unfold square. assert (HM1 : nrow M = nrow A) by reflexivity. assert (HM2 : ncol M = nrow A) by (cbn; congruence).
  rewrite HM1, HM2, HBn, Hle, Hne, !Nat.eqb_refl. cbn [negb orb bind]. rewrite X2.
  change (match oi with None => np_arange (n_initial x) | Some l => l end) with (ids_given oi (n_initial x)).
  set (sl := control_steps zero add mul M B T (matmul zero add mul A X) 0 (length ts - 1)).
  assert (L : length sl = length ts). { unfold sl. rewrite control_steps_length. unfold ts. cbn. lia. }
  destruct (tensor_holds sl (ids_given oi (n_initial x)) ts (nrow A) (n_initial x) Hn L Hi HT) as (F & EF & HV & _ & HH).
  exists F. split; [exact EF|]. split; [exact HV|]. eapply holds_ext; [exact HH|]. intros j k i Hj Hk Hi'. cbn beta.
  destruct Hi as (Hi1 & _). rewrite Hi1 in Hj.
  unfold sl. rewrite control_steps_nth by (congruence || lia). cbn [plus].
  apply trajectory_ext; [congruence| | |congruence].
  - intros i' _. apply matmul_col. intros k'. apply X3.
  - intros k' i'. now apply HTt.
Qed.

(** Nothing else is accepted. *)
Lemma evolve_accepts c (rl : bool) D x tv u o d oi names F :
  evolve c rl D x tv u o d oi names = Ok F ->
  c_invariant c = true /\
  exists A ts, set_sys_matrix D o = Ok A /\ state_dim x (ncol A) /\ times_given tv ts /\
    names_given names (ncol A) = nrow A /\
    (c_type c = TFlowmap -> exists z, d = DScalar z /\ (0 < z)%Z) /\
    (c_controlled c = true -> exists B b, y_control D = Some B /\ control_shape u (n_initial x) b (ncol B) /\
       (b + (if rl then 0 else 1))%nat = length ts).
Proof.
  unfold EvoModel.evolve. destruct (new_system c) as [s|e] eqn:Es; [|discriminate]. cbn [bind].
  destruct (set_sys_matrix D o) as [A|] eqn:EA; [|discriminate]. cbn [bind].
  destruct (check_initial_condition zero x (ncol A)) as [X|] eqn:EX; [|discriminate]. cbn [bind].
  destruct (check_time_values tv) as [ts|] eqn:Et; [|discriminate]. cbn [bind].
  destruct (if c_controlled c then _ else _) as [T|] eqn:EC; [|discriminate]. cbn [bind].
  destruct (check_time_delta c d) as [dt|] eqn:Ed; [|discriminate]. cbn [bind].
  change (match names with None => ncol A | Some n => n end) with (names_given names (ncol A)).
  destruct (names_given names (ncol A) =? nrow A)%nat eqn:En; [|discriminate]. intros _.
  split.
  { unfold new_system, select_strategy in Es. destruct (stype_eqb _ _); [discriminate|]. destruct (smode_eqb _ _); [discriminate|].
    destruct (c_invariant c); [reflexivity|discriminate]. }
  assert (HX : state_dim x (ncol A) /\ ncol X = n_initial x).
  { destruct x as [a|m v|M|]; cbn in EX |- *; try discriminate.
    - destruct (ncol A) as [|[|n]]; try discriminate. injection EX as <-. split; reflexivity.
    - destruct (m =? ncol A)%nat eqn:E; [|discriminate]. injection EX as <-. apply Nat.eqb_eq in E. split; [exact E|reflexivity].
    - destruct (nrow M =? ncol A)%nat eqn:E; [|discriminate]. injection EX as <-. apply Nat.eqb_eq in E. split; [exact E|reflexivity]. }
  exists A, ts. split; [reflexivity|]. split; [apply HX|]. split.
  { destruct tv; cbn in Et; [|left; congruence|discriminate]. right. eexists. split; [reflexivity|congruence]. }
  split; [now apply Nat.eqb_eq|]. split.
  - intros Hc. unfold check_time_delta in Ed. rewrite Hc in Ed. cbn in Ed. destruct d as [| |z]; try discriminate.
    exists z. split; [reflexivity|]. destruct (z <=? 0)%Z eqn:E; [discriminate|]. now apply Z.leb_gt.
  - intros Hc. rewrite Hc in EC. destruct (check_control_input D rl u (length ts) (ncol X)) as [T'|] eqn:ET; [|discriminate].
    unfold check_control_input in ET. destruct HX as [_ HX]. rewrite HX in ET.
    destruct u as [|n v|M|T0]; [discriminate| | |]; cbn [dim0 dim1 dim2] in ET.
    + destruct (1 =? n_initial x)%nat eqn:E1; [|discriminate]. cbn [negb] in ET. destruct (y_control D) as [B|]; [|discriminate].
      destruct (_ =? length ts)%nat eqn:E2; [|discriminate]. cbn [negb] in ET. destruct (1 =? ncol B)%nat eqn:E3; [|discriminate].
      apply Nat.eqb_eq in E1, E2, E3. exists B, n. repeat split; congruence.
    + destruct (1 =? n_initial x)%nat eqn:E1; [|discriminate]. cbn [negb] in ET. destruct (y_control D) as [B|]; [|discriminate].
      destruct (_ =? length ts)%nat eqn:E2; [|discriminate]. cbn [negb] in ET. destruct (ncol M =? ncol B)%nat eqn:E3; [|discriminate].
      apply Nat.eqb_eq in E1, E2, E3. exists B, (nrow M). repeat split; congruence.
    + destruct (dim0 T0 =? n_initial x)%nat eqn:E1; [|discriminate]. cbn [negb] in ET. destruct (y_control D) as [B|]; [|discriminate].
      destruct (_ =? length ts)%nat eqn:E2; [|discriminate]. cbn [negb] in ET. destruct (dim2 T0 =? ncol B)%nat eqn:E3; [|discriminate].
      apply Nat.eqb_eq in E1, E2, E3. exists B, (dim1 T0). repeat split; congruence.
Qed.

End Proofs.
