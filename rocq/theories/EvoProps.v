(** * C98: evolving a linear system for several initial conditions (dynsystem.py). *)

From Coq Require Import List ZArith Bool Arith Lia Ring_theory.
From Verif Require Import Np TscModel TscSpec SysModel EvoModel EvoSpec EvoProofs EvoProj.
Import ListNotations.

(** C98: "flowmap" system in matrix mode.  A scalar, a vector or a matrix of initial conditions (columns) is
    evolved to one series per column, with the IDs that were given (default 0, 1, 2, ...): the value of
    series j at the b-th time t is the power t / time_delta of the system matrix times column j.  The
    times may have any order. *)
Theorem C98_flowmap_matrix :
  forall R (zero : R) add mul mexp mpow sexp spow affine af rl D x tv u A d oi names ts,
    y_matrix D = A -> nrow A = ncol A -> state_dim x (ncol A) -> times_given tv ts -> GoodTimes ts ->
    (0 < d)%Z -> (1 <= n_initial x)%nat -> GoodIds (ids_given oi (n_initial x)) (n_initial x) ->
    names_given names (ncol A) = nrow A ->
    exists F, evolve zero add mul mexp mpow sexp spow affine (Config TFlowmap MMatrix false af true)
                rl D x tv u OvNone (DScalar d) oi names = Ok F /\ ValidRows F /\
      Holds F (ids_given oi (n_initial x)) ts (nrow A)
        (fun j b => mv zero add mul (mpow A (nth b ts 0%Z) d) (initial zero x j)).
Proof. intros; subst; apply flowmap_matrix_evolves; trivial. Qed.
Print Assumptions C98_flowmap_matrix.

(** C98: "differential" system in matrix mode; time_delta is ignored. *)
Theorem C98_differential_matrix :
  forall R (zero : R) add mul mexp mpow sexp spow affine af rl D x tv u A d oi names ts,
    y_matrix D = A -> nrow A = ncol A -> state_dim x (ncol A) -> times_given tv ts -> GoodTimes ts ->
    (1 <= n_initial x)%nat -> GoodIds (ids_given oi (n_initial x)) (n_initial x) ->
    names_given names (ncol A) = nrow A ->
    exists F, evolve zero add mul mexp mpow sexp spow affine (Config TDifferential MMatrix false af true)
                rl D x tv u OvNone d oi names = Ok F /\ ValidRows F /\
      Holds F (ids_given oi (n_initial x)) ts (nrow A)
        (fun j b => mv zero add mul (mexp A (nth b ts 0%Z)) (initial zero x j)).
Proof. intros; subst; apply differential_matrix_evolves; trivial. Qed.
Print Assumptions C98_differential_matrix.

(** C98: spectral systems; the columns are the spectral states b, the value of series j at time t is
    V diag(lambda^(t / time_delta)) b_j and V diag(exp (lambda t)) b_j. *)
Theorem C98_flowmap_spectral :
  forall R (zero : R) add mul mexp mpow sexp spow affine af rl D x tv u V d oi names ts,
    y_matrix D = V -> y_neig D = ncol V -> state_dim x (ncol V) -> times_given tv ts -> GoodTimes ts ->
    (0 < d)%Z -> (1 <= n_initial x)%nat -> GoodIds (ids_given oi (n_initial x)) (n_initial x) ->
    names_given names (ncol V) = nrow V ->
    exists F, evolve zero add mul mexp mpow sexp spow affine (Config TFlowmap MSpectral false af true)
                rl D x tv u OvNone (DScalar d) oi names = Ok F /\ ValidRows F /\
      Holds F (ids_given oi (n_initial x)) ts (nrow V)
        (fun j b => mv zero add mul V (fun k => mul (spow (y_eig D k) (nth b ts 0%Z) d) (initial zero x j k))).
Proof. intros; subst; apply flowmap_spectral_evolves; trivial. Qed.
Print Assumptions C98_flowmap_spectral.

Theorem C98_differential_spectral :
  forall R (zero : R) add mul mexp mpow sexp spow affine af rl D x tv u V d oi names ts,
    y_matrix D = V -> y_neig D = ncol V -> state_dim x (ncol V) -> times_given tv ts -> GoodTimes ts ->
    (1 <= n_initial x)%nat -> GoodIds (ids_given oi (n_initial x)) (n_initial x) ->
    names_given names (ncol V) = nrow V ->
    exists F, evolve zero add mul mexp mpow sexp spow affine (Config TDifferential MSpectral false af true)
                rl D x tv u OvNone d oi names = Ok F /\ ValidRows F /\
      Holds F (ids_given oi (n_initial x)) ts (nrow V)
        (fun j b => mv zero add mul V (fun k => mul (sexp (y_eig D k) (nth b ts 0%Z)) (initial zero x j k))).
Proof. intros; subst; apply differential_spectral_evolves; trivial. Qed.
Print Assumptions C98_differential_spectral.

(** C98: "flowmap" system with control in matrix mode.  Series j starts in column j and is driven by the
    j-th control, x(k+1) = A x(k) + B u(k); the time values enter through their number only. *)
Theorem C98_controlled :
  forall R (zero : R) add mul mexp mpow sexp spow affine (rl : bool) D x tv u A B d oi names ts b q,
    y_matrix D = A -> nrow A = ncol A -> y_control D = Some B -> nrow B = nrow A ->
    state_dim x (ncol A) -> times_given tv ts -> GoodTimes ts ->
    control_shape u (n_initial x) b q -> (b + (if rl then 0 else 1))%nat = length ts -> q = ncol B ->
    (0 < d)%Z -> (1 <= n_initial x)%nat -> GoodIds (ids_given oi (n_initial x)) (n_initial x) ->
    names_given names (ncol A) = nrow A ->
    exists F, evolve zero add mul mexp mpow sexp spow affine (Config TFlowmap MMatrix true false true)
                rl D x tv u OvNone (DScalar d) oi names = Ok F /\ ValidRows F /\
      Holds F (ids_given oi (n_initial x)) ts (nrow A)
        (fun j b => trajectory zero add mul A B (control zero u j) (initial zero x j) b).
Proof. intros; subst; eapply flowmap_matrix_controlled_evolves; eauto. Qed.
Print Assumptions C98_controlled.

(** C98: the same in spectral mode: the states start in V b_j and follow A = V diag(lambda) L, with L the left
    eigenvectors. *)
Theorem C98_controlled_spectral :
  forall R (zero : R) add mul mexp mpow sexp spow affine (rl : bool) D x tv u V B d oi names ts b q,
    let A := Arr2 (nrow V) (ncol (y_left D))
               (fun i j => mv zero add mul V (fun k => mul (y_eig D k) (at2 (y_left D) k j)) i) in
    y_matrix D = V -> nrow V = ncol (y_left D) -> y_neig D = ncol V -> nrow (y_left D) = ncol V ->
    y_control D = Some B -> nrow B = nrow V ->
    state_dim x (ncol V) -> times_given tv ts -> GoodTimes ts ->
    control_shape u (n_initial x) b q -> (b + (if rl then 0 else 1))%nat = length ts -> q = ncol B ->
    (0 < d)%Z -> (1 <= n_initial x)%nat -> GoodIds (ids_given oi (n_initial x)) (n_initial x) ->
    names_given names (ncol V) = nrow V ->
    exists F, evolve zero add mul mexp mpow sexp spow affine (Config TFlowmap MSpectral true false true)
                rl D x tv u OvNone (DScalar d) oi names = Ok F /\ ValidRows F /\
      Holds F (ids_given oi (n_initial x)) ts (nrow V)
        (fun j b => trajectory zero add mul A B (control zero u j) (mv zero add mul V (initial zero x j)) b).
Proof. intros; subst; eapply flowmap_spectral_controlled_evolves; eauto. Qed.
Print Assumptions C98_controlled_spectral.

(** C98: nothing else is accepted: the initial conditions have the dimension of the state, there is one name
    per feature, a "flowmap" system needs a positive time_delta and a controlled system a control matrix and
    a control with one series per initial condition, the dimension of the control matrix and as many
    time steps as time values (one less if the last control state is not required). *)
Theorem C98_accepts_only :
  forall R (zero : R) add mul mexp mpow sexp spow affine c (rl : bool) D x tv u o d oi names F,
    evolve zero add mul mexp mpow sexp spow affine c rl D x tv u o d oi names = Ok F ->
    c_invariant c = true /\
    exists A ts, set_sys_matrix D o = Ok A /\ state_dim x (ncol A) /\ times_given tv ts /\
      names_given names (ncol A) = nrow A /\
      (c_type c = TFlowmap -> exists z, d = DScalar z /\ (0 < z)%Z) /\
      (c_controlled c = true -> exists B b, y_control D = Some B /\ control_shape u (n_initial x) b (ncol B) /\
         (b + (if rl then 0 else 1))%nat = length ts).
Proof. exact @evolve_accepts. Qed.
Print Assumptions C98_accepts_only.

(** C98: post-mapping.  A spectral system without control whose system matrix is overwritten by P V returns P times
    the states of the system, with one name per row of P. *)
Theorem C98_postmap_spectral :
  forall R (zero one : R) add mul mexp mpow sexp spow affine af rl D x tv u V P d oi ts,
    semi_ring_theory zero one add mul (@eq R) ->
    y_matrix D = V -> y_neig D = ncol V -> state_dim x (ncol V) -> times_given tv ts -> GoodTimes ts ->
    (0 < d)%Z -> (1 <= n_initial x)%nat -> GoodIds (ids_given oi (n_initial x)) (n_initial x) ->
    ncol P = nrow V ->
    let PV := Arr2 (nrow P) (ncol V) (fun i j => mv zero add mul P (fun k => at2 V k j) i) in
    exists F, evolve zero add mul mexp mpow sexp spow affine (Config TFlowmap MSpectral false af true)
                rl D x tv u (OvMat PV) (DScalar d) oi (Some (nrow P)) = Ok F /\ ValidRows F /\
      Holds F (ids_given oi (n_initial x)) ts (nrow P)
        (fun j b => mv zero add mul P
           (mv zero add mul V (fun k => mul (spow (y_eig D k) (nth b ts 0%Z) d) (initial zero x j k)))).
Proof.
  intros R zero one add mul mexp mpow sexp spow affine af rl D x tv u V P d oi ts RT HV Hn Hx Ht HT Hd Hi Hg HP PV.
  destruct (flowmap_spectral_evolves zero add mul mexp mpow sexp spow affine af rl D x tv u (OvMat PV) PV d oi (Some (nrow P)) ts)
    as (F & E & HF & HH); trivial.
  exists F. split; [exact E|]. split; [exact HF|]. eapply holds_ext; [exact HH|]. intros j b i _ _ _.
  apply (mv_assoc zero one add mul RT). exact HP.
Qed.
Print Assumptions C98_postmap_spectral.

(** C98: in matrix mode the documented post-mapping "A* = P A" does not return P times the states: at time 0
    P is not applied, and at time n it is applied n times.  P = (2), A = (1), x = 3 gives 3, 6, 12 and not
    6, 6, 6. *)
Definition zpow (A : arr2 Z) (t d : Z) : arr2 Z :=
  Nat.iter (Z.to_nat (t / d)) (matmul 0%Z Z.add Z.mul A)
    (Arr2 (nrow A) (ncol A) (fun i j => if (i =? j)%nat then 1%Z else 0%Z)).
Definition zevolve := evolve 0%Z Z.add Z.mul (fun A _ => A) zpow (fun l _ => l)
  (fun l t d => (l ^ (t / d))%Z) (fun _ _ _ => Err RuntimeError).
Definition one_one (a : Z) : arr2 Z := Arr2 1 1 (fun _ _ => a).
Definition sys11 (a : Z) (B : option (arr2 Z)) : sysdat Z := SysDat (one_one a) 1 (fun _ => a) (one_one 1) B.

Theorem C98_postmap_matrix_refuted :
  exists F, zevolve (Config TFlowmap MMatrix false false true) false (sys11 1 None) (ICScalar 3%Z)
      (TV1 [0; 1; 2]%Z) UNone (OvMat (matmul 0%Z Z.add Z.mul (one_one 2) (one_one 1))) (DScalar 1) None None = Ok F /\
    ~ Holds F [0%Z] [0; 1; 2]%Z 1
        (fun _ b => mv 0%Z Z.add Z.mul (one_one 2) (mv 0%Z Z.add Z.mul (zpow (one_one 1) (Z.of_nat b) 1) (fun _ => 3%Z))).
Proof.
  exists [mkRow 0%Z 0%Z [3%Z]; mkRow 0%Z 1%Z [6%Z]; mkRow 0%Z 2%Z [12%Z]].
  split; [vm_compute; reflexivity|]. intros H.
  destruct (proj1 (H (mkRow 0%Z 0%Z [3%Z])) (or_introl eq_refl)) as (j & b & _ & Hb & Hv). cbn in Hb.
  destruct b as [|[|[|[|b]]]]; cbn in Hb; discriminate.
Qed.
Print Assumptions C98_postmap_matrix_refuted.

(** C98: and a projection that changes the number of features is not accepted at all in matrix mode. *)
Theorem C98_postmap_rectangular_refuted :
  forall R (zero : R) add mul mexp mpow sexp spow affine c rl D x tv u M d oi names,
    c_mode c = MMatrix -> c_affine c = false -> nrow M <> ncol M ->
    forall F, evolve zero add mul mexp mpow sexp spow affine c rl D x tv u (OvMat M) d oi names <> Ok F.
Proof. exact @rectangular_rejected. Qed.
Print Assumptions C98_postmap_rectangular_refuted.

(** C98: the documented default names 0, 1, 2, ... are missing whenever the number of features is not the
    dimension of the state: there are as many default names as states and the call fails. *)
Theorem C98_default_names_refuted :
  forall R (zero : R) add mul mexp mpow sexp spow affine c rl D x tv u M d oi,
    nrow M <> ncol M ->
    forall F, evolve zero add mul mexp mpow sexp spow affine c rl D x tv u (OvMat M) d oi None <> Ok F.
Proof. exact @default_names_rejected. Qed.
Print Assumptions C98_default_names_refuted.

(** Concrete cases: two columns with two controls of three steps; a scalar initial condition. *)
Example C98_controlled_example :
  zevolve (Config TFlowmap MMatrix true false true) false
    (SysDat (Arr2 2 2 (fun i j => Z.of_nat (i + j)%nat)) 0 (fun _ => 0%Z) (one_one 0)
       (Some (Arr2 2 1 (fun i _ => Z.of_nat (i + 1)))))
    (IC2 (Arr2 2 2 (fun i j => Z.of_nat (1 + i + 2 * j)))) (TV1 [0; 1; 2]%Z)
    (U3 (Arr3 2 2 1 (fun j k _ => Z.of_nat (10 * j + k)))) OvNone (DScalar 1) (Some [5; 3]%Z) None
  = Ok [mkRow 3%Z 0%Z [3; 4]%Z; mkRow 3%Z 1%Z [14; 31]%Z; mkRow 3%Z 2%Z [42; 98]%Z;
        mkRow 5%Z 0%Z [1; 2]%Z; mkRow 5%Z 1%Z [2; 5]%Z; mkRow 5%Z 2%Z [6; 14]%Z].
Proof. vm_compute. reflexivity. Qed.

Example C98_example :
  state_dim (IC2 (Arr2 2 2 (fun i j => Z.of_nat (1 + i + 2 * j)))) 2 /\ times_given (TVScalar 4) [4%Z] /\
  GoodTimes [2; 0; 1]%Z /\ GoodIds (ids_given (Some [5; 3]%Z) 2) 2 /\ GoodIds (ids_given None 2) 2 /\
  control_shape (U3 (Arr3 2 2 1 (fun j k _ => Z.of_nat (10 * j + k)))) 2 2 1 /\
  zevolve (Config TFlowmap MMatrix false false true) false (sys11 2 None) (ICScalar 3%Z) (TV1 [2; 0; 1]%Z)
    UNone OvNone (DScalar 1) None None
  = Ok [mkRow 0%Z 0%Z [3%Z]; mkRow 0%Z 1%Z [6%Z]; mkRow 0%Z 2%Z [12%Z]].
Proof.
  split; [reflexivity|]. split; [right; exists 4%Z; split; reflexivity|].
  split. { split; [discriminate|]. split; [repeat constructor; cbn; intuition discriminate|]. cbn. intros t H. intuition lia. }
  split. { split; [reflexivity|]. split; [repeat constructor; cbn; intuition discriminate|]. cbn. intros t H. intuition lia. }
  split. { split; [reflexivity|]. split; [repeat constructor; cbn; intuition discriminate|]. cbn. intros t H. intuition lia. }
  split; [repeat split|]. vm_compute. reflexivity.
Qed.
