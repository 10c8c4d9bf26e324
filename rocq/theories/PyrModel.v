(** * Laplacian pyramids (proof-free).

    Source: datafold/dynfold/outofsample.py (outofsample.py) with the kernels of KernModel.v.

    A target is a column vector; the target values of the active functions are a list of
    columns aligned with the list of active indices, as in the code.  [gauss e] is the matrix
    of the Gaussian kernel with scale [e] between the training points. *)

From mathcomp Require Import all_ssreflect all_algebra.
From Verif Require Import KernModel.
Import GRing.Theory Num.Theory.
Set Implicit Arguments.
Unset Strict Implicit.
Unset Printing Implicit Defensive.
Local Open Scope ring_scope.

Section Model.
Variable R : rcfType.

(** outofsample.py 543-549 [_LoopCond]; TERMINATED is not used by the code. *)
Inductive loop_cond := NoTermination | BelowResTol | LoocvIncreases | TinyRes.

Definition is_no (c : loop_cond) : bool := if c is NoTermination then true else false.
Definition is_loocv (c : loop_cond) : bool := if c is LoocvIncreases then true else false.
Definition is_res (c : loop_cond) : bool :=
  match c with BelowResTol | TinyRes => true | _ => false end.

(** outofsample.py 551-565: the parameters.  [pow] is np.power(., alpha). *)
Record lp_cfg := LpCfg {
  initial_epsilon : R;
  mu : R;
  residual_tol : option R;
  auto_adaptive : bool;
  lp_alpha_positive : bool;
  lp_pow : R -> R;
  tiny_residual : R }.                 (* TINY_RESIDUAL = 1e-15 *)

(** outofsample.py 733-740: the kernel of one level; a Euclidean distance is symmetric. *)
Definition level_kernel (c : lp_cfg) : dmap_cfg R :=
  DmapCfg true (lp_alpha_positive c) (lp_pow c) false true.

(** [np.linalg.norm(., axis=0)] of one column. *)
Definition norm2 n (v : 'cV[R]_n) : R := Num.sqrt (\sum_i v i 0 ^+ 2).

(** outofsample.py 629-656 [_termination_rules_single]; [None] is NaN. *)
Definition termination_rules_single (c : lp_cfg) (current : R) (last : option R) : loop_cond :=
  let signal :=
    if auto_adaptive c && (if last is Some l then l < current else false)
    then LoocvIncreases else NoTermination in
  let signal :=
    if is_no signal && (if residual_tol c is Some tol then current <= tol else false)
    then BelowResTol else signal in
  if is_no signal && (current < tiny_residual c) then TinyRes else signal.

(** outofsample.py 687-701 [_track_new_level]: what predict needs of a level. *)
Record level n q := Level {
  lv_epsilon : R;
  lv_row_sums : option 'rV[R]_n;
  lv_targets : seq 'cV[R]_n;
  lv_active : seq 'I_q }.

(** [A[:, act] += cols] for distinct indices. *)
Definition add_columns n q (A : 'M[R]_(n, q)) (act : seq 'I_q) (cols : seq 'cV[R]_n) : 'M[R]_(n, q) :=
  \matrix_(i, j) (if j \in act then A i j + (nth 0 cols (index j act)) i 0 else A i j).

(** The variables of the loop. *)
Record lp_state n q := LpState {
  func_approx : 'M[R]_(n, q);
  target_values : seq 'cV[R]_n;
  epsilon : R;
  residual_norm : seq (option R);
  active : seq 'I_q;
  conditions : 'I_q -> loop_cond;
  tracker : seq (level n q) }.

(** outofsample.py 776-792. *)
Definition lp_init n q (c : lp_cfg) (y : 'M[R]_(n, q)) : lp_state n q :=
  LpState 0 [seq col j y | j <- enum 'I_q] (initial_epsilon c) (nseq q None) (enum 'I_q)
    (fun _ => NoTermination) [::].

(** outofsample.py 733-756 [_prepare_kernel_and_matrix]: the diagonal is set to zero for the
    leave-one-out estimate. *)
Definition prepare n (c : lp_cfg) (G : 'M[R]_n) : option ('M[R]_n * option 'rV[R]_n) :=
  match normalize_pdist (level_kernel c) G with
  | Some (K, None, rs) =>
      Some ((if auto_adaptive c then \matrix_(i, j) (if i == j then 0 else K i j) else K), rs)
  | _ => None
  end.

(** outofsample.py 794-861: the body of the loop. *)
Definition lp_step n q (c : lp_cfg) (gauss : R -> 'M[R]_n) (y : 'M[R]_(n, q)) (s : lp_state n q)
  : option (lp_state n q) :=
  match prepare c (gauss (epsilon s)) with
  | None => None
  | Some (K, rs) =>
      let approx := add_columns (func_approx s) (active s) [seq K *m v | v <- target_values s] in
      let residual := [seq col j y - col j approx | j <- active s] in
      let norms := [seq norm2 r | r <- residual] in
      let curr := [seq termination_rules_single c p.1 p.2 | p <- zip norms (residual_norm s)] in
      let conds := fun j => if j \in active s then nth NoTermination curr (index j (active s))
                            else conditions s j in
      (* 713-731 _remove_increase_loocv_indices *)
      let keep := [seq ~~ is_loocv x | x <- curr] in
      let act1 := mask keep (active s) in
      let tv1 := mask keep (target_values s) in
      let res1 := mask keep residual in
      let norms1 := mask keep norms in
      let tr := if act1 is [::] then tracker s
                else rcons (tracker s) (Level (epsilon s) rs tv1 act1) in
      (* 703-725 _remove_residual_based_indices *)
      let keep2 := [seq ~~ is_res x | x <- [seq x <- curr | ~~ is_loocv x]] in
      let act2 := mask keep2 act1 in
      let res2 := mask keep2 res1 in
      let norms2 := mask keep2 norms1 in
      if has is_no curr
      then Some (LpState approx res2 (epsilon s / mu c) [seq Some x | x <- norms2] act2 conds tr)
      else Some (LpState approx tv1 (epsilon s) [seq Some x | x <- norms2] act2 conds tr)
  end.

(** The loop runs while a function is not terminated.  [None]: still running after [fuel]
    iterations; [Some None]: an exception. *)
Fixpoint lp_loop n q (fuel : nat) (c : lp_cfg) (gauss : R -> 'M[R]_n) (y : 'M[R]_(n, q))
    (s : lp_state n q) : option (option (lp_state n q)) :=
  if [exists j, is_no (conditions s j)] then
    match fuel with
    | O => None
    | S fuel' => match lp_step c gauss y s with
                 | None => Some None
                 | Some s' => lp_loop fuel' c gauss y s'
                 end
    end
  else Some (Some s).

(** outofsample.py 865-890 [fit]: the levels. *)
Definition lp_fit n q (fuel : nat) (c : lp_cfg) (gauss : R -> 'M[R]_n) (y : 'M[R]_(n, q))
  : option (option (seq (level n q))) :=
  match lp_loop fuel c gauss y (lp_init c y) with
  | None => None
  | Some None => Some None
  | Some (Some s) => Some (Some (tracker s))
  end.

(** outofsample.py 892-921 [predict]: [gaussX e] is the kernel matrix between the new and the
    training points. *)
Fixpoint lp_predict_from n m q (c : lp_cfg) (gaussX : R -> 'M[R]_(m, n)) (y_hat : 'M[R]_(m, q))
    (tr : seq (level n q)) : option 'M[R]_(m, q) :=
  match tr with
  | [::] => Some y_hat
  | l :: tr' =>
      match normalize_cdist (level_kernel c) (lv_row_sums l) (gaussX (lv_epsilon l)) with
      | None => None
      | Some K => lp_predict_from c gaussX
                    (add_columns y_hat (lv_active l) [seq K *m v | v <- lv_targets l]) tr'
      end
  end.

Definition lp_predict n m q (c : lp_cfg) (gaussX : R -> 'M[R]_(m, n)) (tr : seq (level n q))
  : option 'M[R]_(m, q) := lp_predict_from c gaussX 0 tr.

End Model.
