(** * Local regression selection (proof-free).

    Source: datafold/dynfold/dmap.py (dmap.py).  Residuals are rational numbers or nan; the
    residual of an eigenvector w.r.t. the previous ones (1385-1496, a sequence of weighted least
    squares problems) is a parameter [regress] of [fit]. *)

From Coq Require Import List QArith Bool.
From Verif Require Import Np.
Import ListNotations.
Local Open Scope nat_scope.

Inductive res := Val (q : Q) | NaN.

Inductive strategy := Dim (intrinsic_dim : nat) | Threshold (regress_threshold : Q).

Definition opp (r : res) : res := match r with Val q => Val (- q) | NaN => NaN end.

(** [a < b] of numpy: false if one side is nan. *)
Definition Qltb (a b : Q) : bool := negb (Qle_bool b a).
Definition ltb (a b : res) : bool := match a, b with Val p, Val q => Qltb p q | _, _ => false end.

(** [np.sort] of indices. *)
Fixpoint insert_nat (a : nat) (l : list nat) : list nat :=
  match l with
  | [] => [a]
  | b :: l' => if a <=? b then a :: l else b :: insert_nat a l'
  end.
Fixpoint sort_nat (l : list nat) : list nat :=
  match l with [] => [] | a :: l' => insert_nat a (sort_nat l') end.

Section Model.
(** [np.argpartition(a, kth)]. *)
Variable argpartition : list res -> nat -> list nat.

(** dmap.py 1338-1383 [_validate_parameter], the strategies. *)
Definition validate (s : strategy) (n : nat) : result unit :=
  match s with
  | Dim d => if (1 <=? d) && (d <=? n - 1) then Ok tt else Err ValueError
  | Threshold t => if Qltb 0 t && Qltb t 1 then Ok tt else Err ValueError
  end.

(** dmap.py 1574-1586: the attribute residuals_. *)
Definition residuals (regress : nat -> res) (n : nat) : list res :=
  NaN :: Val 1 :: map regress (seq 2 (n - 2)).

(** dmap.py 1498-1525 [_set_indices]. *)
Definition set_indices (s : strategy) (rs : list res) : list nat :=
  let rs := Val (-1) :: tl rs in
  match s with
  | Dim d =>
      if d =? 1 then [1]
      else sort_nat (firstn d (argpartition (map opp rs) d))
  | Threshold t =>
      sort_nat (map fst (filter (fun p => ltb (Val t) (snd p)) (enumerate rs)))
  end.

(** dmap.py 1536-1591 [fit] for data with [n] eigenvectors: the attribute evec_indices_. *)
Definition fit (s : strategy) (regress : nat -> res) (n : nat) : result (list nat) :=
  if n <? 2 then Err ValueError
  else bind (validate s n) (fun _ => Ok (set_indices s (residuals regress n))).

(** dmap.py 1593-1616 [transform]: the selected columns of a row. *)
Definition transform {A} (idx : list nat) (row : list A) : list (option A) := map (nth_error row) idx.

End Model.
