(** * Early stopping of the dictionary training (proof-free).

    Source: datafold/dynfold/dictlearning.py (dictlearning.py). *)

From mathcomp Require Import all_ssreflect all_algebra.
Import GRing.Theory Num.Theory.
Set Implicit Arguments.
Unset Strict Implicit.
Unset Printing Implicit Defensive.
Local Open Scope ring_scope.

Section Model.
Variable R : realDomainType.

(** A validation loss: [None] is NaN, every comparison with it is False. *)
Definition loss := option R.

Definition gt_plus (a b : loss) (delta : R) : bool :=
  match a, b with Some x, Some y => y + delta < x | _, _ => false end.

(** dictlearning.py 46-52 [EarlyStopping.__init__]: best_score is None before the first update. *)
Record stopper := Stopper { counter : nat; best_score : option loss; early_stop : bool }.

Definition new_stopper : stopper := Stopper 0 None false.

(** dictlearning.py 54-63 [update]. *)
Definition update (patience : nat) (delta : R) (s : stopper) (val_loss : loss) : stopper :=
  match best_score s with
  | None => Stopper (counter s) (Some val_loss) (early_stop s)
  | Some best =>
      if gt_plus val_loss best delta then
        Stopper (counter s).+1 (Some best) ((patience <= (counter s).+1)%N || early_stop s)
      else Stopper 0 (Some val_loss) (early_stop s)
  end.

(** dictlearning.py 571-620: the epochs of fit; [losses] are the validation losses the epochs
    would produce, the result is the number of epochs that are run. *)
Fixpoint epochs (patience : nat) (delta : R) (s : stopper) (losses : seq loss) : nat :=
  match losses with
  | [::] => 0%N
  | l :: losses' =>
      let s' := update patience delta s l in
      if early_stop s' then 1%N else (epochs patience delta s' losses').+1%N
  end.

Definition train (patience : nat) (delta : R) (losses : seq loss) : nat :=
  epochs patience delta new_stopper losses.

End Model.
