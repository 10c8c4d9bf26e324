(** * Specification vocabulary for the grid search. *)

From Coq Require Import List ZArith Bool Arith QArith Sorted.
Import ListNotations.
From Verif Require Import Np TscModel TscSpec SearchModel.
Open Scope nat_scope.

(** A score is lower than another; nan is lower than every number. *)
Definition Lower (a b : num) : Prop :=
  match a, b with
  | Some x, Some y => (x < y)%Q
  | None, Some _ => True
  | _, None => False
  end.

(** [m] is the mean of the scores [l]; nan if one of them is nan. *)
Definition Average (l : list num) (m : num) : Prop :=
  match m with
  | None => In None l
  | Some q => exists v, l = map Some v /\
                        (q * inject_Z (Z.of_nat (length l)) == fold_right Qplus 0 v)%Q
  end.

(** The value of a parameter. *)
Fixpoint get {P : Type} (d : list (nat * P)) (k : nat) : option P :=
  match d with
  | [] => None
  | (k', v) :: r => if k =? k' then Some v else get r k
  end.

(** [est] has the parameters of [base], those of the candidate replaced. *)
Definition Configured {P : Type} (base cand est : list (nat * P)) : Prop :=
  forall k, get est k = match get cand k with Some v => Some v | None => get base k end.

(** A split of the positions of a collection of [N] rows. *)
Definition LegalSplit (N : nat) (split : list nat * list nat) : Prop :=
  StronglySorted lt (fst split) /\ StronglySorted lt (snd split) /\
  fst split <> [] /\ snd split <> [] /\
  (forall x, In x (fst split) -> ~ In x (snd split)) /\
  (forall x, In x (fst split ++ snd split) -> x < N).

Section Spec.
Context {V P M FP : Type}.
Variable fit : list (nat * P) -> list (row V) -> FP -> result M.
Variable score : M -> list (row V) -> result num.
Variable restrict : FP -> list nat -> FP.

(** The training and the test data of a split: the rows at its positions under new
    IDs. *)
Definition Divided (F : list (row V)) (split : list nat * list nat) (Tr Te : list (row V)) : Prop :=
  exists new, Relabelled F new (fst split) Tr /\ Relabelled F new (snd split) Te.

(** [v] is the score of a candidate on a split: a model with the candidate's
    parameters, fitted with the training data only, is scored with the test data; the
    substitute number (if there is one) stands for a failure. *)
Definition Evaluated (base : list (nat * P)) (F : list (row V)) (fp : FP) (es : error_score)
  (cand : list (nat * P)) (split : list nat * list nat) (v : num) : Prop :=
  exists est Tr Te,
    Configured base cand est /\ Divided F split Tr Te /\
    match fit est Tr (restrict fp (fst split)) with
    | Ok m => score m Te = Ok v \/ (exists e, score m Te = Err e /\ es = Number v)
    | Err _ => es = Number v
    end.

End Spec.
