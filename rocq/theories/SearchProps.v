(** * Property C89: the grid search over EDMD models. *)

From Coq Require Import List ZArith Bool Arith QArith Lia Sorted Permutation.
Import ListNotations.
From Verif Require Import Np TscModel TscSpec TscProofs CvModel CvSpec CvProofs SearchModel SearchSpec SearchProofs.
Close Scope Z_scope.
Close Scope Q_scope.
Open Scope nat_scope.

(** Every entry of the table of scores belongs to its candidate and its split: a model
    with the parameters of that candidate, fitted with the training rows of that split
    only, was scored with the test rows. *)
Theorem C89_table :
  forall (V P M FP : Type) (fit : list (nat * P) -> list (row V) -> FP -> result M)
    (score : M -> list (row V) -> result num) (restrict : FP -> list nat -> FP)
    base cands splits n es rts refit (F : list (row V)) fp R,
  (forall c, In c cands -> NoDup (map fst c)) ->
  search_fit fit score restrict base cands splits n es rts refit F fp = Ok R ->
  exists sp, splits = Ok sp /\ n = length sp /\ length (split_scores R) = length cands /\
  forall i cand, nth_error cands i = Some cand ->
    exists row m, nth_error (split_scores R) i = Some row /\ nth_error (mean_scores R) i = Some m /\
      length row = length sp /\ Average row m /\
      forall j split, nth_error sp j = Some split ->
        exists v, nth_error row j = Some v /\ Evaluated fit score restrict base F fp es cand split v.
Proof. exact (@search_table). Qed.
Print Assumptions C89_table.

(** The chosen candidate is the first of those with the largest mean score. *)
Theorem C89_best :
  forall (V P M FP : Type) (fit : list (nat * P) -> list (row V) -> FP -> result M)
    (score : M -> list (row V) -> result num) (restrict : FP -> list nat -> FP)
    base cands splits n es rts refit (F : list (row V)) fp R,
  search_fit fit score restrict base cands splits n es rts refit F fp = Ok R ->
  nth_error cands (best_index R) = Some (best_params R) /\
  nth_error (mean_scores R) (best_index R) = Some (best_score R) /\
  forall i m, nth_error (mean_scores R) i = Some m ->
    ~ Lower (best_score R) m /\ (i < best_index R -> Lower m (best_score R)).
Proof. exact (@search_best). Qed.
Print Assumptions C89_best.

(** The final model has the chosen parameters and is fitted with all rows. *)
Theorem C89_refit :
  forall (V P M FP : Type) (fit : list (nat * P) -> list (row V) -> FP -> result M)
    (score : M -> list (row V) -> result num) (restrict : FP -> list nat -> FP)
    base cands splits n es rts (F : list (row V)) fp R,
  (forall c, In c cands -> NoDup (map fst c)) ->
  search_fit fit score restrict base cands splits n es rts true F fp = Ok R ->
  exists est m, Configured base (best_params R) est /\ fit est F fp = Ok m /\ best_estimator R = Some m.
Proof. exact (@search_refit). Qed.
Print Assumptions C89_refit.

(** The search succeeds for legal splits and known parameters: with a substitute number
    whatever the fits and scores on the splits do, otherwise if they succeed. *)
Theorem C89_succeeds :
  forall (V P M FP : Type) (fit : list (nat * P) -> list (row V) -> FP -> result M)
    (score : M -> list (row V) -> result num) (restrict : FP -> list nat -> FP)
    base cands sp es rts refit (F : list (row V)) fp,
  ValidRows F -> cands <> [] -> sp <> [] -> (forall s, In s sp -> LegalSplit (length F) s) ->
  (forall c k, In c cands -> In k (map fst c) -> get base k <> None) ->
  (es = Raise \/ refit = true -> forall est Tr fp', ValidRows Tr -> exists m, fit est Tr fp' = Ok m) ->
  (es = Raise -> forall m X, ValidRows X -> exists v, score m X = Ok v) ->
  exists R, search_fit fit score restrict base cands (Ok sp) (length sp) es rts refit F fp = Ok R.
Proof. exact (@search_ok). Qed.
Print Assumptions C89_succeeds.

(** All splitters of the package produce legal splits ... *)
Theorem C89_splitters :
  forall (V : Type) (F : list (row V)) splits,
  ValidRows F ->
  (exists k perm, Permutation perm (seq 0 (n_timeseries F)) /\ kfold_series F k perm = Ok splits) \/
  (exists k, kfold_time F k = Ok splits) \/
  (exists k w o mn, IdsSorted F /\ 1 <= w /\ window_fold k F w o mn = Ok splits) ->
  forall s, In s splits -> LegalSplit (length F) s.
Proof.
  intros V F splits HV [(k & perm & Hp & E)|[(k & E)|(k & w & o & mn & HS & Hw & E)]] s Hs.
  - destruct (kfold_series_spec F k perm splits HV Hp E) as (_ & H & _). eapply leak_free_legal; eassumption.
  - destruct (kfold_time_spec F k splits HV E) as (_ & H & _). eapply leak_free_legal; eassumption.
  - eapply window_legal; eassumption.
Qed.
Print Assumptions C89_splitters.

(** ... which divide a collection into two collections (no RuntimeError). *)
Theorem C89_divided :
  forall (V : Type) (F : list (row V)) split,
  ValidRows F -> LegalSplit (length F) split ->
  exists Tr Te, split_X F (fst split) (snd split) = Ok (Tr, Te) /\
    ValidRows Tr /\ ValidRows Te /\ Divided F split Tr Te.
Proof. exact (@split_ok). Qed.
Print Assumptions C89_divided.

(** The training data do not depend on the values of other rows. *)
Theorem C89_no_leak :
  forall (V : Type) (F F' : list (row V)) train test Tr Te,
  index F = index F' -> (forall p, In p train -> nth_error F p = nth_error F' p) ->
  split_X F train test = Ok (Tr, Te) -> exists Te', split_X F' train test = Ok (Tr, Te').
Proof. exact (@train_only). Qed.
Print Assumptions C89_no_leak.

(** The scorer of the search passes no control input.  Models that cannot be scored
    without it: the default settings always raise an exception, and with a substitute
    number all scores are that number and the first candidate is chosen. *)
Theorem C89_control_refuted :
  forall (V P M FP : Type) (fit : list (nat * P) -> list (row V) -> FP -> result M)
    (score : M -> list (row V) -> result num) (restrict : FP -> list nat -> FP)
    base cands splits n rts refit (F : list (row V)) fp,
  (forall m X, exists e, score m X = Err e) ->
  (forall R, search_fit fit score restrict base cands splits n Raise rts refit F fp <> Ok R) /\
  (forall q R, search_fit fit score restrict base cands splits n (Number q) rts refit F fp = Ok R ->
     best_index R = 0 /\ forall row v, In row (split_scores R) -> In v row -> v = q).
Proof.
  intros V P M FP fit score restrict base cands splits n rts refit F fp Hs. split.
  - intros R. apply search_unscored_raise. exact Hs.
  - intros q R. apply search_unscored. exact Hs.
Qed.
Print Assumptions C89_control_refuted.

(** ** Example: three series, models are constants, the parameter 0 shifts the mean of the
    training data; the score is minus the squared error; parameter 1 makes the fit fail. *)

Notation rw i t v := (mkRow i%Z t%Z v%Z) (only parsing).

Definition ex_data : list (row Z) := [rw 0 0 1; rw 0 1 2; rw 3 0 3; rw 3 1 4; rw 7 0 2; rw 7 1 6].

Definition ex_fit (d : list (nat * Z)) (X : list (row Z)) (_ : unit) : result Z :=
  match get d 1 with
  | Some 0%Z => Ok (fold_right Z.add 0%Z (map rval X) / Z.of_nat (length X) + match get d 0 with Some v => v | None => 0 end)%Z
  | _ => Err ValueError
  end.
Definition ex_score (m : Z) (X : list (row Z)) : result num :=
  Ok (Some (inject_Z (- fold_right Z.add 0 (map (fun r => (rval r - m) ^ 2) X))%Z)).

Definition ex_base : list (nat * Z) := [(0, 0%Z); (1, 0%Z)].
Definition ex_cands : list (list (nat * Z)) := [[(1, 1%Z)]; [(0, 2%Z)]; [(0, 0%Z)]; []].

Example C89_example :
  ValidRows ex_data /\ (forall c, In c ex_cands -> NoDup (map fst c)) /\
  exists sp R, kfold_series ex_data 3 (seq 0 3) = Ok sp /\
    search_fit ex_fit ex_score (fun fp _ => fp) ex_base ex_cands (Ok sp) 3 (Number None) true true ex_data tt = Ok R /\
    split_scores R = [[None; None; None]; [Some (inject_Z (-25)); Some (inject_Z (-1)); Some (inject_Z (-8))];
                      [Some (inject_Z (-5)); Some (inject_Z (-5)); Some (inject_Z (-16))];
                      [Some (inject_Z (-5)); Some (inject_Z (-5)); Some (inject_Z (-16))]] /\
    best_index R = 2 /\ best_params R = [(0, 0%Z)] /\ best_estimator R = Some 3%Z.
Proof.
  split; [apply (proj1 (tsc_ok ex_data ex_data)); reflexivity|]. split.
  { intros c [<-|[<-|[<-|[<-|[]]]]]; repeat constructor; intros []. }
  eexists. eexists. split; [vm_compute; reflexivity|]. split; [vm_compute; reflexivity|]. repeat split.
Qed.

Example C89_raise_example :
  exists sp, kfold_series ex_data 3 (seq 0 3) = Ok sp /\ LegalSplit 6 (nth 0 sp ([], [])) /\
    search_fit ex_fit ex_score (fun fp _ => fp) ex_base ex_cands (Ok sp) 3 Raise true true ex_data tt = Err ValueError.
Proof.
  eexists. split; [vm_compute; reflexivity|]. split; [|vm_compute; reflexivity].
  refine (C89_splitters Z ex_data _ _ (or_introl (ex_intro _ 3 (ex_intro _ (seq 0 3) (conj _ _)))) _ _);
    [apply (proj1 (tsc_ok ex_data ex_data)); reflexivity|apply Permutation_refl|vm_compute; reflexivity|left; reflexivity].
Qed.
