(** * Model of [TSCColumnTransformer] (proof-free).

    Source: datafold/dynfold/compose.py (cited as compose.py); scikit-learn 1.2 [ColumnTransformer] is
    its base class.

    Frames are lists of rows as in TscModel; a row has one value per column.  [isna] tells which values are
    NaN.  Every transformer that is not dropped gives at least one column.  Left out: transformer_weights,
    n_jobs, plain arrays, and the checks of the data in [fit] (C72, C74). *)

From Coq Require Import String.
From Coq Require Import List ZArith Bool Arith.
Import ListNotations.
From Verif Require Import Np TscModel TrModel.
Open Scope Z_scope.

Definition key := (Z * Z)%type.

Definition key_eqb (a b : key) : bool := (fst a =? fst b) && (snd a =? snd b).
Definition key_ltb (a b : key) : bool := (fst a <? fst b) || ((fst a =? fst b) && (snd a <? snd b)).

Fixpoint keys_eqb (a b : list key) : bool :=
  match a, b with
  | [], [] => true
  | x :: a', y :: b' => key_eqb x y && keys_eqb a' b'
  | _, _ => false
  end.

Fixpoint insert (k : key) (l : list key) : list key :=
  match l with
  | [] => [k]
  | h :: t => if key_ltb k h then k :: h :: t else if key_eqb k h then h :: t else h :: insert k t
  end.

Fixpoint nodupb (l : list string) : bool :=
  match l with [] => true | x :: l' => negb (mem x l') && nodupb l' end.

Section Model.
Context {V : Type}.
Variable isna : V -> bool.
Notation rows := (list (row (list V))).

(** [pd.concat(Xs, axis=1, sort=True)]: equal indices are kept, otherwise the sorted union. *)
Definition joined_index (Fs : list rows) : list key :=
  match Fs with
  | [] => []
  | F :: Fs' =>
      if forallb (fun G => keys_eqb (TscModel.index F) (TscModel.index G)) Fs' then TscModel.index F
      else fold_right insert [] (concat (map TscModel.index Fs))
  end.

Definition lookup (F : rows) (k : key) : option (list V) :=
  match find (fun r => key_eqb (rid r, rtime r) k) F with Some r => Some (rval r) | None => None end.

(** The values of one row of the joined frame, [None] if there is a NaN: [dropna(axis=0)]. *)
Fixpoint complete (vs : list (option (list V))) : option (list V) :=
  match vs with
  | [] => Some []
  | None :: _ => None
  | Some v :: vs' =>
      if existsb isna v then None
      else match complete vs' with Some w => Some (v ++ w) | None => None end
  end.

Definition join (Fs : list rows) : rows :=
  flat_map (fun k => match complete (map (fun F => lookup F k) Fs) with
                     | Some v => [mkRow (fst k) (snd k) v]
                     | None => []
                     end) (joined_index Fs).

(** scikit-learn's names out: with the name of the transformer, or as they are (duplicates: ValueError). *)
Definition names_out (verbose : bool) (parts : list (string * list string)) : result (list string) :=
  let all := concat (map snd parts) in
  if verbose then Ok (concat (map (fun p => map (fun c => (fst p ++ "__" ++ c)%string) (snd p)) parts))
  else if nodupb all then Ok all else Err ValueError.

(** compose.py 70-80 [_hstack]: a part is the name of the transformer, its names out and its rows. *)
Definition hstack (verbose : bool) (parts : list (string * list string * rows)) : result (list string * rows) :=
  match names_out verbose (map fst parts) with
  | Err e => Err e
  | Ok names => if nodupb names then Ok (names, join (map snd parts)) else Err AttributeError
  end.

(** A fitted entry of [transformers_]: dropped columns, passed columns or a transformer with the number of
    its features. *)
Inductive fitted :=
| Drop
| Passthrough
| Tr (n_features_out : nat) (f : list string -> rows -> result (list string * rows)).

(** One entry: name, transformer, names of the columns it gets. *)
Definition entry := (string * fitted * list string)%type.

(** [X[columns]]; a missing column is a ValueError. *)
Definition position (names : list string) (c : string) : option nat :=
  (fix go (l : list string) (i : nat) : option nat :=
     match l with [] => None | x :: l' => if String.eqb x c then Some i else go l' (S i) end) names O.

Fixpoint positions (names : list string) (cs : list string) : option (list nat) :=
  match cs with
  | [] => Some []
  | c :: cs' => match position names c, positions names cs' with Some i, Some l => Some (i :: l) | _, _ => None end
  end.

Definition select (names : list string) (X : rows) (cs : list string) : result rows :=
  match positions names cs with
  | None => Err ValueError
  | Some l => Ok (map (fun r => mkRow (rid r) (rtime r) (flat_map (fun i => match nth_error (rval r) i with Some v => [v] | None => [] end) l)) X)
  end.

(** The parts of [transform] (scikit-learn's [_fit_transform] with fitted transformers). *)
Fixpoint run (es : list entry) (names : list string) (X : rows) : result (list (string * list string * rows)) :=
  match es with
  | [] => Ok []
  | (name, tr, cs) :: es' =>
      match tr with
      | Drop => run es' names X
      | Passthrough =>
          bind (select names X cs) (fun Y => bind (run es' names X) (fun ps => Ok ((name, cs, Y) :: ps)))
      | Tr _ f =>
          bind (select names X cs) (fun Y => bind (f cs Y) (fun out => bind (run es' names X) (fun ps => Ok ((name, fst out, snd out) :: ps))))
      end
  end.

(** scikit-learn's [transform] *)
Definition col_transform (verbose : bool) (es : list entry) (names : list string) (X : rows) : result (list string * rows) :=
  bind (run es names X) (hstack verbose).

(** scikit-learn's [_validate_remainder] and [_iter]: the entry of the remaining columns, only if there are
    some. *)
Definition with_remainder (es : list entry) (remainder : fitted) (names : list string) : list entry :=
  let used := concat (map snd es) in
  let remaining := filter (fun c => negb (mem c used)) names in
  match remaining with [] => es | _ => es ++ [("remainder"%string, remainder, remaining)] end.

(** compose.py 65-68 [n_features_out_]: the strings "drop" and "passthrough" have no such attribute. *)
Definition n_features_out (es : list entry) : result nat :=
  fold_right (fun e acc => match snd (fst e) with
                           | Tr n _ => bind acc (fun m => Ok (n + m)%nat)
                           | _ => Err AttributeError
                           end) (Ok O) es.

End Model.
