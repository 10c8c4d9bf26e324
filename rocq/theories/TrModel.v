(** * Model of feature transformations (proof-free).

    Source: datafold/dynfold/transform.py (cited as transform.py) and datafold/dynfold/base.py
    (cited as base.py).

    A frame has a row index (any type; it is only passed on) and named columns.  A plain array has
    columns without names.  Feature names are strings.  Simplified: only the first [fit] of an
    object is modelled (see RefitModel.v for repeated fits); base.py 83-212
    [_validate_datafold_data] (finite values, at least one row and column) is left out. *)

From Coq Require Import String Ascii DecimalString.
From Coq Require Import List ZArith Bool Arith.
Import ListNotations.
From Verif Require Import Np TscModel.
Open Scope nat_scope.

(** f"{i}" of a non-negative integer. *)
Definition str_of_nat (i : nat) : string := NilEmpty.string_of_uint (Nat.to_uint i).

Record frame (I V : Type) := Frame { findex : list I; fcols : list (string * list V) }.
Arguments Frame {I V} _ _.
Arguments findex {I V} _.
Arguments fcols {I V} _.

Definition names {I V : Type} (X : frame I V) : list string := map fst (fcols X).

Inductive data (I V : Type) := Array (columns : list (list V)) | Named (X : frame I V).
Arguments Array {I V} _.
Arguments Named {I V} _.

Fixpoint names_eqb (a b : list string) : bool :=
  match a, b with
  | [], [] => true
  | x :: a', y :: b' => String.eqb x y && names_eqb a' b'
  | _, _ => false
  end.

Definition mem (x : string) (l : list string) : bool := existsb (String.eqb x) l.

(** base.py 281-283 [_validate_feature_input] with direction "transform". *)
Definition validate_transform {I V : Type} (names_in : list string) (X : frame I V) : bool :=
  names_eqb (names X) names_in.

(** base.py 284-306 [_validate_feature_input] with direction "inverse_transform". *)
Definition validate_inverse {I V : Type} (n_features_out : nat) (names_out : list string) (X : frame I V) : bool :=
  (length (fcols X) =? n_features_out) && names_eqb (names X) names_out.

(** ** TSCIdentity *)

Section Identity.
Context {I V : Type}.
Variable one : V.
Variables include_const rename_features : bool.

(** transform.py 256-272 [get_feature_names_out]. *)
Definition id_names (names_in : list string) : list string :=
  let features_out := if rename_features then map (fun col => (col ++ "_id")%string) names_in else names_in in
  if include_const then features_out ++ ["const"%string] else features_out.

(** transform.py 298-303 [fit]: the number of features out. *)
Definition id_n_out (names_in : list string) : nat :=
  length names_in + (if include_const then 1 else 0).

(** [X[name] = value]: an existing column is replaced. *)
Definition set_column (name : string) (col : list V) (cols : list (string * list V)) : list (string * list V) :=
  if mem name (map fst cols)
  then map (fun c => if String.eqb (fst c) name then (name, col) else c) cols
  else cols ++ [(name, col)].

(** transform.py 316-347 [transform]. *)
Definition id_transform (names_in : list string) (X : frame I V) : result (frame I V) :=
  if negb (validate_transform names_in X) then Err ValueError
  else
    let cols := if rename_features then map (fun c => ((fst c ++ "_id")%string, snd c)) (fcols X) else fcols X in
    Ok (Frame (findex X)
          (if include_const then set_column "const" (repeat one (length (findex X))) cols else cols)).

(** transform.py 349-373 [inverse_transform]; [ndarray.copy] has no argument [deep]. *)
Definition id_inverse (names_in : list string) (X : data I V) : result (data I V) :=
  match X with
  | Named X =>
      if negb (validate_inverse (id_n_out names_in) (id_names names_in) X) then Err ValueError
      else Ok (Named (if include_const
                      then Frame (findex X) (filter (fun c => negb (String.eqb (fst c) "const")) (fcols X))
                      else X))
  | Array x =>
      if negb (length x =? id_n_out names_in) then Err ValueError
      else if include_const then Err TypeError else Ok (Array x)
  end.

End Identity.

(** ** TSCFeatureSelect *)

Section Select.
Context {I V : Type}.

(** The parameter [features]: an array of names or of integers. *)
Inductive features := ByName (l : list string) | ByIndex (l : list Z).

(** Indexing of an array with an integer. *)
Definition py_nth {A : Type} (l : list A) (i : Z) : option A :=
  let n := Z.of_nat (length l) in
  if ((- n <=? i) && (i <? n))%Z then nth_error l (Z.to_nat (if i <? 0 then i + n else i)%Z) else None.

Fixpoint all_some {A : Type} (l : list (option A)) : option (list A) :=
  match l with
  | [] => Some []
  | Some x :: r => match all_some r with Some r => Some (x :: r) | None => None end
  | None :: _ => None
  end.

(** transform.py 194-200 [get_feature_names_out].  The data type of an array of names is "<U" with
    the length of the longest name; it is never equal to [np.str_] (length zero). *)
Definition sel_names (f : features) (names_in : list string) : result (list string) :=
  match f with
  | ByName _ => Err ValueError
  | ByIndex l => match all_some (map (py_nth names_in) l) with Some r => Ok r | None => Err IndexError end
  end.

(** [X.loc[:, names]] with unique columns *)
Fixpoint loc (cols : list (string * list V)) (l : list string) : option (list (string * list V)) :=
  match l with
  | [] => Some []
  | x :: r => match find (fun c => String.eqb (fst c) x) cols, loc cols r with
              | Some c, Some r => Some (c :: r)
              | _, _ => None
              end
  end.

(** transform.py 202-226 [fit] (the result is the attribute [feature_names_in_]). *)
Definition sel_fit (f : features) (X : frame I V) : result (list string) :=
  match sel_names f (names X) with
  | Err e => Err e
  | Ok l => match loc (fcols X) l with Some _ => Ok (names X) | None => Err ValueError end
  end.

(** transform.py 228-233 [transform]. *)
Definition sel_transform (f : features) (names_in : list string) (X : frame I V) : result (frame I V) :=
  if negb (validate_transform names_in X) then Err ValueError
  else match sel_names f names_in with
  | Err e => Err e
  | Ok l => match loc (fcols X) l with Some c => Ok (Frame (findex X) c) | None => Err KeyError end
  end.

End Select.

(** ** TSCApplyLambdas *)

Section Lambdas.
Context {I V : Type}.

Definition lambda_name (col : string) (i : nat) : string := (col ++ "_lambda" ++ str_of_nat i)%string.

(** transform.py 1465-1475 [get_feature_names_out]. *)
Definition lam_names (n_lambdas : nat) (names_in : list string) : list string :=
  flat_map (fun col => map (lambda_name col) (seq 0 n_lambdas)) names_in.

(** transform.py 1501-1539 [transform]: each function is applied to whole columns (raw=True).
    [lambdas] return columns of the same length. *)
Definition lam_transform (lambdas : list (list V -> list V)) (names_in : list string) (X : frame I V) : result (frame I V) :=
  if negb (validate_transform names_in X) then Err ValueError
  else Ok (Frame (findex X)
             (flat_map (fun p => map (fun c => (lambda_name (fst c) (fst p), snd p (snd c))) (fcols X)) (enumerate lambdas))).

End Lambdas.

(** ** TSCPolynomialFeatures *)

Section Poly.
Context {I V : Type}.
Variables (one : V) (mul : V -> V -> V).
Variables (degree : nat) (interaction_only include_bias include_first_order : bool).

(** Python's [itertools.combinations_with_replacement(range(n), k)] ([skip] = 0) and
    [itertools.combinations(range(n), k)] ([skip] = 1) with all entries at least [lo]. *)
Fixpoint combinations (skip n k lo : nat) : list (list nat) :=
  match k with
  | 0 => [[]]
  | S k' => flat_map (fun i => map (cons i) (combinations skip n k' (i + skip))) (seq lo (n - lo))
  end.

(** scikit-learn's [PolynomialFeatures._combinations] (a dependency). *)
Definition all_combinations (n : nat) : list (list nat) :=
  (if include_bias then [[]] else []) ++
  flat_map (fun k => combinations (if interaction_only then 1 else 0) n k 0) (seq 1 degree).

(** [np.bincount(c, minlength=n)] for entries below [n]. *)
Definition bincount (n : nat) (c : list nat) : list nat := map (fun j => count_occ Nat.eq_dec c j) (seq 0 n).

(** scikit-learn's [powers_]. *)
Definition super_powers (n : nat) : list (list nat) := map (bincount n) (all_combinations n).

Definition not_first_order (p : list nat) : bool := negb (fold_right Nat.add 0 p =? 1).

(** transform.py 1340-1346 [powers_]. *)
Definition powers (n : nat) : list (list nat) :=
  if include_first_order then super_powers n else filter not_first_order (super_powers n).

(** scikit-learn's [get_feature_names_out], which uses the attribute [powers_]. *)
Definition factor_name (q : string * nat) : string :=
  if snd q =? 1 then fst q else (fst q ++ "^" ++ str_of_nat (snd q))%string.
Definition poly_name (names_in : list string) (p : list nat) : string :=
  match filter (fun q => negb (snd q =? 0)) (combine names_in p) with
  | [] => "1"%string
  | l => String.concat " " (map factor_name l)
  end.
Definition poly_names (names_in : list string) : list string :=
  map (poly_name names_in) (powers (length names_in)).

(** scikit-learn's [transform] of one sample: one product per combination. *)
Definition super_row (x : list V) : list V :=
  map (fun c => fold_right (fun j acc => mul (nth j x one) acc) one c) (all_combinations (length x)).

(** transform.py 1359-1361 [_non_id_state_mask]. *)
Definition non_id_state_mask (n : nat) : list bool := map not_first_order (super_powers n).

(** transform.py 1396-1429 [transform] of a frame, given by its samples. *)
Definition poly_transform (names_in : list string) (columns : list string) (rows : list (I * list V))
  : result (list string * list (I * list V)) :=
  if negb (names_eqb columns names_in) then Err ValueError
  else Ok (poly_names names_in,
           map (fun r => (fst r, if include_first_order then super_row (snd r)
                                 else mask_select (non_id_state_mask (length names_in)) (super_row (snd r)))) rows).

End Poly.

(** ** TSCMovingAverage *)

Section Moving.
Context {V : Type}.
(** the arithmetic mean of a window (pandas) *)
Variable mean : list V -> V.

(** pandas' [rolling(window).mean().dropna()] of one series without missing values. *)
Definition rolling (window : nat) (s : list (Z * V)) : list (Z * V) :=
  flat_map (fun i => match nth_error s i with
                     | Some p => if window <=? S i
                                 then [(fst p, mean (map snd (firstn window (skipn (S i - window) s))))]
                                 else []
                     | None => []
                     end) (seq 0 (length s)).

(** transform.py 1044-1072 [transform] with the validation 1057-1062; the groups are sorted by ID.
    (An empty result is rejected by the constructor.) *)
Definition ma_transform (k : tkind) (window : nat) (F : list (row V)) : result (list (row V)) :=
  match check_const_time_delta k F with
  | Err e => Err e
  | Ok _ =>
      if length F <? window then Err ValueError
      else tsc (flat_map (fun i => series_rows i (rolling window (series F i))) (ids F))
  end.

End Moving.

(** ** TSCFiniteDifference: the names *)

(** transform.py 1589-1592 [get_feature_names_out] and 1717 (the columns of [transform]). *)
Definition fd_names (names_in : list string) : list string := map (fun c => (c ++ "_dot")%string) names_in.
Definition fd_columns (diff_order : nat) (columns : list string) : list string :=
  map (fun c => (c ++ "_dot" ++ str_of_nat diff_order)%string) columns.
