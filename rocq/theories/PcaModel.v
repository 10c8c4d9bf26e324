(** * Model of [TSCPrincipalComponent] (proof-free).

    Source: datafold/dynfold/transform.py (cited as transform.py), datafold/dynfold/base.py (cited
    as base.py).  The class is scikit-learn's [PCA] (version 1.2) with another treatment of tables;
    the parts of [PCA] that are used are modelled as well: the solver "full" with an integer or no
    [n_components].  The singular value decomposition [svd] of LAPACK is an argument.  Numbers are
    elements of a real closed field.  [NotFittedError] is an [AttributeError]. *)

From Coq Require Import String List ZArith.
From mathcomp Require Import all_ssreflect all_algebra.
From Verif Require Import Np TrModel ScaModel.
Import Order.Theory GRing.Theory Num.Theory.
Set Implicit Arguments.
Unset Strict Implicit.
Unset Printing Implicit Defensive.
Local Open Scope ring_scope.

Section Model.
Variable R : rcfType.
Variable I : Type.

(** A table with [n] rows and [d] columns; index and labels of an array are empty. *)
Record mtable (n d : nat) := MTable { mkind : type; mindex : seq I; mnames : seq name; vals : 'M[R]_(n, d) }.

Definition svd_t := forall n d : nat, 'M[R]_(n, d) -> 'M[R]_(n, minn n d) * 'rV[R]_(minn n d) * 'M[R]_(minn n d, d).
Variable svd : svd_t.

(** Parameters of the object: [n_components] and [whiten]. *)
Variable n_components : option nat.
Variable whiten : bool.

(** *** scikit-learn: numbers *)

(** [np.mean(X, axis=0)] *)
Definition column_mean n d (X : 'M[R]_(n, d)) : 'rV[R]_d := (n%:R)^-1 *: \sum_(i < n) row i X.

(** [X - mean] with the mean repeated in every row. *)
Definition minus_mean n d (X : 'M[R]_(n, d)) (m : 'rV[R]_d) : 'M[R]_(n, d) := \matrix_(i, j) (X i j - m 0 j).

(** [svd_flip], u_based_decision: the entry of largest modulus (the first one) of every column of U
    becomes positive. *)
Definition flip_signs n q (U : 'M[R]_(n, q)) : 'rV[R]_q :=
  \row_j (if [pick i | [forall i', `|U i' j| <= `|U i j|]] is Some i then Num.sg (U i j) else 1).

(** [A[:k]] of a list of [q] rows or columns ([k <= q] is checked before). *)
Definition first_rows q k d (V : 'M[R]_(q, d)) : 'M[R]_(k, d) :=
  \matrix_(i, j) (if insub (val i) is Some i' then V i' j else 0).
Definition first_entries q k (s : 'rV[R]_q) : 'rV[R]_k :=
  \row_i (if insub (val i) is Some i' then s 0 i' else 0).

(** A fitted object: number of features and of components, [mean_], [components_],
    [explained_variance_]. *)
Record pca := Pca {
  dim : nat; n_comp : nat;
  mean_ : 'rV[R]_dim; components_ : 'M[R]_(n_comp, dim); explained_variance_ : 'rV[R]_n_comp }.

(** [PCA._fit], [PCA._fit_full]: the object, and U and S cut to the components. *)
Definition pca_fit n d (X : 'M[R]_(n, d)) : result (pca * {k & 'M[R]_(n, k) * 'rV[R]_k}%type) :=
  let k := if n_components is Some k then k else minn n d in
  if (minn n d < k)%N then Err ValueError else
  let m := column_mean X in
  let '(U, sv, V) := svd (minus_mean X m) in
  let sg := flip_signs U in
  let U := U *m diag_mx sg in
  let V := diag_mx sg *m V in
  let variance := \row_j (sv 0 j ^+ 2 / (n.-1)%:R) in
  Ok (Pca m (first_rows k V) (first_entries k variance),
      existT _ k ((first_rows k U^T)^T, first_entries k sv)).

(** The scale of every component: square root of the variance with [whiten]. *)
Definition scale_of k (v : 'rV[R]_k) : 'rV[R]_k := \row_j (if whiten then Num.sqrt (v 0 j) else 1).

(** [_BasePCA.transform] *)
Definition pca_transform (p : pca) m (X : 'M[R]_(m, dim p)) : 'M[R]_(m, n_comp p) :=
  let Y := minus_mean X (mean_ p) *m (components_ p)^T in
  \matrix_(i, j) (Y i j / scale_of (explained_variance_ p) 0 j).

(** [_BasePCA.inverse_transform] *)
Definition pca_inverse (p : pca) m (Z : 'M[R]_(m, n_comp p)) : 'M[R]_(m, dim p) :=
  let C := \matrix_(i, j) (scale_of (explained_variance_ p) 0 i * components_ p i j) in
  \matrix_(i, j) ((Z *m C) i j + mean_ p 0 j).

(** [PCA.fit_transform]: U scaled by the singular values, or by sqrt(n_samples - 1). *)
Definition pca_scores n k (US : 'M[R]_(n, k) * 'rV[R]_k) : 'M[R]_(n, k) :=
  \matrix_(i, j) (if whiten then US.1 i j * Num.sqrt (n.-1)%:R else US.1 i j * US.2 0 j).

(** *** feature names *)

Definition names_of (k : type) (names : seq name) : result (option (seq name)) :=
  if k is NumpyArray then Ok None
  else if all is_str names then Ok (Some names)
  else if has is_str names then Err TypeError
  else Ok None.

(** [_check_n_features], [_check_feature_names] with reset=False *)
Definition check_header (n_in : nat) (names_in : option (seq name)) (k : type) (names : seq name) (d : nat) : result unit :=
  if d != n_in then Err ValueError else
  bind (names_of k names) (fun xn =>
  match names_in, xn with
  | Some a, Some b => if names_equal a b then Ok tt else Err ValueError
  | _, _ => Ok tt
  end).

(** transform.py 416-418 [get_feature_names_out] *)
Definition pca_names (k : nat) : seq name := map (fun i => Str (String.append "pca" (str_of_nat i))) (iota 0 k).

(** *** the object *)

Record pstate := PState {
  fitted_ : option pca; p_n_in : option nat; p_names_in : option (seq name); p_n_out : option nat }.
Definition pinit : pstate := PState None None None None.

(** base.py 83-212 [_validate_datafold_data]: at least one row and one feature. *)
Definition p_validate n d (X : mtable n d) : result unit :=
  if (n == 0%N) || (d == 0%N) then (if mkind X is TimeSeries then Err TSCException else Err ValueError) else Ok tt.

(** base.py 316-355 [_same_type_X] *)
Definition p_same_type n d d' (X : mtable n d) (values : 'M[R]_(n, d')) (names : seq name) : result (mtable n d') :=
  if mkind X is NumpyArray then Ok (MTable NumpyArray [::] [::] values)
  else if size names != d' then Err ValueError
  else Ok (MTable (mkind X) (mindex X) names values).

(** [PCA._fit] sets number and names of the features anew; base.py 251-279
    [_setup_feature_attrs_fit] adds numbers as names for time series and sets the number of
    features out only if it is missing. *)
Definition p_setup (s : pstate) n d (X : mtable n d) (xn : option (seq name)) (p : pca) : pstate :=
  PState (Some p) (Some d)
         (if xn is Some a then Some a
          else if mkind X is TimeSeries then (if is_str (head (Num 0) (mnames X)) then None else Some (mnames X))
          else None)
         (if p_n_out s is Some k then Some k else Some (size (pca_names (n_comp p)))).

(** transform.py 420-445 [fit] *)
Definition p_fit (s : pstate) n d (X : mtable n d) : pstate * result unit :=
  match p_validate X with
  | Err e => (s, Err e)
  | Ok _ =>
      match names_of (mkind X) (mnames X) with
      | Err e => (s, Err e)
      | Ok xn =>
          match pca_fit (vals X) with
          | Err e => (PState (fitted_ s) (Some d) xn (p_n_out s), Err e)
          | Ok (p, _) => (p_setup s X xn p, Ok tt)
          end
      end
  end.

(** transform.py 471-493 [fit_transform] *)
Definition p_fit_transform (s : pstate) n d (X : mtable n d) : pstate * result {k & mtable n k} :=
  match p_validate X with
  | Err e => (s, Err e)
  | Ok _ =>
      match names_of (mkind X) (mnames X) with
      | Err e => (s, Err e)
      | Ok xn =>
          match pca_fit (vals X) with
          | Err e => (PState (fitted_ s) (Some d) xn (p_n_out s), Err e)
          | Ok (p, existT k US) =>
              (p_setup s X xn p,
               bind (p_same_type X (pca_scores US) (pca_names k)) (fun T => Ok (existT _ k T)))
          end
      end
  end.

(** transform.py 447-469 [transform] with base.py 281-287: the numbers of features agree after
    the check, the cast only tells Coq. *)
Definition p_transform (s : pstate) m d (X : mtable m d) : result {k & mtable m k} :=
  if fitted_ s is Some p then
    bind (p_validate X) (fun _ =>
    match p_n_in s, p_n_out s with
    | Some n, Some _ =>
        bind (check_header n (p_names_in s) (mkind X) (mnames X) d) (fun _ =>
        match d =P dim p with
        | ReflectT e =>
            bind (p_same_type X (pca_transform (castmx (erefl, e) (vals X))) (pca_names (n_comp p)))
                 (fun T => Ok (existT _ (n_comp p) T))
        | ReflectF _ => Err ValueError
        end)
    | _, _ => Err RuntimeError
    end)
  else Err AttributeError.

(** transform.py 495-515 [inverse_transform] with base.py 288-306; [feature_names_in_] is read for
    arrays, too. *)
Definition p_inverse (s : pstate) m k (Z : mtable m k) : result {d & mtable m d} :=
  match p_n_in s, p_n_out s with
  | Some _, Some n_out =>
      if n_out != k then Err ValueError else
      if fitted_ s is Some p then
        if (if mkind Z is NumpyArray then true else names_equal (pca_names (n_comp p)) (mnames Z)) then
          match k =P n_comp p with
          | ReflectT e =>
              if p_names_in s is Some a then
                bind (p_same_type Z (pca_inverse (castmx (erefl, e) (vals Z))) a) (fun T => Ok (existT _ (dim p) T))
              else Err AttributeError
          | ReflectF _ => Err ValueError
          end
        else Err ValueError
      else Err AttributeError
  | _, _ => Err RuntimeError
  end.

End Model.
