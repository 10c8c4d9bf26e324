(** * Model of the full state in the EDMD dictionary (proof-free).

    Source: datafold/appfold/edmd.py 436-569, 668-688, 1021-1090, 1376-1419, 1421-1457 and
    1553-1586 (cited as edmd.py), datafold/utils/general.py 215-249.

    A table has named columns and rows labelled with (ID, time).

    Simplifications
    - feature names are integers; no control input, no [y], no dictionary learning;
    - the dictionary (all steps before the DMD model) is a function [dict] on tables,
      which does not change between calls; its [inverse_transform] is [undict];
    - [lstsq] stands for [scipy.linalg.lstsq] and the product with its result
      (edmd.py 487-506, see C56);
    - fitting the DMD model does not fail. *)

From Coq Require Import List ZArith Bool Arith.
Import ListNotations.
From Verif Require Import Np TscModel QoiModel.
Open Scope Z_scope.

Section Model.
Context {V : Type}.

Record table := mkTable { cols : list Z; rows : list ((Z * Z) * list V) }.

Definition keys (T : table) : list (Z * Z) := map fst (rows T).

Variable dict : table -> result table.
Variable undict : table -> result table.
Variable lstsq : table -> table -> list V -> list V.

(** Parameters of EDMD (edmd.py 275-296); [None] is "infer". *)
Record config := mkConfig {
  include_id_state : bool;
  preserves_setting : option bool;
  use_transform_inverse : bool
}.

(** [X.loc[index, :]] for a list of labels. *)
Definition loc_rows (T : table) (idx : list (Z * Z)) : result table :=
  bind (map_result (fun k => match find (fun r => pair_eqb (fst r) k) (rows T) with
                             | Some r => Ok r
                             | None => Err KeyError
                             end) idx) (fun rs => Ok (mkTable (cols T) rs)).

Fixpoint dup_names (l : list Z) : bool :=
  match l with
  | [] => false
  | x :: r => existsb (Z.eqb x) r || dup_names r
  end.

(** edmd.py 668-688 [_attach_id_state].  [pd.concat(axis=1)] of tables with the same
    labels; a duplicated column name is an error of class ValueError (pandas
    DuplicateLabelError or 675-684).  Tables with different labels but the same number
    of rows do not occur for datafold transformers; the model then fails. *)
Definition attach_id_state (X D : table) : result table :=
  bind (if (length (rows D) <? length (rows X))%nat then loc_rows X (keys D) else Ok X) (fun X =>
  if negb (length (rows X) =? length (rows D))%nat
     || negb (forallb (fun p => pair_eqb (fst p) (snd p)) (combine (keys X) (keys D)))
  then Err ValueError
  else if dup_names (cols X ++ cols D) then Err ValueError
  else Ok (mkTable (cols X ++ cols D)
                   (map (fun p => (fst (fst p), snd (fst p) ++ snd (snd p))) (combine (rows X) (rows D))))).

Inductive inverse := Pipeline | Project (idx : list nat) | Linear (f : list V -> list V).

Record model := mkModel { names_in : list Z; preserves : bool; inv : inverse; names_dict : list Z }.

(** edmd.py 456-472 [_set_dict_preserves_id_state]. *)
Definition set_preserves (cfg : config) (fin : list Z) (D : table) : bool :=
  match preserves_setting cfg with
  | None => forallb (fun f => zmem f (cols D)) fin
  | Some b => b
  end.

(** edmd.py 508-569 [_compute_inverse_map] (y is None) and 1072-1088 of [fit]:
    general.py 215-249 for the projection. *)
Definition compute_inverse (cfg : config) (fin : list Z) (pres : bool) (X D : table) : result inverse :=
  if use_transform_inverse cfg then Ok Pipeline
  else if include_id_state cfg || pres then
    let idx := project_indices (cols D) fin in
    if negb (length idx =? length fin)%nat then Err ValueError else Ok (Project idx)
  else bind (loc_rows X (keys D)) (fun T => Ok (Linear (lstsq T D))).

(** edmd.py 1021-1090 [fit]. *)
Definition edmd_fit (cfg : config) (X : table) : result model :=
  bind (dict X) (fun D =>
  let pres := set_preserves cfg (cols X) D in
  bind (if include_id_state cfg && negb pres then attach_id_state X D else Ok D) (fun D =>
  bind (compute_inverse cfg (cols X) pres X D) (fun i =>
  Ok (mkModel (cols X) pres i (cols D))))).

(** edmd.py 1376-1419, first call of [partial_fit]: 1379 stores the result of
    [_validate_dictionary], which is True (436-454). *)
Definition edmd_partial_fit (cfg : config) (X : table) : result model :=
  bind (dict X) (fun D =>
  let pres := true in
  bind (if include_id_state cfg && negb pres then attach_id_state X D
        else if negb (include_id_state cfg) && negb (negb pres) then Err NotImplementedError
        else Ok D) (fun D =>
  bind (compute_inverse cfg (cols X) pres X D) (fun i =>
  Ok (mkModel (cols X) pres i (cols D))))).

(** edmd.py 1421-1457 [transform]. *)
Definition edmd_transform (cfg : config) (m : model) (X : table) : result table :=
  bind (dict X) (fun D =>
  if include_id_state cfg && negb (preserves m) then attach_id_state X D else Ok D).

(** edmd.py 1553-1586 [inverse_transform]. *)
Definition edmd_inverse_transform (m : model) (D : table) : result table :=
  match inv m with
  | Project idx => Ok (mkTable (names_in m) (map (fun r => (fst r, take_idx idx (snd r))) (rows D)))
  | Linear f => Ok (mkTable (names_in m) (map (fun r => (fst r, f (snd r))) (rows D)))
  | Pipeline => undict D
  end.

End Model.
