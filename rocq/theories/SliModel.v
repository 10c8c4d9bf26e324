(** * Model of indexing and slicing an EDMD model (proof-free).

    Source: datafold/appfold/edmd.py (cited as edmd.py); scikit-learn 1.2 [Pipeline] is its base class.

    Left out: memory, verbose, and fitted attributes (the steps are shared, not copied). *)

From Coq Require Import String.
From Coq Require Import List ZArith Bool Arith.
Import ListNotations.
From Verif Require Import Np.
Open Scope Z_scope.

Section Model.
Context {X : Type}.

(** One step: its name, whether it is a [TSCPredictMixin], and its [transform]. *)
Record step := mkStep { sname : string; predicts : bool; apply : X -> result X }.

(** edmd.py 309-312: the steps of the pipeline. *)
Definition steps_of (dict_steps : list step) (dmd : step) : list step := dict_steps ++ [dmd].

(** Python's [slice.indices] for step 1: negative numbers count from the end, then the bounds are clipped. *)
Definition bound (n : Z) (default : Z) (o : option Z) : Z :=
  match o with
  | None => default
  | Some k => if k <? 0 then Z.max 0 (k + n) else Z.min n k
  end.

(** [self.steps[start:stop]] *)
Definition py_slice {A} (start stop : option Z) (l : list A) : list A :=
  let n := Z.of_nat (List.length l) in
  let a := bound n 0 start in
  let b := bound n n stop in
  firstn (Z.to_nat (b - a)) (skipn (Z.to_nat a) l).

(** What indexing gives: the EDMD model, a scikit-learn pipeline of the steps, or one step. *)
Inductive item :=
| Itself
| Pipe (ss : list step)
| One (s : step).

(** edmd.py 1272-1291 [__getitem__] for a slice; [steps[-1]] of no steps is an IndexError. *)
Definition getslice (steps : list step) (start stop stride : option Z) : result item :=
  match stride with
  | None | Some 1 =>
      let ss := py_slice start stop steps in
      if Nat.eqb (List.length ss) (List.length steps) then Ok Itself
      else match rev ss with
           | [] => Err IndexError
           | s :: _ => if predicts s then Err ValueError else Ok (Pipe ss)
           end
  | _ => Err ValueError
  end.

(** edmd.py 1292-1293, scikit-learn's [__getitem__] for a number. *)
Definition getint (steps : list step) (i : Z) : result item :=
  let n := Z.of_nat (List.length steps) in
  if (- n <=? i) && (i <? n) then
    match nth_error steps (Z.to_nat (if i <? 0 then i + n else i)) with
    | Some s => Ok (One s)
    | None => Err IndexError
    end
  else Err IndexError.

(** edmd.py 1292-1293, scikit-learn's [named_steps]: a dict, so the last step of a name. *)
Definition getname (steps : list step) (name : string) : result item :=
  match find (fun s => String.eqb (sname s) name) (rev steps) with
  | Some s => Ok (One s)
  | None => Err KeyError
  end.

(** scikit-learn's [Pipeline.transform]: one step after the other. *)
Fixpoint pipe_transform (ss : list step) (x : X) : result X :=
  match ss with
  | [] => Ok x
  | s :: ss' => bind (apply s x) (pipe_transform ss')
  end.

End Model.
Arguments step : clear implicits.
Arguments item : clear implicits.
