(** * PCManifold objects and their attributes (proof-free).

    Source: datafold/pcfold/pointcloud.py (pointcloud.py).

    Python objects are addresses: a PCManifold holds the address of its dictionary
    [dist_kwargs] and of its kernel.  The point coordinates are not modelled, only whether the
    constructor accepts them.  Addresses are positions in the lists of objects, dictionaries and
    kernels (allocation appends). *)

From Coq Require Import List ZArith Bool String.
From Verif Require Import Np.
Import ListNotations.
Local Open Scope nat_scope.

(** Floats as far as the comparison with 0 is concerned. *)
Inductive num := Fin (z : Z) | PInf | NaN.
(** [cut_off <= 0] (False for nan). *)
Definition nonpositive (v : num) : bool :=
  match v with Fin z => (z <=? 0)%Z | _ => false end.

(** A dictionary of distance parameters: [None] is a missing key. *)
Record dict := Dict { d_cut_off : option num; d_kmin : option Z; d_backend : option string }.
Definition empty_dict := Dict None None None.
Definition setdefault {A} (o : option A) (a : A) : option A := match o with None => Some a | _ => o end.
(** pointcloud.py 108-110. *)
Definition set_defaults (d : dict) : dict :=
  Dict (setdefault (d_cut_off d) PInf) (setdefault (d_kmin d) 0%Z)
       (setdefault (d_backend d) "guess_optimal"%string).

Record pcm := Pcm { dist_kwargs : nat; kernel : nat }.

Record heap := Heap { objs : list pcm; dicts : list dict; kernels : list num }.
Definition empty_heap := Heap [] [] [].

Fixpoint update {A} (l : list A) (i : nat) (a : A) : list A :=
  match l, i with
  | [], _ => []
  | _ :: l', O => a :: l'
  | b :: l', S i' => b :: update l' i' a
  end.

(** The calls of a user.  [New ok k kw]: PCManifold(data, kernel=k, dist_kwargs=kw), [ok] tells
    whether the checks of the data pass.  [View]: pcm.view(), pcm[rows], pcm + 1, ...
    [Pickle]: pickle.loads(pickle.dumps(pcm)).  [Optimize]: optimize_parameters with the given
    estimates. *)
Inductive op :=
| NewKernel (epsilon : num)
| New (ok : bool) (k : option nat) (kw : option dict)
| View (p : nat)
| Pickle (p : nat)
| SetCutOff (p : nat) (v : num)
| SetEpsilon (p : nat) (v : num)
| Optimize (p : nat) (cut_off epsilon : num) (inplace : bool).

(** pointcloud.py 85-110 [__array_finalize__] with a plain array: fresh attributes. *)
Definition default_epsilon : num := Fin 1.

(** pointcloud.py 43-83 [__new__]: view casting gives a fresh dictionary with the defaults; the
    kernel is the given one or a new Gaussian kernel; the argument dist_kwargs is stored in the
    attribute [distance] only, which nothing reads. *)
Definition do_new (s : heap) (ok : bool) (k : option nat) (kw : option dict) : heap * result unit :=
  if negb ok then (s, Err ValueError)
  else
    let da := List.length (dicts s) in
    let ds := dicts s ++ [set_defaults empty_dict] in
    match k with
    | Some ka => if ka <? List.length (kernels s)
                 then (Heap (objs s ++ [Pcm da ka]) ds (kernels s), Ok tt)
                 else (s, Err NameError)
    | None => (Heap (objs s ++ [Pcm da (List.length (kernels s))]) ds (kernels s ++ [default_epsilon]), Ok tt)
    end.

(** pointcloud.py 103-110 with another PCManifold: kernel and dictionary are shared, missing
    defaults are set in the shared dictionary. *)
Definition do_view (s : heap) (p : nat) : heap * result unit :=
  match nth_error (objs s) p with
  | None => (s, Err NameError)
  | Some o =>
      let d := nth (dist_kwargs o) (dicts s) empty_dict in
      (Heap (objs s ++ [o]) (update (dicts s) (dist_kwargs o) (set_defaults d)) (kernels s), Ok tt)
  end.

(** pointcloud.py 124-149 [__reduce__], [__setstate__]: pickle copies dictionary and kernel. *)
Definition do_pickle (s : heap) (p : nat) : heap * result unit :=
  match nth_error (objs s) p with
  | None => (s, Err NameError)
  | Some o =>
      (Heap (objs s ++ [Pcm (List.length (dicts s)) (List.length (kernels s))])
            (dicts s ++ [nth (dist_kwargs o) (dicts s) empty_dict])
            (kernels s ++ [nth (kernel o) (kernels s) NaN]), Ok tt)
  end.

(** pointcloud.py 161-174: the setter of [cut_off]. *)
Definition do_set_cut_off (s : heap) (p : nat) (v : num) : heap * result unit :=
  match nth_error (objs s) p with
  | None => (s, Err NameError)
  | Some o =>
      if nonpositive v then (s, Err ValueError)
      else
        let d := nth (dist_kwargs o) (dicts s) empty_dict in
        (Heap (objs s) (update (dicts s) (dist_kwargs o) (Dict (Some v) (d_kmin d) (d_backend d)))
              (kernels s), Ok tt)
  end.

(** [pcm.kernel.epsilon = v]. *)
Definition do_set_epsilon (s : heap) (p : nat) (v : num) : heap * result unit :=
  match nth_error (objs s) p with
  | None => (s, Err NameError)
  | Some o => (Heap (objs s) (dicts s) (update (kernels s) (kernel o) v), Ok tt)
  end.

(** pointcloud.py 231-292 [optimize_parameters]. *)
Definition do_optimize (s : heap) (p : nat) (c e : num) (inplace : bool) : heap * result unit :=
  match nth_error (objs s) p with
  | None => (s, Err NameError)
  | Some _ =>
      if inplace then
        match do_set_cut_off s p c with
        | (s', Ok _) => do_set_epsilon s' p e
        | r => r
        end
      else (s, Ok tt)
  end.

Definition step (s : heap) (o : op) : heap * result unit :=
  match o with
  | NewKernel e => (Heap (objs s) (dicts s) (kernels s ++ [e]), Ok tt)
  | New ok k kw => do_new s ok k kw
  | View p => do_view s p
  | Pickle p => do_pickle s p
  | SetCutOff p v => do_set_cut_off s p v
  | SetEpsilon p v => do_set_epsilon s p v
  | Optimize p c e b => do_optimize s p c e b
  end.

Definition run (ops : list op) : heap := fold_left (fun s o => fst (step s o)) ops empty_heap.

(** pointcloud.py 151-159: the property [cut_off]; 176-201: compute_distance_matrix passes the
    dictionary. *)
Definition get_params (s : heap) (p : nat) : option dict :=
  option_map (fun o => nth (dist_kwargs o) (dicts s) empty_dict) (nth_error (objs s) p).
Definition get_cut_off (s : heap) (p : nat) : option num :=
  option_map (fun d => match d_cut_off d with Some v => v | None => PInf end) (get_params s p).
Definition get_epsilon (s : heap) (p : nat) : option num :=
  option_map (fun o => nth (kernel o) (kernels s) NaN) (nth_error (objs s) p).
