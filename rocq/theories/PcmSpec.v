(** * What a history of calls lets a user observe of PCManifold objects.

    Objects and kernels are numbered in the order of their creation.  Histories are given most
    recent call first ([rh]). *)

From Coq Require Import List ZArith Bool.
From Verif Require Import Np PcmModel.
Import ListNotations.
Local Open Scope nat_scope.

(** Numbers of objects and kernels. *)
Fixpoint n_objs (rh : list op) : nat :=
  match rh with
  | [] => 0
  | New true None _ :: h => S (n_objs h)
  | New true (Some k) _ :: h => if k <? n_kernels h then S (n_objs h) else n_objs h
  | (View p | Pickle p) :: h => if p <? n_objs h then S (n_objs h) else n_objs h
  | _ :: h => n_objs h
  end
with n_kernels (rh : list op) : nat :=
  match rh with
  | [] => 0
  | NewKernel _ :: h => S (n_kernels h)
  | New true None _ :: h => S (n_kernels h)
  | Pickle p :: h => if p <? n_objs h then S (n_kernels h) else n_kernels h
  | _ :: h => n_kernels h
  end.

(** The constructed (or unpickled) object of which [p] is a view, a view of a view, ... *)
Fixpoint owner (rh : list op) (p : nat) : nat :=
  match rh with
  | [] => p
  | View q :: h => if (q <? n_objs h) && (p =? n_objs h) then owner h q else owner h p
  | _ :: h => owner h p
  end.

(** The cut-off of [p]: infinity at construction, that of the original for views and pickled
    copies, and afterwards the last value accepted by any view of the same object. *)
Fixpoint expected_cut_off (rh : list op) (p : nat) : num :=
  match rh with
  | [] => PInf
  | (View q | Pickle q) :: h =>
      if (q <? n_objs h) && (p =? n_objs h) then expected_cut_off h q else expected_cut_off h p
  | New _ _ _ :: h => if p =? n_objs h then PInf else expected_cut_off h p
  | (SetCutOff q v | Optimize q v _ true) :: h =>
      if (q <? n_objs h) && negb (nonpositive v) && (owner h q =? owner h p) then v
      else expected_cut_off h p
  | _ :: h => expected_cut_off h p
  end.

(** The kernel of [p]. *)
Fixpoint kernel_of (rh : list op) (p : nat) : nat :=
  match rh with
  | [] => 0
  | New true (Some k) _ :: h => if (k <? n_kernels h) && (p =? n_objs h) then k else kernel_of h p
  | New true None _ :: h => if p =? n_objs h then n_kernels h else kernel_of h p
  | View q :: h => if (q <? n_objs h) && (p =? n_objs h) then kernel_of h q else kernel_of h p
  | Pickle q :: h => if (q <? n_objs h) && (p =? n_objs h) then n_kernels h else kernel_of h p
  | _ :: h => kernel_of h p
  end.

(** The parameter epsilon of kernel [k]. *)
Fixpoint expected_epsilon (rh : list op) (k : nat) : num :=
  match rh with
  | [] => NaN
  | NewKernel e :: h => if k =? n_kernels h then e else expected_epsilon h k
  | New true None _ :: h => if k =? n_kernels h then default_epsilon else expected_epsilon h k
  | Pickle q :: h => if (q <? n_objs h) && (k =? n_kernels h) then expected_epsilon h (kernel_of h q)
                     else expected_epsilon h k
  | SetEpsilon q e :: h => if (q <? n_objs h) && (kernel_of h q =? k) then e else expected_epsilon h k
  | Optimize q v e true :: h =>
      if (q <? n_objs h) && negb (nonpositive v) && (kernel_of h q =? k) then e else expected_epsilon h k
  | _ :: h => expected_epsilon h k
  end.
