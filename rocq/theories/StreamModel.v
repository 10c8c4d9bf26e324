(** * StreamingDMD: which snapshot pairs are processed, and the compression
    (dynfold/dmd.py 2056-2374).  Integer time values. *)

From Coq Require Import List ZArith Bool Arith.
From Verif Require Import Np TscModel.
Import ListNotations.
Open Scope Z_scope.

Section Pairs.
Context {V : Type}.
Notation frame := (list (row V)).

(** dmd.py 2287-2323 [partial_fit] with 2232-2245 [_separate_init_pairs] and 2198-2230
    [fit].  State: [dt_] of a fitted model.  Result: the new state and the list of
    snapshot pairs handed to the initialisation and to [_update], in this order.  The
    checks of feature names and of finite values are not modelled.  Shift matrices are
    those of the collection model. *)
Definition stream_partial_fit (k : tkind) (dt : option Z) (X : frame) : result (Z * list (V * V)) :=
  match dt with
  | None =>
      let X_init := firstn 2 X in
      let X_other := skipn 2 X in
      (* 2234: check_tsc(ensure_n_timeseries=1), which by default also demands constant
         sampling and no degenerate series *)
      if negb (n_timeseries X_init =? 1)%nat then Err TSCException
      else match check_const_time_delta k X_init with
      | Err e => Err e
      | Ok d =>
          (* 2236 *)
          match degenerate_ids X with
          | Some _ => Err ValueError
          | None =>
              match X_init with
              | [a; b] =>
                  match X_other with
                  | [] => Ok (d, [(rval a, rval b)])
                  | _ =>
                      if (length X_other <? 2)%nat then Err TSCException
                      else match shift_matrices k X_other with
                           | Err e => Err e
                           | Ok (L, R) => Ok (d, (rval a, rval b) :: combine L R)
                           end
                  end
              | _ => Err ValueError
              end
          end
      end
  | Some d =>
      (* 2297-2298; [_validate_delta_time] base.py 679-691 *)
      match delta_time k X with
      | Err e => Err e
      | Ok (DtSeries _) => Err NotImplementedError
      | Ok (DtScalar d') =>
          if match d' with Some x => negb (x =? d) | None => false end then Err TSCException
          else if (length X <? 2)%nat then Err TSCException
          else match shift_matrices k X with
               | Err e => Err e
               | Ok (L, R) => Ok (d, combine L R)
               end
      end
  end.
End Pairs.

(** dmd.py 2146-2175 [_pod_compression]: [idx = np.argsort(evals)[: max_rank]].  The
    directions are pairs of an eigenvalue (in any type with a comparison) and the rest. *)
Section Compression.
Context {K D : Type} (leb : K -> K -> bool).

Fixpoint insert_dir (x : K * D) (l : list (K * D)) : list (K * D) :=
  match l with
  | [] => [x]
  | y :: r => if leb (fst x) (fst y) then x :: l else y :: insert_dir x r
  end.

Definition argsort (l : list (K * D)) : list (K * D) := fold_right insert_dir [] l.

Definition compress (max_rank : option nat) (l : list (K * D)) : list (K * D) :=
  match max_rank with
  | None => l
  | Some r => if (r <? length l)%nat then firstn r (argsort l) else l
  end.

End Compression.
