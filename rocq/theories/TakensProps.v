(** * Property C14: Takens embedding. *)

From Coq Require Import List ZArith Bool Arith Lia.
Import ListNotations.
From Verif Require Import Np TscModel TscSpec TscProofs TakensModel TakensSpec TakensProofs.
Close Scope Z_scope.
Open Scope nat_scope.

Notation rw i t v := (mkRow i%Z t%Z v) (only parsing).
Ltac valid := match goal with |- ValidRows ?F => apply (proj1 (tsc_ok F F)); reflexivity end.

(** [mul] is the multiplication of features, [decay j] = exp(-kappa j). *)
Theorem C14_embedding :
  forall (E : Type) (mul : E -> E -> E) k lag delays f decay nf (X F : list (row (list E))) T G,
    takens_fit k lag delays f decay nf X = Ok T -> Width nf F -> F <> [] ->
    takens_transform mul k T F = Ok G ->
    G = flat_map (fun i => embedded mul (Z.to_nat lag) (Z.to_nat delays) (Z.to_nat f) decay (rows_of F i)) (ids F).
Proof. exact @takens_transform_ok. Qed.
Print Assumptions C14_embedding.

Theorem C14_succeeds_when_long_enough :
  forall (E : Type) (mul : E -> E -> E) k lag delays f decay nf (X F : list (row (list E))) T,
    ValidRows F -> Width nf F -> takens_fit k lag delays f decay nf X = Ok T ->
    check_required_time_delta k F (tk_dt T) = Ok tt ->
    (forall i, Occurs F i -> lag + 1 + (delays - 1) * f + 1 <= Z.of_nat (length (rows_of F i)))%Z ->
    exists G, takens_transform mul k T F = Ok G.
Proof. exact @takens_transform_total. Qed.
Print Assumptions C14_succeeds_when_long_enough.

Theorem C14_too_short_rejected :
  forall (E : Type) (mul : E -> E -> E) k lag delays f decay nf (X F : list (row (list E))) T G,
    takens_fit k lag delays f decay nf X = Ok T -> F <> [] ->
    takens_transform mul k T F = Ok G ->
    (forall i, Occurs F i -> lag + 1 + (delays - 1) * f + 1 <= Z.of_nat (length (rows_of F i)))%Z.
Proof. exact @takens_short_rejected. Qed.
Print Assumptions C14_too_short_rejected.

Theorem C14_parameters :
  forall lag delays f, (exists p, takens_validate lag delays f = Ok p) <->
    (0 <= lag /\ 1 <= delays /\ 1 <= f /\ (f = 1 \/ 2 <= delays))%Z.
Proof. exact validate_iff. Qed.
Print Assumptions C14_parameters.

(** The value under the label "c:dN" is feature c of the sample N steps earlier. *)
Theorem C14_labels :
  forall (E : Type) (mul : E -> E -> E) lag delays f decay nf (s : list (row (list E))) t c j,
    1 <= f -> Width nf s -> t < length s -> c < nf -> 1 <= j <= delays ->
    lookup_label (takens_names nf (delay_indices lag delays f)) (embedded_at mul lag delays f decay s t)
       (LDelay c (lag + 1 + (j - 1) * f))
    = nth_error (scaled mul decay j (sample s (t - (lag + 1 + (j - 1) * f)))) c.
Proof. exact @takens_label. Qed.
Print Assumptions C14_labels.

Theorem C14_inverse_transform :
  forall (E : Type) (mul : E -> E -> E) k lag delays f decay nf (X F : list (row (list E))) T G,
    takens_fit k lag delays f decay nf X = Ok T -> Width nf F -> F <> [] ->
    takens_transform mul k T F = Ok G ->
    takens_inverse T G = flat_map (fun i => skipn (Z.to_nat (lag + 1 + (delays - 1) * f)) (rows_of F i)) (ids F).
Proof. exact @takens_round_trip. Qed.
Print Assumptions C14_inverse_transform.

(** IDs 3 and 1 (stored in this order), 5 and 4 samples, 2 features. *)
Definition ex_takens : list (row (list Z)) :=
  [rw 3 0 [10; 100]%Z; rw 3 1 [11; 101]%Z; rw 3 2 [12; 102]%Z; rw 3 3 [13; 103]%Z; rw 3 4 [14; 104]%Z;
   rw 1 0 [20; 200]%Z; rw 1 1 [21; 201]%Z; rw 1 2 [22; 202]%Z; rw 1 3 [23; 203]%Z].

Example C14_example :
  exists T, takens_fit KInt 0 2 2 (Some (fun j => Z.of_nat j)) 2 ex_takens = Ok T /\
  ValidRows ex_takens /\
  takens_transform Z.mul KInt T ex_takens =
  Ok [rw 1 3 [23; 203; 22; 202; 40; 400]%Z; rw 3 3 [13; 103; 12; 102; 20; 200]%Z; rw 3 4 [14; 104; 13; 103; 22; 202]%Z].
Proof. eexists. split; [reflexivity|]. split; [valid|reflexivity]. Qed.
