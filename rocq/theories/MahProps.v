(** * Theorems about the Mahalanobis kernel (C106). *)

From Coq Require Import List.
From mathcomp Require Import all_ssreflect all_algebra.
From Verif Require Import Np MahModel MahSpec MahProofs.
Import Order.Theory GRing.Theory Num.Theory.
Set Implicit Arguments.
Unset Strict Implicit.
Unset Printing Implicit Defensive.
Local Open Scope ring_scope.

(** C106: pairs of points for which both distances are stored get the Gaussian of the squared
    Mahalanobis distance, pairs without a stored distance zero, and pairs for which only one of the
    two distances is stored (nearest neighbours) half of the Gaussian. *)
Theorem C106_values :
  forall (R : rcfType) (m np nc n : nat) (X : nat -> 'rV[R]_m) V expf estimate eps D K D',
  shape D = (n, n) -> Psd n V ->
  evaluate np nc X V expf estimate (Some eps) D = Ok (K, D') ->
  forall i j, (i < n)%N -> (j < n)%N -> i <> j ->
  [/\ Stored D i j -> Stored D j i -> K i j = gauss expf eps (sq_distance X V i j),
      ~ Stored D i j -> ~ Stored D j i -> K i j = 0 &
      Stored D i j -> ~ Stored D j i -> K i j = gauss expf eps (sq_distance X V i j) / 2%:R].
Proof.
move=> R m np nc n X V expf est eps D K D' Hs HV /evaluate_ok [e [-> _ _ [HK _]]] i j Hi Hj Hij; split=> H1 H2; rewrite HK.
- rewrite !(raw_stored X expf eps HV) // 1?[sq_distance X V j i]sq_distance_sym ?half_twice //.
  by move=> E; apply: Hij.
- by rewrite !raw_not_stored // addr0 mulr0.
- by rewrite (raw_stored X expf eps HV) // raw_not_stored // addr0 mulrC.
Qed.
Print Assumptions C106_values.

(** C106: the kernel matrix is symmetric, also if the stored distances are not. *)
Theorem C106_symmetric :
  forall (R : rcfType) (m np nc : nat) (X : nat -> 'rV[R]_m) V expf estimate eps D K D',
  evaluate np nc X V expf estimate eps D = Ok (K, D') -> forall i j, K i j = K j i.
Proof.
by move=> R m np nc X V expf est eps D K D' /evaluate_ok [e [_ _ _ [HK _]]] i j; rewrite !HK addrC.
Qed.
Print Assumptions C106_symmetric.

(** C106: values lie between zero and one; a pair of stored distances has the value one exactly if
    the Mahalanobis distance is zero. *)
Theorem C106_range :
  forall (R : rcfType) (m np nc n : nat) (X : nat -> 'rV[R]_m) V expf estimate eps D K D',
  shape D = (n, n) -> Psd n V -> ExpLike expf -> 0 < eps ->
  evaluate np nc X V expf estimate (Some eps) D = Ok (K, D') ->
  forall i j, (i < n)%N -> (j < n)%N -> i <> j ->
  0 <= K i j <= 1 /\
  (Stored D i j -> Stored D j i -> (K i j = 1 <-> sq_distance X V i j = 0)).
Proof.
move=> R m np nc n X V expf est eps D K D' Hs HV [E0 Ep Ei] He H i j Hi Hj Hij.
have H2e : 0 < 2%:R * eps by apply: mulr_gt0; rewrite ?ltr0n.
have Hle d2 : 0 <= d2 -> gauss expf eps d2 <= 1.
  move=> Hd; rewrite /gauss -[X in _ <= X]E0; case: (eqVneq d2 0) => [->|Hd0]; first by rewrite oppr0 mul0r.
  apply/ltW/Ei; rewrite mulNr oppr_lt0; apply: (divr_gt0 _ H2e).
  by rewrite lt_def Hd0 Hd.
have Hg : 0 <= gauss expf eps (sq_distance X V i j) <= 1.
  by rewrite ltW ?Ep //= Hle // (sq_distance_ge0 _ HV).
have [V1 V2 V3] := C106_values Hs HV H Hi Hj Hij.
have Hji : j <> i by move=> E; apply: Hij.
have [_ _ V3'] := C106_values Hs HV H Hj Hi Hji.
have Hhalf : 0 <= gauss expf eps (sq_distance X V i j) / 2%:R <= 1.
  case/andP: Hg => G0 G1; rewrite divr_ge0 ?ler0n //= ler_pdivr_mulr ?ltr0n // mul1r.
  by rewrite (le_trans G1) // ler1n.
split.
  have Hdec i' j' : Stored D i' j' \/ ~ Stored D i' j'.
    case: (D) => [r c M|A] /=; first by case: (M i' j' =P 0); [right|left].
    by case: entry; [left|right].
  case: (Hdec i j) => S1; case: (Hdec j i) => S2.
  - by rewrite V1.
  - by rewrite V3.
  - by rewrite (C106_symmetric H) V3' // sq_distance_sym.
  - by rewrite V2 // lexx ler01.
move=> S1 S2; rewrite V1 // /gauss; split=> [E|->]; last by rewrite oppr0 mul0r.
apply/eqP; apply/negPn/negP => Hd; move: (E); rewrite -[RHS]E0; apply/eqP; rewrite lt_eqF //.
apply: Ei; rewrite mulNr oppr_lt0; apply: (divr_gt0 _ H2e).
by rewrite lt_def Hd (sq_distance_ge0 _ HV).
Qed.
Print Assumptions C106_range.

(** C106: with unit matrices it is the Gaussian kernel of the Euclidean distance. *)
Theorem C106_identity :
  forall (R : rcfType) (m np nc n : nat) (X : nat -> 'rV[R]_m) expf estimate eps D K D',
  shape D = (n, n) ->
  evaluate np nc X (fun _ => 1%:M) expf estimate (Some eps) D = Ok (K, D') ->
  forall i j, (i < n)%N -> (j < n)%N -> i <> j -> Stored D i j -> Stored D j i ->
  K i j = gauss expf eps (sq_euclidean (X i) (X j)).
Proof.
move=> R m np nc n X expf est eps D K D' Hs H i j Hi Hj Hij S1 S2.
have E (x : 'rV[R]_m) : form 1%:M x = \sum_a x 0 a ^+ 2.
  by rewrite -formE mulmx1 mxE; apply: eq_bigr => a _; rewrite mxE expr2.
have HV : Psd n (fun _ => 1%:M : 'M[R]_m).
  by move=> k x _; rewrite E; apply: sumr_ge0 => a _; apply: sqr_ge0.
have [-> // _ _] := C106_values Hs HV H Hi Hj Hij.
congr gauss; rewrite /sq_distance mulrC half_twice E /sq_euclidean.
by apply: eq_bigr => a _; rewrite !mxE.
Qed.
Print Assumptions C106_identity.

(** C106: if the *inverse* covariance matrices are passed, the kernel does not depend on the
    (linear) coordinates of the points. *)
Theorem C106_invariant :
  forall (R : rcfType) (m np nc n : nat) (X : nat -> 'rV[R]_m) (C : nat -> 'M[R]_m) T expf estimate eps D1 D2 K1 K2 D1' D2',
  shape D1 = (n, n) -> shape D2 = (n, n) -> (forall i j, Stored D1 i j <-> Stored D2 i j) ->
  T \in unitmx -> (forall i, (i < n)%N -> C i \in unitmx) -> Psd n (fun i => invmx (C i)) ->
  evaluate np nc X (fun i => invmx (C i)) expf estimate (Some eps) D1 = Ok (K1, D1') ->
  evaluate np nc (fun i => X i *m T) (fun i => invmx (T^T *m C i *m T)) expf estimate (Some eps) D2 = Ok (K2, D2') ->
  forall i j, (i < n)%N -> (j < n)%N -> i <> j -> K1 i j = K2 i j.
Proof.
move=> R m np nc n X C T expf est eps D1 D2 K1 K2 D1' D2' Hs1 Hs2 HS HT HC HV H1 H2 i j Hi Hj Hij.
have Einv k : (k < n)%N -> invmx (T^T *m C k *m T) = invmx T *m invmx (C k) *m (invmx T)^T.
  move=> Hk; have HT' : T^T \in unitmx by rewrite unitmx_tr.
  have HC' : T^T *m C k *m T \in unitmx by rewrite !unitmx_mul HT' HT HC.
  apply: (can_inj (mulKmx HC')); rewrite mulmxV // trmx_inv.
  by rewrite !mulmxA mulmxK // mulmxK ?HC // mulmxV.
have Ef k x : (k < n)%N -> form (invmx (T^T *m C k *m T)) (x *m T) = form (invmx (C k)) x.
  move=> Hk; rewrite Einv // -!formE trmx_mul !mulmxA mulmxK //; congr (_ 0 0).
  by rewrite -!mulmxA; congr (_ *m (_ *m _)); rewrite mulmxA -trmx_mul mulmxV // trmx1 mul1mx.
have HV2 : Psd n (fun k => invmx (T^T *m C k *m T)).
  by move=> k x Hk; rewrite -(mulmxKV HT x) Ef // HV.
have Ed : sq_distance (fun i => X i *m T) (fun i => invmx (T^T *m C i *m T)) i j = sq_distance X (fun i => invmx (C i)) i j.
  by rewrite /sq_distance -mulmxBl !Ef.
have [A1 A2 A3] := C106_values Hs1 HV H1 Hi Hj Hij; have [B1 B2 B3] := C106_values Hs2 HV2 H2 Hi Hj Hij.
have Hji : j <> i by move=> E; apply: Hij.
have [_ _ A3'] := C106_values Hs1 HV H1 Hj Hi Hji; have [_ _ B3'] := C106_values Hs2 HV2 H2 Hj Hi Hji.
have Hdec i' j' : Stored D1 i' j' \/ ~ Stored D1 i' j'.
  case: (D1) => [r c M|A] /=; first by case: (M i' j' =P 0); [right|left].
  by case: entry; [left|right].
case: (Hdec i j) => S1; case: (Hdec j i) => S2.
- by rewrite A1 // B1 ?Ed //; apply/HS.
- by rewrite A3 // B3 ?Ed //; [apply/HS|move=> /HS].
- rewrite (C106_symmetric H1) (C106_symmetric H2) A3' // B3' //; [|by apply/HS|by move=> /HS].
  by rewrite sq_distance_sym [in RHS]sq_distance_sym Ed.
- by rewrite A2 // B2 //; move=> /HS.
Qed.
Print Assumptions C106_invariant.

(** C106: refuted for the covariance matrices themselves, which is what the documentation asks for:
    measuring one quantity in other units changes the kernel value of two points. *)
Theorem C106_covariance_refuted :
  forall (R : rcfType) (expf : R -> R) estimate eps, ExpLike expf -> 0 < eps ->
  exists (X : nat -> 'rV[R]_1) (C : nat -> 'M[R]_1) (T : 'M[R]_1) D1 D2 K1 K2,
  [/\ T \in unitmx, Psd 2 C, (forall i j, (i < 2)%N -> (j < 2)%N -> i <> j -> Stored D1 i j /\ Stored D2 i j) &
      [/\ (exists D1', evaluate 2 2 X C expf estimate (Some eps) D1 = Ok (K1, D1')),
          (exists D2', evaluate 2 2 (fun i => X i *m T) (fun i => T^T *m C i *m T) expf estimate (Some eps) D2 = Ok (K2, D2')) &
          K2 0%N 1%N < K1 0%N 1%N]].
Proof.
move=> R expf est eps [E0 Ep Ei] He.
pose X (i : nat) : 'rV[R]_1 := const_mx i%:R.
pose D : dist_matrix R := Dense 2 2 (fun i j => if i == j then 0 else 1).
have Hstored i j : i <> j -> Stored D i j by move=> /= /eqP /negbTE ->; apply/eqP; rewrite oner_eq0.
have Hs : shape D = (2, 2)%N by [].
have Hacc : accesses_ok 2 2 (to_csr D) by apply/(accesses_square 2 2 Hs).
have [[K1 D1'] H1] := evaluate_square X (fun _ => 1%:M) expf est eps Hacc erefl.
have [[K2 D2'] H2] := evaluate_square (fun i => X i *m 2%:R%:M) (fun _ => (2%:R%:M)^T *m 1%:M *m 2%:R%:M) expf est eps Hacc erefl.
have F (a : R) (x : 'rV[R]_1) : form a%:M x = a * x 0 0 ^+ 2.
  by rewrite /form !big_ord1 mxE eqxx mulr1n mulrAC -expr2 mulrC.
have HP (a : R) : 0 <= a -> Psd 2 (fun _ => a%:M : 'M[R]_1).
  by move=> Ha i x _; rewrite F mulr_ge0 // sqr_ge0.
have Em : (2%:R%:M : 'M[R]_1)^T *m 1%:M *m 2%:R%:M = (4%:R)%:M.
  by rewrite tr_scalar_mx mulmx1 -scalar_mxM -natrM.
exists X, (fun _ => 1%:M), 2%:R%:M, D, D, K1, K2; split.
- by rewrite unitmxE det_scalar1 unitfE pnatr_eq0.
- exact: HP ler01.
- by move=> i j _ _ H; split; apply: Hstored.
- split; [by exists D1'|by exists D2'|].
  have S01 := @Hstored 0%N 1%N (fun H => ltac:(discriminate H)).
  have S10 := @Hstored 1%N 0%N (fun H => ltac:(discriminate H)).
  rewrite Em in H2.
  have [-> // _ _] := C106_values Hs (HP 1 ler01) H1 (i := 0%N) (j := 1%N) erefl erefl (fun H => ltac:(discriminate H)).
  have [-> // _ _] := C106_values Hs (HP _ (ler0n _ 4)) H2 (i := 0%N) (j := 1%N) erefl erefl (fun H => ltac:(discriminate H)).
  rewrite /gauss; apply: Ei; rewrite !mulNr ltr_opp2 ltr_pmul2r ?invr_gt0 ?mulr_gt0 ?ltr0n //.
  rewrite /sq_distance -mulmxBl !F ltr_pmul2r ?invr_gt0 ?ltr0n // mul_mx_scalar !mxE sub0r.
  by rewrite mulrN mulr1 !sqrrN -!natrX -!natrM -!natrD mul1r -natrD ltr_nat.
Qed.
Print Assumptions C106_covariance_refuted.

(** C106: the diagonal of the kernel is one if the distance matrix is sparse with stored self
    distances, as returned with a cut-off. *)
Theorem C106_diagonal_sparse :
  forall (R : rcfType) (m np nc : nat) (X : nat -> 'rV[R]_m) V expf estimate eps A K D',
  ExpLike expf -> evaluate np nc X V expf estimate (Some eps) (Sparse A) = Ok (K, D') ->
  forall i, entry A i i = Some 0 -> K i i = 1.
Proof.
move=> R m np nc X V expf est eps A K D' [E0 _ _] /evaluate_ok [e [-> _ _ [HK _]]] i Ei.
by rewrite HK /raw /= Ei eqxx expr0n mulr0 E0 half_twice.
Qed.
Print Assumptions C106_diagonal_sparse.

(** C106: refuted for dense distance matrices (no cut-off, the default): the diagonal of the kernel
    and the entries of duplicated points are zero instead of one. *)
Theorem C106_zero_distance_refuted :
  forall (R : rcfType) (m np nc : nat) (X : nat -> 'rV[R]_m) V expf estimate eps r c M K D',
  evaluate np nc X V expf estimate eps (Dense r c M) = Ok (K, D') ->
  forall i j, M i j = 0 -> M j i = 0 -> K i j = 0.
Proof.
move=> R m np nc X V expf est eps r c M K D' /evaluate_ok [e [_ _ _ [HK _]]] i j E1 E2.
by rewrite HK !raw_not_stored ?addr0 ?mulr0 //= => H; apply: H.
Qed.
Print Assumptions C106_zero_distance_refuted.

(** C106: with a given bandwidth the kernel is defined exactly for square distance matrices with at
    most as many rows as there are points and matrices. *)
Theorem C106_defined :
  forall (R : rcfType) (m np nc : nat) (X : nat -> 'rV[R]_m) V expf estimate eps D,
  (exists p, evaluate np nc X V expf estimate (Some eps) D = Ok p) <->
  [/\ (shape D).1 = (shape D).2, ((shape D).1 <= np)%N & ((shape D).1 <= nc)%N].
Proof.
move=> R m np nc X V expf est eps D; split.
  case=> -[K D'] /evaluate_ok [e [_ Ha Hs _]].
  have [] := proj1 (@accesses_square R np nc D (shape D).1 _) Ha; last by split.
  by rewrite [in RHS]Hs; case: (shape D) Hs => a b /= ->.
case=> Hs H1 H2; apply: evaluate_square => //.
apply/(@accesses_square R np nc D (shape D).1); last by [].
by case: (shape D) Hs => a b /= ->.
Qed.
Print Assumptions C106_defined.

(** C106: refuted for query points: with another number of queries than points the evaluation fails;
    with the same number the values off the diagonal are those of the training points, whatever the
    query points are. *)
Theorem C106_queries_refuted :
  forall (R : rcfType) (m n : nat) (X : nat -> 'rV[R]_m) V expf estimate eps,
  (forall r M, (r < n)%N -> evaluate n n X V expf estimate (Some eps) (Dense r n M) = Err ValueError) /\
  (forall r M, (n < r)%N -> evaluate n n X V expf estimate (Some eps) (Dense r n M) = Err IndexError) /\
  (forall M, Psd n V -> (forall i j, (i < n)%N -> (j < n)%N -> M i j != 0) ->
     exists K, evaluate n n X V expf estimate (Some eps) (Dense n n M) = Ok (K, Dense n n M) /\
       forall i j, (i < n)%N -> (j < n)%N -> i <> j -> K i j = gauss expf eps (sq_distance X V i j)).
Proof.
move=> R m n X V expf est eps; split; [|split].
- move=> r M Hr; apply: evaluate_shape => /=; last by move=> E; rewrite E ltnn in Hr.
  apply/all_iotaP => i /= Hi; rewrite (ltn_trans Hi Hr) /=.
  by apply/all_iotaP => j /= ->; rewrite orbT.
- move=> r M Hr; apply: evaluate_index; apply/negP => /all_iotaP /(_ n Hr).
  by rewrite ltnn.
- move=> M HV HM.
  have Hs : shape (Dense n n M) = (n, n) by [].
  have Hacc : accesses_ok n n (to_csr (Dense n n M)) by apply/(accesses_square n n Hs).
  have [[K D'] H] := evaluate_square X V expf est eps Hacc erefl.
  have [e [_ _ _ [_ ED]]] := evaluate_ok H; rewrite ED in H; exists K; split=> // i j Hi Hj Hij.
  have [HK _ _] := C106_values Hs HV H Hi Hj Hij.
  by apply: HK; [exact: (elimN eqP (HM i j Hi Hj))|exact: (elimN eqP (HM j i Hj Hi))].
Qed.
Print Assumptions C106_queries_refuted.

(** C106: refuted: a sparse distance matrix of the caller is overwritten with squared Mahalanobis
    distances (a dense one is left unchanged). *)
Theorem C106_input_overwritten_refuted :
  forall (R : rcfType) (m np nc n : nat) (X : nat -> 'rV[R]_m) V expf estimate eps D K D',
  shape D = (n, n) -> Psd n V ->
  evaluate np nc X V expf estimate eps D = Ok (K, D') ->
  match D with
  | Dense _ _ _ => D' = D
  | Sparse A => exists A', D' = Sparse A' /\
      forall i j v, (i < n)%N -> (j < n)%N -> i <> j -> entry A i j = Some v -> entry A' i j = Some (sq_distance X V i j)
  end.
Proof.
move=> R m np nc n X V expf est eps [r c M|A] K D' Hs HV /evaluate_ok [e [_ _ _ [_ ->]]] //.
eexists; split; first by [].
move=> i j v Hi Hj Hij /= ->; case: eqP => [E|_ /=]; first by case: Hij.
by rewrite (mahalanobis_sqr _ HV).
Qed.
Print Assumptions C106_input_overwritten_refuted.

(** C106: the matrices have to be passed, and nothing else. *)
Theorem C106_call_arguments :
  forall (R : rcfType) (m np nc : nat) (X : nat -> 'rV[R]_m) V expf estimate eps D,
  mahalanobis_call np nc X V expf estimate eps false false D = Err AssertionError /\
  (forall g, mahalanobis_call np nc X V expf estimate eps g true D = Err KeyError) /\
  (forall K, mahalanobis_call np nc X V expf estimate eps true false D = Ok K <->
     exists D', evaluate np nc X V expf estimate eps D = Ok (K, D')).
Proof.
move=> R m np nc X V expf est eps D; split=> //; split=> // K; rewrite /mahalanobis_call /=.
case: evaluate => [[K' D']|e] /=; last by split=> [|[]].
by split=> [[<-]|[D'' [-> _]]]; [exists D'|].
Qed.
Print Assumptions C106_call_arguments.

(** ** Cases that meet the hypotheses *)

(** A function as required, and three points in the plane with different matrices. *)
Example C106_example (R : rcfType)
  (expf := fun x : R => if 0 <= x then 1 + x else (1 - x)^-1)
  (X := fun i : nat => (\row_(a < 2) (i + a)%:R : 'rV[R]_2)) (V := fun i : nat => (i.+1%:R)%:M : 'M[R]_2)
  (A := Csr 3 3 (fun i j => if i == j then Some (0 : R) else Some 1)) :
  [/\ ExpLike expf, Psd 3 V, shape (Sparse A) = (3, 3)%N &
      exists K D', evaluate 3 3 X V expf (fun _ => Err ValueError) (Some 1) (Sparse A) = Ok (K, D') /\
                   K 0%N 0%N = 1 /\ K 0%N 2%N = 9%:R^-1].
Proof.
split.
- split=> [|x|x y Hxy]; rewrite /expf ?lexx ?addr0 //.
    by case: ifP => Hx; [rewrite ltr_paddr ?ltr01|rewrite invr_gt0 subr_gt0 (lt_trans _ ltr01) // ltNge Hx].
  case: (leP 0 x) => Hx; first by rewrite (le_trans Hx (ltW Hxy)) ltr_add2l.
  have H1 : 1 < 1 - x by rewrite ltr_addl oppr_gt0.
  case: (leP 0 y) => Hy.
    by rewrite (@lt_le_trans _ _ 1) ?ler_addl // invf_lt1 // (lt_trans ltr01).
  by rewrite ltf_pinv ?posrE ?(lt_trans ltr01) ?ltr_addl ?oppr_gt0 // ltr_add2l ltr_opp2.
- by move=> i x _; rewrite -formE mul_mx_scalar -scalemxAl mxE mulr_ge0 ?ler0n // mxE sumr_ge0 // => a _; rewrite mxE -expr2 sqr_ge0.
- by [].
have HV : Psd 3 V.
  by move=> i x _; rewrite -formE mul_mx_scalar -scalemxAl mxE mulr_ge0 ?ler0n // mxE sumr_ge0 // => a _; rewrite mxE -expr2 sqr_ge0.
have Hacc : accesses_ok 3 3 (to_csr (Sparse A)) by apply/(@accesses_square R 3 3 _ 3).
have [[K D'] H] := evaluate_square X V expf (fun _ => Err ValueError) 1 Hacc erefl.
exists K, D'; split=> //; split.
  have [e [-> _ _ [-> _]]] := evaluate_ok H.
  by rewrite /raw /= expr0n mulr0 /expf lexx addr0 half_twice.
have Hs : shape (Sparse A) = (3, 3)%N by [].
have [-> //= _ _] := C106_values Hs HV H (i := 0%N) (j := 2%N) erefl erefl (fun H => ltac:(discriminate H)).
have -> : sq_distance X V 0 2 = 16%:R.
  rewrite /sq_distance /form !big_ord_recl !big_ord0 !mxE /=.
  have E1 : (0 + 0)%:R - (2 + 0)%:R = - 2%:R :> R by rewrite sub0r.
  have E2 : (0 + bump 0 0)%:R - (2 + bump 0 0)%:R = - 2%:R :> R by rewrite /bump /= (natrD _ 2 1) opprD addrCA subrr addr0.
  rewrite !{}E1 !{}E2 !mulr1n !mulr0n !mulr0 !mul0r !addr0 !add0r !mulNr !mulrN !opprK !mulr1.
  rewrite -!natrM -!natrD.
  by apply: (canLR (mulfK _)); rewrite ?pnatr_eq0 // -natrM.
rewrite /gauss /expf mulr1.
have -> : - 16%:R / 2%:R = - 8%:R :> R by apply: (canLR (mulfK _)); rewrite ?pnatr_eq0 // mulNr -natrM.
by rewrite oppr_ge0 lern0 /= opprK -[1]/(1%:R) -natrD.
Qed.
