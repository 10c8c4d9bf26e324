(** * C32, C33, C34: distance matrices. *)

From Coq Require Import List ZArith Arith Lia.
From Verif Require Import Np DistModel DistSpec DistProofs.
Import ListNotations.
Open Scope Z_scope.

(** A concrete distance and nearest neighbour query, for the examples: points on a line. *)
Definition line (x y : Z) : Z := Z.abs (x - y).

Definition line_knn : list Z -> Z -> nat -> list nat := sorted_knn line 0.

(** ** C32: the brute-force backend with a finite cut-off stores exactly the pairs whose
    distance is smaller than the cut-off, zero distances included, with the value of the
    metric (the cut-off is a Euclidean distance for both metrics). *)
Theorem C32_brute_force :
  forall (P : Type) (eu : P -> P -> Z) (marker : Z) m c (X : list P) Y n rows,
  (forall x y, 0 <= eu x y) -> marker < 0 ->
  brute_call eu marker m (Some c) X Y = Ok (Sparse n rows) ->
  0 < c /\ n = length X /\
  StoresExactly eu X (match Y with Some q => q | None => X end) (fun d => d < c)
    (fun d => match m with Euclidean => d | SqEuclidean => d * d end) rows.
Proof. intros P eu marker m c X Y n rows H1 H2 H. exact (brute_stores eu H1 marker m c X Y n rows H2 H). Qed.
Print Assumptions C32_brute_force.

(** The tree backends store those whose distance is at most the cut-off. *)
Theorem C32_trees :
  forall (P : Type) (eu : P -> P -> Z) knn m c (X : list P) Y st n rows,
  tree_call eu knn m (Some c) None None X Y = (st, Ok (Sparse n rows)) ->
  0 < c /\ n = length X /\
  StoresExactly eu X (match Y with Some q => q | None => X end) (fun d => d <= c)
    (fun d => match m with Euclidean => d | SqEuclidean => d * d end) rows.
Proof. intros P eu knn m c X Y st n rows H. exact (tree_stores eu knn m c X Y st n rows H). Qed.
Print Assumptions C32_trees.

Example C32_example :
  brute_call line (-999) SqEuclidean (Some 3) [0; 2; 2; 5] None
  = Ok (Sparse 4 [[(0%nat, 0); (1%nat, 4); (2%nat, 4)];
                  [(0%nat, 4); (1%nat, 0); (2%nat, 0)];
                  [(0%nat, 4); (1%nat, 0); (2%nat, 0)];
                  [(3%nat, 0)]]).
Proof. reflexivity. Qed.

(** The backends do not agree on pairs at exactly the cut-off. *)
Theorem C32_backends_agree_refuted :
  exists (X : list Z) c rb st rt,
    brute_call line (-999) Euclidean (Some c) X None = Ok (Sparse (length X) rb) /\
    tree_call line line_knn Euclidean (Some c) None None X None = (st, Ok (Sparse (length X) rt)) /\
    rb = [[(0%nat, 0)]; [(1%nat, 0)]] /\ rt = [[(0%nat, 0); (1%nat, 3)]; [(0%nat, 3); (1%nat, 0)]].
Proof. exists [0; 3], 3. do 3 eexists. repeat split; reflexivity. Qed.
Print Assumptions C32_backends_agree_refuted.

(** A cut-off of zero is accepted and means no cut-off. *)
Theorem C32_zero_cut_off :
  forall (P : Type) (eu : P -> P -> Z) marker m (X : list P) Y,
  brute_call eu marker m (Some 0) X Y = brute_call eu marker m None X Y.
Proof. reflexivity. Qed.
Print Assumptions C32_zero_cut_off.

(** ** C33: with kmin, every row of the matrix for the Euclidean metric contains k nearest
    reference points with their true distance, and all stored values are true distances. *)
Theorem C33_k_nearest_stored :
  forall (P : Type) (eu : P -> P -> Z) knn c k (X : list P) Y st n rows,
  (forall x y, 0 <= eu x y) -> (forall x y, eu x y = eu y x) -> (forall x, eu x x = 0) ->
  KnnOracle eu knn -> (k <= length X)%nat ->
  tree_call eu knn Euclidean (Some c) (Some k) None X Y = (st, Ok (Sparse n rows)) ->
  HasNearest eu X (match Y with Some q => q | None => X end) k (fun d => d) rows.
Proof.
  intros P eu knn c k X Y st n rows H1 H2 H3 H4 Hk H.
  exact (kmin_nearest eu H1 H2 H3 knn H4 c k X Y st n rows H Hk).
Qed.
Print Assumptions C33_k_nearest_stored.

(** The call succeeds if there are at least k reference points. *)
Theorem C33_succeeds :
  forall (P : Type) (eu : P -> P -> Z) knn m c k (X : list P) Y,
  0 < c -> (1 <= k)%nat -> (k <= length X)%nat -> (2 <= length X)%nat ->
  exists st n rows, tree_call eu knn m (Some c) (Some k) None X Y = (st, Ok (Sparse n rows)).
Proof. exact (@kmin_succeeds). Qed.
Print Assumptions C33_succeeds.

Example C33_oracle_exists : KnnOracle line line_knn.
Proof. exact (sorted_knn_oracle line 0). Qed.

Example C33_example :
  snd (tree_call line line_knn Euclidean (Some 2) (Some 3%nat) None [0; 1; 7; 9; 20] None)
  = Ok
         (Sparse 5
            [[(0%nat, 0); (1%nat, 1); (2%nat, 7)];
             [(0%nat, 1); (1%nat, 0); (2%nat, 6); (3%nat, 8)];
             [(0%nat, 7); (1%nat, 6); (2%nat, 0); (3%nat, 2); (4%nat, 13)];
             [(1%nat, 8); (2%nat, 2); (3%nat, 0); (4%nat, 11)];
             [(2%nat, 13); (3%nat, 11); (4%nat, 0)]]).
Proof. reflexivity. Qed.

(** For the squared Euclidean metric the inserted values are not squared. *)
Theorem C33_squared_metric_refuted :
  exists (X : list Z) c k st n rows,
    tree_call line line_knn SqEuclidean (Some c) (Some k) None X None = (st, Ok (Sparse n rows)) /\
    In (1%nat, 5) (row_of rows 0) /\ nth_error X 0 = Some 0 /\ nth_error X 1 = Some 5.
Proof. exists [0; 5], 1, 2%nat. do 3 eexists. split; [reflexivity|]. cbn. auto. Qed.
Print Assumptions C33_squared_metric_refuted.

(** With an infinite cut-off, kmin larger than one makes every call fail. *)
Theorem C33_infinite_cut_off_fails :
  forall (P : Type) (eu : P -> P -> Z) knn m k st (X : list P) Y,
  (2 <= k)%nat -> (2 <= length X)%nat ->
  snd (tree_call eu knn m None (Some k) st X Y) = Err AttributeError.
Proof.
  intros P eu knn m k st X Y Hk HX. unfold tree_call, set_cut_off.
  destruct (Nat.eqb_spec k 0); [lia|]. destruct (Nat.leb_spec (length X) 1); [lia|].
  destruct Y; [destruct (Nat.ltb_spec 0 k); [reflexivity|lia]|destruct (Nat.ltb_spec 1 k); [reflexivity|lia]].
Qed.
Print Assumptions C33_infinite_cut_off_fails.

(** ** C34: pair-wise calls do not depend on earlier calls of the same object. *)
Theorem C34_pairwise_independent_of_history :
  forall (P : Type) (eu : P -> P -> Z) knn m c k st (X : list P),
  snd (tree_call eu knn m c k st X None) = snd (tree_call eu knn m c k None X None).
Proof. exact (@pairwise_independent). Qed.
Print Assumptions C34_pairwise_independent_of_history.

(** A component-wise call after any history returns the distances to the reference points of
    the last pair-wise call (or of the first call), whatever reference points it is given. *)
Theorem C34_componentwise_reference :
  forall (P : Type) (eu : P -> P -> Z) knn m c calls (R X Y : list P),
  (forall X' Y', In (X', Y') calls -> (2 <= length X')%nat) -> (2 <= length X)%nat ->
  ReferenceOf calls R ->
  last (tree_calls eu knn m c None None (calls ++ [(X, Some Y)])) (Err IndexError)
  = snd (tree_call eu knn m c None None R (Some Y)).
Proof. exact (@cdist_uses_reference). Qed.
Print Assumptions C34_componentwise_reference.

(** So it is right exactly when it is given the reference points of that call. *)
Theorem C34_same_reference_correct :
  forall (P : Type) (eu : P -> P -> Z) knn m c k calls (X Y : list P),
  match k with Some n => (1 <= n)%nat | None => True end ->
  (forall X' Y', In (X', Y') calls -> (2 <= length X')%nat) -> ReferenceOf calls X ->
  last (tree_calls eu knn m c k None (calls ++ [(X, Some Y)])) (Err IndexError)
  = snd (tree_call eu knn m c k None X (Some Y)).
Proof. exact (@cdist_same_reference). Qed.
Print Assumptions C34_same_reference_correct.

Example C34_example :
  ReferenceOf [([1; 2], Some [3]); ([4; 5], None); ([6; 7], Some [8])] [4; 5].
Proof.
  exists [([1; 2], Some [3])], None, [([6; 7], Some [8])]. split; [reflexivity|].
  split; [left; reflexivity|]. intros c [<-|[]]. discriminate.
Qed.

(** A call with other reference points returns distances to the old ones. *)
Theorem C34_other_reference_refuted :
  exists (X1 X2 Y : list Z) m c,
    last (tree_calls line line_knn m c None None [(X1, None); (X2, Some Y)]) (Err IndexError)
      = Ok (Dense [[1; 2]]) /\
    snd (tree_call line line_knn m c None None X2 (Some Y)) = Ok (Dense [[10; 20]]) .
Proof. exists [1; 2], [10; 20], [0], Euclidean, None. split; reflexivity. Qed.
Print Assumptions C34_other_reference_refuted.
