(** * Property C103: choice and set-up of distance algorithms. *)

From Coq Require Import String List ZArith Bool Arith Lia.
From Verif Require Import Np NpFacts DistModel DistSpec DistProofs SelModel SelSpec SelProofs.
Import ListNotations.
Open Scope Z_scope.

(** With a positive cut-off, the default backend and the tree backends return for the Euclidean and
    squared Euclidean metric the matrix that stores exactly the pairs within the cut-off (given in
    Euclidean distance), and nothing raises for two or more reference points. *)
Theorem C103_cut_off :
  forall (P : Type) (eu other : P -> P -> Z) inv knn knn_others g a b m c (X : list P) Y options,
    Refers a b -> (b = Guess \/ ((b = KdTree \/ b = BallTree) /\ forall s, In s options -> ~ In s ["metric"; "cut_off"; "kmin"; "backend_options"]%string)) ->
    0 < c -> (2 <= List.length X)%nat ->
    exists rows,
      compute_distance_matrix eu other inv knn knn_others g X Y (Eu m) (Some c) None a options
      = Ok (Sparse (List.length X) rows) /\
      StoresExactly eu X (match Y with Some q => q | None => X end) (fun d => d <= c)
        (fun d => match m with Euclidean => d | SqEuclidean => d * d end) rows.
Proof.
  intros P eu other inv knn knn_others g a b m c X Y options Ha Hb Hc HX.
  assert (E : exists kd opts, init_distance_algorithm g a (Eu m) (Some c) None options = Ok (ATree kd m (Some c) None opts)).
  { unfold init_distance_algorithm. rewrite (get_backend_refers g a b Ha). cbn [bind].
    assert (Hneg : (c <? 0) = false) by (apply Z.ltb_ge; lia).
    assert (Hz : (c =? 0) = false) by (apply Z.eqb_neq; lia).
    destruct Hb as [-> |[Hb Ho]].
    - cbn -[Z.eqb Z.ltb Z.leb]. unfold init_guess, init_tree, check_range. rewrite Hz, Hneg. cbn. eauto.
    - assert (Hno : existsb (fun s => member s (filter (fun s => member s (signature b))
                ["metric"; "cut_off"; "kmin"; "backend_options"]%string)) options = false).
      { destruct (existsb _ options) eqn:E; [|reflexivity]. exfalso.
        apply existsb_exists in E as (s & Hs & E). unfold member in E at 1.
        apply existsb_exists in E as (t & Ht & E). apply String.eqb_eq in E. subst t.
        apply filter_In in Ht as [Ht _]. exact (Ho s Hs Ht). }
      destruct Hb as [-> | ->]; cbv zeta; cbn [filter member signature existsb String.eqb Ascii.eqb Bool.eqb orb] in Hno |- *; rewrite Hno; cbn -[Z.ltb]; unfold init_tree, check_range; rewrite Hneg; cbn; eauto. }
  destruct E as (kd & opts & E). unfold compute_distance_matrix. rewrite E. cbn [bind call option_map].
  destruct (tree_call eu knn m (Some c) None None X Y) as [st r] eqn:Et.
  assert (Hr : exists n rows, r = Ok (Sparse n rows)).
  { revert Et. unfold tree_call, set_cut_off.
    replace (c =? 0) with false by (symmetry; apply Z.eqb_neq; lia).
    replace (c <? 0) with false by (symmetry; apply Z.ltb_ge; lia).
    destruct (Nat.leb_spec (List.length X) 1); [lia|]. intros [= _ <-]. eauto. }
  destruct Hr as (n & rows & ->).
  destruct (tree_stores eu knn m c X Y st n rows Et) as (_ & -> & H). exists rows. split; [reflexivity|exact H].
Qed.
Print Assumptions C103_cut_off.

(** With [k] in addition, every row of the Euclidean matrix contains [k] nearest points. *)
Theorem C103_cut_off_and_k :
  forall (P : Type) (eu other : P -> P -> Z) inv knn knn_others g a b c k (X : list P) Y,
    (forall x y, 0 <= eu x y) -> (forall x y, eu x y = eu y x) -> (forall x, eu x x = 0) -> KnnOracle eu knn ->
    Refers a b -> (b = Guess \/ b = KdTree \/ b = BallTree) ->
    0 < c -> (2 <= List.length X)%nat -> 1 <= k <= Z.of_nat (List.length X) ->
    exists n rows,
      compute_distance_matrix eu other inv knn knn_others g X Y (Eu Euclidean) (Some c) (Some k) a []
      = Ok (Sparse n rows) /\
      HasNearest eu X (match Y with Some q => q | None => X end) (Z.to_nat k) (fun d => d) rows.
Proof.
  intros P eu other inv knn knn_others g a b c k X Y H1 H2 H3 Ho Ha Hb Hc HX Hk.
  assert (E : exists kd, init_distance_algorithm g a (Eu Euclidean) (Some c) (Some k) [] = Ok (ATree kd Euclidean (Some c) (Some k) [])).
  { unfold init_distance_algorithm. rewrite (get_backend_refers g a b Ha). cbn [bind].
    assert (Hneg : (c <? 0) = false) by (apply Z.ltb_ge; lia).
    assert (Hz : (c =? 0) = false) by (apply Z.eqb_neq; lia).
    assert (Hk0 : (k <=? 0) = false) by (apply Z.leb_gt; lia).
    destruct Hb as [-> |[-> | ->]]; cbn -[Z.eqb Z.ltb Z.leb]; unfold init_guess, init_tree, check_range, check_k; rewrite ?Hz, ?Hneg, ?Hk0; cbn; eauto. }
  destruct E as (kd & E). unfold compute_distance_matrix. rewrite E. cbn [bind call option_map].
  destruct (kmin_succeeds eu knn Euclidean c (Z.to_nat k) X Y Hc ltac:(lia) ltac:(lia) HX) as (st & n & rows & Et).
  rewrite Et. exists n, rows. split; [reflexivity|].
  exact (kmin_nearest eu H1 H2 H3 knn Ho c (Z.to_nat k) X Y st n rows Et ltac:(lia)).
Qed.
Print Assumptions C103_cut_off_and_k.

(** Without cut-off the default backend returns all values of the metric, of every metric, one row
    per query point; [k] is ignored as documented. *)
Theorem C103_dense :
  forall (P : Type) (eu other : P -> P -> Z) inv knn knn_others g a m k (X : list P) Y options,
    Refers a Guess -> (2 <= List.length X)%nat ->
    compute_distance_matrix eu other inv knn knn_others g X Y m None k a options
    = Ok (Dense (map (fun y => map (fun x => match m with
                                             | Eu Euclidean => eu x y
                                             | Eu SqEuclidean => eu x y * eu x y
                                             | Other => other x y
                                             end) X)
                     (match Y with Some q => q | None => X end))).
Proof.
  intros P eu other inv knn knn_others g a m k X Y options Ha HX.
  unfold compute_distance_matrix, init_distance_algorithm. rewrite (get_backend_refers g a Guess Ha).
  cbn. destruct m as [[|]|]; cbn; unfold brute_call; cbn; destruct (Nat.leb_spec (List.length X) 1); try lia; reflexivity.
Qed.
Print Assumptions C103_dense.

(** The nearest neighbour algorithm, as an object: exactly [k] entries per row, which are nearest
    points with their distance; in the pair-wise case the point itself is one of them. *)
Theorem C103_nearest_neighbours :
  forall (P : Type) (eu other : P -> P -> Z) inv knn knn_others m k options al (X : list P) Y n rows,
    (forall x y, 0 <= value eu other m x y) -> (forall x, value eu other m x x = 0) ->
    KnnOracle (value eu other m) knn -> OthersOracle (value eu other m) knn_others ->
    init_knn m k options = Ok al -> call eu other inv knn knn_others al X Y = Ok (Sparse n rows) ->
    n = List.length X /\
    HasNearest (value eu other m) X (match Y with Some q => q | None => X end) (Z.to_nat k) (fun d => d) rows /\
    Exactly (Z.to_nat k) rows.
Proof.
  intros P eu other inv knn knn_others m k options al X Y n rows Hp Hz Ho1 Ho2 Hi Hc.
  unfold init_knn, check_k in Hi. destruct (k <=? 0); [discriminate|]. cbn in Hi. injection Hi as <-.
  cbn [call] in Hc. destruct Y as [Y|].
  - apply (knn_query eu other knn knn_others m) in Hc; [|exact Ho1]. apply Hc.
  - apply (knn_pairwise eu other knn knn_others m) in Hc; [apply Hc|exact Hp|exact Hz|exact Ho2].
Qed.
Print Assumptions C103_nearest_neighbours.

(** But it cannot be obtained by name or class: [k] is handed on under another name and removed, so
    that every call raises TypeError. *)
Theorem C103_knn_backend_refuted :
  forall (P : Type) (eu other : P -> P -> Z) inv knn knn_others g a m c k (X : list P) Y options,
    Refers a Knn ->
    compute_distance_matrix eu other inv knn knn_others g X Y m c k a options = Err TypeError.
Proof.
  intros P eu other inv knn knn_others g a m c k X Y options Ha.
  unfold compute_distance_matrix, init_distance_algorithm. rewrite (get_backend_refers g a Knn Ha). cbn [bind].
  now destruct (existsb _ _).
Qed.
Print Assumptions C103_knn_backend_refuted.

(** [k] is silently ignored by the brute force backend, and by the default backend for metrics that
    are not Euclidean, also if there is a cut-off. *)
Theorem C103_k_ignored_refuted :
  forall (P : Type) (eu other : P -> P -> Z) inv knn knn_others g a m c k (X : list P) Y options,
    Refers a Brute \/ Refers a Guess /\ m = Other ->
    compute_distance_matrix eu other inv knn knn_others g X Y m c (Some k) a options
    = compute_distance_matrix eu other inv knn knn_others g X Y m c None a options.
Proof.
  intros P eu other inv knn knn_others g a m c k X Y options [Ha|[Ha ->]];
    unfold compute_distance_matrix, init_distance_algorithm.
  - rewrite (get_backend_refers g a Brute Ha). reflexivity.
  - rewrite (get_backend_refers g a Guess Ha). reflexivity.
Qed.
Print Assumptions C103_k_ignored_refuted.

(** So fewer than [k] neighbours may be stored. *)
Theorem C103_k_not_guaranteed_refuted :
  exists rows,
    compute_distance_matrix (fun x y => Z.abs (x - y)) (fun x y => Z.abs (x - y)) (-999) (fun _ _ _ => []) (fun _ _ _ => [])
      None [0; 10; 11] None (Eu Euclidean) (Some 5) (Some 2) (Name "brute") [] = Ok (Sparse 3 rows) /\
    nth_error rows 0 = Some [(0%nat, 0)].
Proof. eexists. split; vm_compute; reflexivity. Qed.
Print Assumptions C103_k_not_guaranteed_refuted.

(** The default backend drops all further options without a message (so also a misspelled [kmin]). *)
Theorem C103_options_dropped_refuted :
  forall (P : Type) (eu other : P -> P -> Z) inv knn knn_others g a m c k (X : list P) Y options,
    Refers a Guess ->
    compute_distance_matrix eu other inv knn knn_others g X Y m c k a options
    = compute_distance_matrix eu other inv knn knn_others g X Y m c k a [].
Proof.
  intros P eu other inv knn knn_others g a m c k X Y options Ha.
  unfold compute_distance_matrix, init_distance_algorithm. rewrite (get_backend_refers g a Guess Ha). reflexivity.
Qed.
Print Assumptions C103_options_dropped_refuted.

(** Other backends get all options; [kmin] as an option of a tree backend is a TypeError. *)
Theorem C103_options_kept :
  forall g a b m c k options al,
    Refers a b -> b <> Guess -> init_distance_algorithm g a m c k options = Ok al ->
    match al with
    | ABrute m' c' o => b = Brute /\ m' = m /\ c' = c /\ forall s, s <> "exact_numeric"%string -> (In s o <-> In s options)
    | ATree kd m' c' k' o => (if kd then b = KdTree else b = BallTree) /\ m = Eu m' /\ c' = c /\ k' = k /\ o = options /\
                             ~ In "kmin"%string options
    | AKnn _ _ _ => False
    end.
Proof.
  intros g a b m c k options al Ha Hb. unfold init_distance_algorithm. rewrite (get_backend_refers g a b Ha).
  cbn [bind]. destruct (existsb _ _) eqn:E; [discriminate|].
  destruct b; try congruence; cbn -[check_range check_k].
  - unfold init_brute. destruct (check_range c None); [|discriminate]. cbn [bind]. intros [= <-]. repeat split.
    + intros H0. apply filter_In in H0. apply H0.
    + intros H0. apply filter_In. split; [exact H0|]. apply negb_true_iff, String.eqb_neq. assumption.
  - unfold init_tree. destruct m as [m|]; [|discriminate]. destruct (check_range c k); [|discriminate].
    cbn [bind]. destruct (check_k k); [|discriminate]. intros [= <-]. repeat split.
    intros Hk. assert (G : existsb (fun s => member s (filter (fun s => member s (signature KdTree)) ["metric"; "cut_off"; "kmin"; "backend_options"]%string)) options = true).
    { apply existsb_exists. exists "kmin"%string. split; [exact Hk|reflexivity]. } discriminate (eq_trans (eq_sym E) G).
  - unfold init_tree. destruct m as [m|]; [|discriminate]. destruct (check_range c k); [|discriminate].
    cbn [bind]. destruct (check_k k); [|discriminate]. intros [= <-]. repeat split.
    intros Hk. assert (G : existsb (fun s => member s (filter (fun s => member s (signature BallTree)) ["metric"; "cut_off"; "kmin"; "backend_options"]%string)) options = true).
    { apply existsb_exists. exists "kmin"%string. split; [exact Hk|reflexivity]. } discriminate (eq_trans (eq_sym E) G).
Qed.
Print Assumptions C103_options_kept.

(** A backend is found exactly if it is named by its class or its name. *)
Theorem C103_backend :
  forall g a, (exists b, get_backend g a false = Ok b) <-> exists b, Refers a b.
Proof.
  intros g a. split; intros [b H]; exists b; [now apply (get_backend_known g)|now apply get_backend_refers].
Qed.
Print Assumptions C103_backend.

(** The list of symmetric backends depends on what was done before: it raises until the default
    backend was used once; then it holds all backends but the nearest neighbour one. *)
Theorem C103_symmetric_backends_history_refuted :
  forall a b, Refers a b ->
    get_backend None a true = Err NotImplementedError /\
    forall d, Refers d Guess ->
      get_backend (after_init None d) a true = match b with Knn => Err ValueError | _ => Ok b end.
Proof.
  intros a b Ha. split.
  - destruct Ha as [-> | ->]; reflexivity.
  - intros d Hd. unfold after_init. rewrite (get_backend_refers None d Guess Hd).
    destruct Ha as [-> | ->]; destruct b; reflexivity.
Qed.
Print Assumptions C103_symmetric_backends_history_refuted.

Example C103_example :
  compute_distance_matrix (fun x y => Z.abs (x - y)) (fun x y => Z.abs (x - y)) (-999) (fun _ _ _ => []) (fun _ _ _ => [])
    None [0; 2; 7] None (Eu SqEuclidean) (Some 5) None (Name "guess_optimal") ["anything"%string]
  = Ok (Sparse 3 [[(0%nat, 0); (1%nat, 4)]; [(0%nat, 4); (1%nat, 0); (2%nat, 25)]; [(1%nat, 25); (2%nat, 0)]]).
Proof. vm_compute. reflexivity. Qed.

(** The assumptions about the neighbour searches can be met, and a call. *)
Definition dist (x y : Z) : Z := Z.abs (x - y).
Example C103_nearest_example :
  KnnOracle dist (sorted_knn dist 0) /\ OthersOracle dist (sorted_others dist 0) /\
  init_knn (Eu Euclidean) 2 [] = Ok (AKnn (Eu Euclidean) 2 []) /\
  call dist dist (-999) (sorted_knn dist 0) (sorted_others dist 0) (AKnn (Eu Euclidean) 2 []) [0; 2; 7] None
  = Ok (Sparse 3 [[(0%nat, 0); (1%nat, 2)]; [(0%nat, 2); (1%nat, 0)]; [(1%nat, 5); (2%nat, 0)]]).
Proof.
  split; [apply sorted_knn_oracle|]. split; [apply sorted_others_oracle|]. split; vm_compute; reflexivity.
Qed.
