(** * C95: the prediction and the score of EDMD models. *)

From Coq Require Import List ZArith Bool Arith Lia Sorted.
Import ListNotations.
From Verif Require Import Np TscModel TscSpec PredSpec ChkModel ChkSpec ReconModel ReconSpec CtrModel.
From Verif Require Import EdpModel EdpSpec EdpProofs.
Open Scope Z_scope.

(** Without control: valid initial conditions and a valid request are accepted, and every series is predicted from
    its own samples, at the evaluated times and by the time elapsed since its last sample. *)
Theorem C95_free :
  forall (V W S : Type) (finite : V -> bool) (n_features : nat) (order : list (row V) -> list Z)
    (enc : list V -> S) (flow : S -> Z -> S) (step : S -> W -> S) (out : S -> V)
    (m : edmd_fit) (F : list (row V)) (tv : option (list Z)) (r : Z) (ts : list Z),
  (1 <= n_features)%nat -> ValidRows F -> SmallSteps F -> ListsSeries F (order F) ->
  controlled m = false -> (1 <= n_samples_ic m)%nat -> 0 < dt m < 100000000000 ->
  InitialConditions finite F (n_samples_ic m) (dt m) -> Reference F r -> EvaluatedTimes r (dt m) tv ts ->
  exists R, edmd_predict finite n_features order enc flow step out m (XF F) UN tv = Ok R /\
    ValidRows R /\ Predicted enc flow out F r ts R.
Proof.
  intros V W S fin nf order enc flow step out m F tv r ts H0 H1 H2 H3 H4 H5 H6.
  exact (proj1 (predict_free fin nf order enc flow step out H0 m F tv H1 H2 H3 H4 H5 H6) r ts).
Qed.
Print Assumptions C95_free.

(** Nothing else is accepted. *)
Theorem C95_free_only :
  forall (V W S : Type) (finite : V -> bool) (n_features : nat) (order : list (row V) -> list Z)
    (enc : list V -> S) (flow : S -> Z -> S) (step : S -> W -> S) (out : S -> V)
    (m : edmd_fit) (F : list (row V)) (tv : option (list Z)) (R : list (row V)),
  (1 <= n_features)%nat -> ValidRows F -> SmallSteps F -> ListsSeries F (order F) ->
  controlled m = false -> (1 <= n_samples_ic m)%nat -> 0 < dt m < 100000000000 ->
  edmd_predict finite n_features order enc flow step out m (XF F) UN tv = Ok R ->
  InitialConditions finite F (n_samples_ic m) (dt m) /\
  exists r ts, Reference F r /\ EvaluatedTimes r (dt m) tv ts.
Proof.
  intros V W S fin nf order enc flow step out m F tv R H0 H1 H2 H3 H4 H5 H6.
  exact (proj2 (predict_free fin nf order enc flow step out H0 m F tv H1 H2 H3 H4 H5 H6) R).
Qed.
Print Assumptions C95_free_only.

(** With control: if the prediction is accepted, then the controls have common times and start at the last sample of the
    initial conditions, the evaluated times are those of the control and one more, and every series is driven
    by the control with its own ID. *)
Theorem C95_control :
  forall (V W S : Type) (finite : V -> bool) (n_features : nat) (order : list (row V) -> list Z)
    (enc : list V -> S) (flow : S -> Z -> S) (step : S -> W -> S) (out : S -> V)
    (m : edmd_fit) (F : list (row V)) (G : list (row W)) (tv : option (list Z)) (R : list (row V)),
  (1 <= n_features)%nat -> ValidRows F -> SmallSteps F -> ListsSeries F (order F) -> ValidRows G -> IdsSorted G ->
  controlled m = true -> use_transform_inverse m = false -> (1 <= n_samples_ic m)%nat -> 0 < dt m < 100000000000 ->
  edmd_predict finite n_features order enc flow step out m (XF F) (UF G) tv = Ok R ->
  InitialConditions finite F (n_samples_ic m) (dt m) /\
  exists r us, Reference F r /\ CommonTimes G (r :: us) /\ order F = ids G /\
    let ts := (r :: us) ++ [last (r :: us) 0 + dt m] in
    (tv = None \/ tv = Some ts) /\ ValidRows R /\ PredictedControl enc step out F G ts R.
Proof.
  intros V W S fin nf order enc flow step out m F G tv R H0.
  exact (predict_control fin nf order enc flow step out H0 m F G tv R).
Qed.
Print Assumptions C95_control.

(** It is accepted for sorted series with the same IDs as the controls and controls sampled with the interval of the model. *)
Theorem C95_control_accepts :
  forall (V W S : Type) (finite : V -> bool) (n_features : nat) (order : list (row V) -> list Z)
    (enc : list V -> S) (flow : S -> Z -> S) (step : S -> W -> S) (out : S -> V)
    (m : edmd_fit) (F : list (row V)) (G : list (row W)) (tv : option (list Z)) (r : Z) (k : nat),
  (1 <= n_features)%nat -> ValidRows F -> SmallSteps F -> IdsSorted F -> order F = ids F ->
  ValidRows G -> IdsSorted G -> ids F = ids G ->
  controlled m = true -> use_transform_inverse m = false -> (1 <= n_samples_ic m)%nat -> 0 < dt m < 100000000000 -> (1 <= k)%nat ->
  InitialConditions finite F (n_samples_ic m) (dt m) -> Reference F r -> CommonTimes G (equispaced r (dt m) k) ->
  tv = None \/ tv = Some (equispaced r (dt m) (k + 1)) ->
  exists R, edmd_predict finite n_features order enc flow step out m (XF F) (UF G) tv = Ok R.
Proof.
  intros V W S fin nf order enc flow step out m F G tv r k H0. rewrite Nat.add_1_r.
  exact (predict_control_ok fin nf order enc flow step out H0 m F G tv r k).
Qed.
Print Assumptions C95_control_accepts.

(** States given as an array are initial conditions at the first requested time (zero by default), numbered in order ... *)
Theorem C95_array :
  forall (V W S : Type) (finite : V -> bool) (n_features : nat) (order : list (row V) -> list Z)
    (enc : list V -> S) (flow : S -> Z -> S) (step : S -> W -> S) (out : S -> V)
    (m : edmd_fit) (l : list V) (tv : option (list Z)) (t0 : Z),
  (1 <= n_features)%nat -> l <> [] -> (forall x, In x l -> finite x = true) -> n_samples_ic m = 1%nat -> 0 <= t0 ->
  match tv with None => t0 = 0 | Some ts => hd_error ts = Some t0 end ->
  edmd_predict finite n_features order enc flow step out m (XA l) (UN (W := W)) tv =
  edmd_predict finite n_features order enc flow step out m (XF (states_at t0 l)) (UN (W := W)) tv.
Proof.
  intros V W S fin nf order enc flow step out m l tv t0 H0.
  exact (predict_array_states fin nf order enc flow step out H0 m l tv t0).
Qed.
Print Assumptions C95_array.

(** ... and cannot be used if the model needs several samples. *)
Theorem C95_array_samples :
  forall (V W S : Type) (finite : V -> bool) (n_features : nat) (order : list (row V) -> list Z)
    (enc : list V -> S) (flow : S -> Z -> S) (step : S -> W -> S) (out : S -> V)
    (m : edmd_fit) (l : list V) (U : uin W) (tv : option (list Z)) (R : list (row V)),
  (1 <= n_features)%nat -> (1 < n_samples_ic m)%nat ->
  edmd_predict finite n_features order enc flow step out m (XA l) U tv <> Ok R.
Proof.
  intros V W S fin nf order enc flow step out m l U tv R H0.
  exact (predict_array_short fin nf order enc flow step out H0 m l U tv R).
Qed.
Print Assumptions C95_array_samples.

(** Controls given as an array are those of the single series, sampled with the interval of the model from its last sample on. *)
Theorem C95_array_control :
  forall (V W S : Type) (finite : V -> bool) (n_features : nat) (order : list (row V) -> list Z)
    (enc : list V -> S) (flow : S -> Z -> S) (step : S -> W -> S) (out : S -> V)
    (m : edmd_fit) (F : list (row V)) (i : Z) (us : list W) (r : Z),
  (1 <= n_features)%nat -> ValidRows F -> (forall q, In q F -> rid q = i) -> Reference F r -> us <> [] -> 0 < dt m -> controlled m = true ->
  edmd_predict finite n_features order enc flow step out m (XF F) (UA us) None =
  edmd_predict finite n_features order enc flow step out m (XF F) (UF (sampled_from i r (dt m) us)) None.
Proof.
  intros V W S fin nf order enc flow step out m F i us r H0.
  exact (predict_array_control fin nf order enc flow step out H0 m F i us r).
Qed.
Print Assumptions C95_array_control.

(** A control input is given exactly for models with control. *)
Theorem C95_control_given :
  forall (V W S : Type) (finite : V -> bool) (n_features : nat) (order : list (row V) -> list Z)
    (enc : list V -> S) (flow : S -> Z -> S) (step : S -> W -> S) (out : S -> V)
    (m : edmd_fit) (X : xin V) (U : uin W) (tv : option (list Z)) (R : list (row V)),
  edmd_predict finite n_features order enc flow step out m X U tv = Ok R ->
  controlled m = match U with UN => false | _ => true end.
Proof. exact (@predict_control_flag). Qed.
Print Assumptions C95_control_given.

(** A model with control that maps back with the inverse transform of the dictionary cannot predict at all. *)
Theorem C95_inverse_control_refuted :
  forall (V W S : Type) (finite : V -> bool) (n_features : nat) (order : list (row V) -> list Z)
    (enc : list V -> S) (flow : S -> Z -> S) (step : S -> W -> S) (out : S -> V)
    (m : edmd_fit) (X : xin V) (U : uin W) (tv : option (list Z)) (R : list (row V)),
  controlled m = true -> use_transform_inverse m = true ->
  edmd_predict finite n_features order enc flow step out m X U tv <> Ok R.
Proof. exact (@predict_inverse_control). Qed.
Print Assumptions C95_inverse_control_refuted.

(** The score compares every sample from the n-th one on with the reconstruction of the same series at the same time. *)
Theorem C95_score :
  forall (V : Type) (pred : list V -> Z -> V) (F : list (row V)) (d : Z) (n : nat),
  ValidRows F -> IdsSorted F -> SmallSteps F -> (1 <= n)%nat ->
  (forall i, Occurs F i -> Regular F i d /\ (n < length (rows_of F i))%nat) ->
  LengthsAscending F ->
  edmd_score_data pred F n = Ok (samples_from F n, flat_map (reconstruction pred F n) (ids F)).
Proof. exact (@score_rows). Qed.
Print Assumptions C95_score.

(** Two series with two samples each and a model with one delay: the dictionary state is the pair of the samples. *)
Definition ex_F : list (row Z) := [mkRow 3 4 10; mkRow 3 6 11; mkRow 5 4 20; mkRow 5 6 25].
Definition ex_G : list (row Z) := [mkRow 3 6 100; mkRow 3 8 200; mkRow 5 6 1; mkRow 5 8 2].
Definition ex_enc (l : list Z) : Z * Z := (hd 0 l, last l 0).
Definition ex_flow (s : Z * Z) (t : Z) : Z * Z := (fst s + t, snd s + (snd s - fst s) * t).
Definition ex_step (s : Z * Z) (u : Z) : Z * Z := (snd s, snd s + u).
Definition ex_predict (c : bool) (X : xin Z) (U : uin Z) (tv : option (list Z)) :=
  edmd_predict (fun _ => true) 1 ids ex_enc ex_flow ex_step snd (EdmdFit c false (match X with XF _ => 2 | _ => 1 end) 2) X U tv.

Example C95_example :
  ex_predict false (XF ex_F) UN (Some [7; 9]) =
    Ok [mkRow 3 6 11; mkRow 3 7 12; mkRow 3 9 14; mkRow 5 6 25; mkRow 5 7 30; mkRow 5 9 40] /\
  ex_predict true (XF ex_F) (UF ex_G) None =
    Ok [mkRow 3 6 11; mkRow 3 8 111; mkRow 3 10 311; mkRow 5 6 25; mkRow 5 8 26; mkRow 5 10 28] /\
  ex_predict true (XF ex_F) (UA [1; 2]) None = Err NotImplementedError /\
  ex_predict true (XA [7]) (UA [1; 2]) None = Ok [mkRow 0 0 7; mkRow 0 2 8; mkRow 0 4 10] /\
  ex_predict true (XF ex_F) UN None = Err TypeError /\
  edmd_score_data (fun ic t => last ic 0 + t) [mkRow 1 0 5; mkRow 1 1 6; mkRow 1 2 9] 2 =
    Ok ([mkRow 1 1 6; mkRow 1 2 9], [mkRow 1 1 6; mkRow 1 2 7]).
Proof. vm_compute. repeat split; reflexivity. Qed.

(** The hypotheses of C95_free and C95_control_accepts hold for this example. *)
Example C95_hypotheses :
  ValidRows ex_F /\ ListsSeries ex_F (ids ex_F) /\ Reference ex_F 6 /\ EvaluatedTimes 6 2 (Some [7; 9]) [6; 7; 9] /\
  InitialConditions (fun _ => true) ex_F 2 2 /\ ValidRows ex_G /\ ids ex_F = ids ex_G /\ CommonTimes ex_G (equispaced 6 2 2).
Proof.
  assert (HF : tsc ex_F = Ok ex_F) by (vm_compute; reflexivity).
  assert (HG : tsc ex_G = Ok ex_G) by (vm_compute; reflexivity).
  apply TscProofs.tsc_ok in HF, HG. destruct HF as (HF & _), HG as (HG & _).
  assert (HO : forall i, Occurs ex_F i -> i = 3 \/ i = 5).
  { intros i (q & Hq & <-). cbn in Hq. repeat destruct Hq as [<-|Hq]; try destruct Hq; cbn; auto. }
  assert (HP : forall U, ex_predict false (XF ex_F) UN (Some [7; 9]) = Ok U ->
    InitialConditions (fun _ => true) ex_F 2 2).
  { intros U HU. refine (proj1 (proj2 (predict_free (W := Z) (fun _ => true) 1 ids ex_enc ex_flow ex_step snd (le_n 1)
       (EdmdFit false false 2 2) ex_F (Some [7; 9]) HF _ _ eq_refl _ _) U HU)); [|split| |]; try (cbn; lia).
    - intros a b (l & q & E) Eab. unfold ex_F in E. destruct l as [|x1 [|x2 [|x3 [|x4 l]]]]; cbn in E;
        repeat match type of E with _ :: _ = _ :: _ => injection E; clear E; intros E; intros; subst; cbn in * end; try discriminate; subst; cbn in *; try lia; try discriminate.
      all: try (destruct l; discriminate).
    - apply NpFacts.sorted_lt_NoDup, NpFacts.np_unique_sorted.
    - intros i. apply TscProofs.in_ids. }
  split; [exact HF|]. split; [split; [apply NpFacts.sorted_lt_NoDup, NpFacts.np_unique_sorted|intros i; apply TscProofs.in_ids]|].
  split.
  { intros i Hi. destruct (HO i Hi) as [-> | ->]; split.
    - exists (mkRow 3 6 11). cbn. auto.
    - intros q Hq _. cbn in Hq. repeat destruct Hq as [<-|Hq]; try destruct Hq; cbn; lia.
    - exists (mkRow 5 6 25). cbn. auto 6.
    - intros q Hq _. cbn in Hq. repeat destruct Hq as [<-|Hq]; try destruct Hq; cbn; lia. }
  split.
  { cbn. split; [discriminate|]. split; [repeat constructor|]. split; [intros t [<-|[<-|[]]]; lia|]. right. split; [intros [H|[H|[]]]; lia|reflexivity]. }
  split; [eapply HP; vm_compute; reflexivity|]. split; [exact HG|]. split; [reflexivity|].
  intros i (q & Hq & <-). cbn in Hq. repeat destruct Hq as [<-|Hq]; try destruct Hq; reflexivity.
Qed.
