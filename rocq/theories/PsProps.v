(** * Property C101: the pseudospectrum of [DMDStandard]. *)

From mathcomp Require Import all_ssreflect all_algebra.
From Verif Require Import LinModel LinSpec ResModel ResSpec ResProofs PsModel PsSpec PsHerm PsProofs PsExample.
Import Order.Theory GRing.Theory Num.Theory.
Set Implicit Arguments.
Unset Strict Implicit.
Unset Printing Implicit Defensive.
Local Open Scope ring_scope.

(** After [DMDStandard(residual_filter=..., compute_pseudospectrum=True).fit(X)] the call
    [pseudospectrum(grid)] returns for each grid point z the square root of the minimum over all
    linear observables v of (sum_i w_i |v.y_i - z v.x_i|^2) / (sum_i w_i |v.x_i|^2 + shift |v|^2), with
    shift = regparam times the norm of the Gram matrix. *)
Theorem C101_minimal_residual :
  forall (C : numClosedFieldType) n eigh eigs s N (w : option 'rV[C]_s) (X Y : 'M[C]_(s, n.+1)) reg grid,
    let G := full_gram N w X X in
    let SQ := sq_matrix eigh G reg in
    let B z := SQ *m numerator G (full_gram N w X Y) (full_gram N w Y Y) z *m SQ in
    let shift := frobenius G * reg in
    RealData X -> RealData Y -> (forall i, 0 <= Weights N w 0 i) ->
    PositiveMass (Weights N w) X shift ->
    EighOf (g_adapt G reg) (eigh (g_adapt G reg)) ->
    (forall z, List.In z grid -> EigsOf (B z) (eigs (B z))) ->
    exists l, pseudospectrum eigh eigs true (fit_full_stored N w true true true X Y) reg grid = Value l /\
      List.Forall2 (fun z o => exists r, o.1 = Some r /\
                       MinimalResidual (Weights N w) X Y shift z r /\
                       Attains (Weights N w) X Y shift z r (SQ *m o.2)) grid l.
Proof.
move=> C n eigh eigs s N w X Y reg grid G SQ B shift HX HY Hw Hp He Hs.
apply: on_grid_spec => z Hz; have [r [v [E H1 H2]]] := point_minimal HX HY Hw Hp He (Hs z Hz).
by exists (Some r, v); split=> //; exists r.
Qed.
Print Assumptions C101_minimal_residual.

(** With a rank the Gram matrices are transposed, with the same result (and no residual filter is
    needed). *)
Theorem C101_minimal_residual_reduced :
  forall (C : numClosedFieldType) n eigh eigs s (X Y : 'M[C]_(n.+1, s)) reg grid,
    let: (G, G_dash, R) := reduced_grams X Y in
    let SQ := sq_matrix eigh G reg in
    let B z := SQ *m numerator G G_dash R z *m SQ in
    let shift := frobenius G * reg in
    RealData X -> RealData Y -> PositiveMass (const_mx 1) X^T shift ->
    EighOf (g_adapt G reg) (eigh (g_adapt G reg)) ->
    (forall z, List.In z grid -> EigsOf (B z) (eigs (B z))) ->
    exists l, pseudospectrum eigh eigs true (fit_reduced_stored true true X Y) reg grid = Value l /\
      List.Forall2 (fun z o => exists r, o.1 = Some r /\
                       MinimalResidual (const_mx 1) X^T Y^T shift z r) grid l.
Proof.
move=> C n eigh eigs s X Y reg grid SQ B shift HX HY Hp He Hs.
apply: on_grid_spec => z Hz; have [r [v [E H1]]] := reduced_minimal HX HY Hp He (Hs z Hz).
by exists (Some r, v); split=> //; exists r.
Qed.
Print Assumptions C101_minimal_residual_reduced.

(** What the minimum means: it is unique, it is the same at conjugate points, it changes by no more
    than the distance of the points, and for data of a linear system it is zero exactly at the
    eigenvalues of the system. *)
Theorem C101_unique :
  forall (C : numClosedFieldType) s n (w : 'rV[C]_s) (X Y : 'M[C]_(s, n)) shift z r1 r2,
    PositiveMass w X shift ->
    MinimalResidual w X Y shift z r1 -> MinimalResidual w X Y shift z r2 -> r1 = r2.
Proof. exact: minimal_unique. Qed.
Print Assumptions C101_unique.

Theorem C101_conjugate :
  forall (C : numClosedFieldType) s n (w : 'rV[C]_s) (X Y : 'M[C]_(s, n)) shift z r,
    RealData X -> RealData Y ->
    MinimalResidual w X Y shift z r -> MinimalResidual w X Y shift z^* r.
Proof. exact: minimal_conj. Qed.
Print Assumptions C101_conjugate.

Theorem C101_lipschitz :
  forall (C : numClosedFieldType) s n (w : 'rV[C]_s) (X Y : 'M[C]_(s, n)) shift z z' r r',
    (forall i, 0 <= w 0 i) -> 0 <= shift -> PositiveMass w X shift ->
    MinimalResidual w X Y shift z r -> MinimalResidual w X Y shift z' r' ->
    r <= r' + `|z - z'|.
Proof. exact: minimal_lipschitz. Qed.
Print Assumptions C101_lipschitz.

Theorem C101_zero_at_eigenvalues :
  forall (C : numClosedFieldType) s n (w : 'rV[C]_s) (X Y : 'M[C]_(s, n)) shift z r (A : 'M[C]_n),
    (forall i, 0 < w 0 i) -> Spanning X -> 0 <= shift -> ExactData X Y A ->
    MinimalResidual w X Y shift z r ->
    (r = 0 <-> exists v, v != 0 /\ LeftPair A z v).
Proof. exact: minimal_zero. Qed.
Print Assumptions C101_zero_at_eigenvalues.

(** The condition on the data holds if the snapshots span the space, or with regularisation. *)
Theorem C101_positive_mass :
  forall (C : numClosedFieldType) s n (w : 'rV[C]_s) (X : 'M[C]_(s, n)) shift,
    (forall i, 0 < w 0 i) ->
    (Spanning X /\ 0 <= shift \/ 0 < shift) -> PositiveMass w X shift.
Proof.
move=> C s n w X shift Hw [[H1 H2]|H]; first exact: positive_spanning.
by apply: positive_shift => // i; apply: ltW.
Qed.
Print Assumptions C101_positive_mass.

(** The call only works after a fit in spectral mode with compute_pseudospectrum and, without rank,
    a residual filter; everything else is an AttributeError (also where a ValueError is meant). *)
Theorem C101_available :
  forall (C : numClosedFieldType) n eigh eigs s N (w : option 'rV[C]_s) (X Y : 'M[C]_(s, n.+1)) spectral filter
         compute reg grid,
    spectral && filter && compute = false ->
    pseudospectrum eigh eigs compute (fit_full_stored N w spectral filter compute X Y) reg grid = AttributeErr.
Proof. by move=> C n eigh eigs s N w X Y [] [] [] reg grid. Qed.
Print Assumptions C101_available.

(** If scipy returns two pairs (models with two observables) the whole call fails. *)
Theorem C101_two_pairs_refuted :
  forall (C : numClosedFieldType) n eigh eigs (g : grams_t C n) reg z p q l,
    let: (G, G_dash, R) := g in
    let SQ := sq_matrix eigh G reg in
    eigs (SQ *m numerator G G_dash R z *m SQ) = Some (p :: q :: l) ->
    forall rest, pseudospectrum eigh eigs true (Some (Some g)) reg (z :: rest) = ValueErr.
Proof.
move=> C n eigh eigs [[G G_dash] R] reg z p q l SQ E rest.
by apply: (@on_grid_two C n eigh eigs (G, G_dash, R) reg [::] z p q l).
Qed.
Print Assumptions C101_two_pairs_refuted.

(** The returned pseudo-eigenfunctions are not those of the residual: here the minimum is sqrt 2, and
    the returned observable has a larger ratio. *)
Theorem C101_eigfuncs_refuted :
  forall C : numClosedFieldType, exists eigh eigs (X Y : 'M[C]_3) r v,
    let G := full_gram 1 None X X in
    let SQ := sq_matrix eigh G 0 in
    let B := SQ *m numerator G (full_gram 1 None X Y) (full_gram 1 None Y Y) 0 *m SQ in
    RealData X /\ RealData Y /\ PositiveMass (Weights 1 (None : option 'rV[C]_3)) X (frobenius G * 0) /\
    EighOf (g_adapt G 0) (eigh (g_adapt G 0)) /\ EigsOf B (eigs B) /\
    pseudospectrum eigh eigs true (fit_full_stored 1 None true true true X Y) 0 [:: 0] = Value [:: (Some r, v)] /\
    ~ Attains (Weights 1 (None : option 'rV[C]_3)) X Y (frobenius G * 0) 0 r v.
Proof.
move=> C; exists (@ex_eigh C), (@ex_eigs C), (ex_X C), (ex_Y C), (sqrtC 2%:R), (ex_v C).
split; first exact: ex_X_real. split; first exact: ex_Y_real. split; first exact: ex_positive.
split; first exact: ex_eigh_ok. split; first exact: ex_eigs_arg.
split; last exact: ex_not_attained.
have E := ex_point C; rewrite /pseudospectrum /fit_full_stored /on_grid; cbn [andb negb].
by rewrite E.
Qed.
Print Assumptions C101_eigfuncs_refuted.

(** [spectral_measure] overwrites the caller's observable. *)
Theorem C101_observable_overwritten_refuted :
  forall (C : numClosedFieldType) n (g : grams_t C n),
    exists v v', spectral_measure_argument true (Some (Some g)) v = Value v' /\ v' != v.
Proof.
move=> C n g; exists (2%:R *: delta_mx 0 0).
have E : sqrtC (\sum_k `|(2%:R *: delta_mx 0 0 : 'cV[C]_n.+1) k 0| ^+ 2) = 2%:R.
  rewrite (bigD1 0) //= big1 => [|k Hk]; first by rewrite !mxE !eqxx mulr1 addr0 normr_nat sqrCK ?ler0n.
  by rewrite !mxE (negPf Hk) mulr0 normr0 expr0n.
eexists; split; first by rewrite /spectral_measure_argument E.
apply/eqP => /(congr1 (fun M : 'cV[C]_n.+1 => M 0 0)); rewrite !mxE !eqxx !mulr1 mulVf ?pnatr_eq0 //.
by move/eqP; rewrite -[1]/(1%:R) eqr_nat.
Qed.
Print Assumptions C101_observable_overwritten_refuted.

(** The hypotheses of the first theorem are met by three snapshots in three dimensions. *)
Example C101_example : forall C : numClosedFieldType,
  pseudospectrum (@ex_eigh C) (@ex_eigs C) true (fit_full_stored 1 None true true true (ex_X C) (ex_Y C)) 0 [:: 0]
    = Value [:: (Some (sqrtC 2%:R), ex_v C)] /\
  MinimalResidual (Weights 1 (None : option 'rV[C]_3)) (ex_X C) (ex_Y C) 0 0 (sqrtC 2%:R).
Proof.
move=> C; split; first by have E := ex_point C; rewrite /pseudospectrum /fit_full_stored /on_grid; cbn [andb negb]; rewrite E.
have Hw i : 0 <= Weights 1 (None : option 'rV[C]_3) 0 i by rewrite ex_W mxE ler01.
have := point_minimal (ex_X_real C) (ex_Y_real C) Hw (@ex_positive C) (ex_eigh_ok C) (ex_eigs_arg C).
by rewrite ex_point => -[r [v [E]]]; case: E => <- _; rewrite mulr0.
Qed.
