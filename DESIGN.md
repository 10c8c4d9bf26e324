# A Rocq (Coq 8.16.1) model of datafold

Source: `/repo` (datafold-dev/datafold at the pinned commit).  The code is read
as text and never run.  Every definition of the model cites the file and lines
it models; every simplification is stated in that comment.

## Layout

`rocq/theories/`, logical name `Verif`, one group of files per area:

* `XModel.v`  – the model, proof-free (mirrors the Python functions branch by
  branch, exceptions as values);
* `XSpec.v`   – a small specification vocabulary independent of the model;
* `XProofs.v` (and further names) – lemmas and proofs;
* `XExample.v` – data for the examples, if they are large;
* `XProps.v`  – the theorems (statement, short proof, `Print Assumptions`) and
  `Example`s that show the hypotheses are met by non-trivial cases.

`Np.v`/`NpFacts.v` model the few numpy/pandas functions on lists that all models
share; `RingTac.v`/`FieldTac.v` make `ring`/`field` available over mathcomp's
structures (tactic support only).

A theorem named `..._refuted` exhibits inputs (usually: all inputs of some kind)
on which the faithful model, and by the citation the code, violates the English
property.  In that case `properties.jsonl` states what does hold and names what
is exhibited in parentheses.  `..._partial` would prove part of a property.

## Plan per property

Style "S": plain Coq standard library over lists, `nat`, `Z`.
Style "M": mathcomp matrices over an arbitrary field / real field (axiom-free).
Style "R": Coq `Reals` (standard-library axioms, listed below).

| id | what is modelled | how it is proved |
|----|------------------|------------------|
| C01 | `_validate_index` as a sequence of checks over rows (S) | soundness + completeness against a declarative validity predicate |
| C02 | `ids`, `n_timesteps` (S) | sorted-unique + counting lemmas |
| C03 | `delta_time` equal/unequal length path, int, float and datetime branch (S) | exact characterisation for each kind of time values; refutation witnesses |
| C04 | `is_equal_length`, `is_same_time_values` (S) | counting argument on unique times |
| C05 | `shift_matrices` both paths (S) | list induction over blocks; refutation for unsorted IDs |
| C06 | `from_shift_matrices` (S) | round trip, uses C05 |
| C07 | `from_tensor` with stable index sort (S) | lookup characterisation, permutation |
| C08 | `insert_ts` (S) | invariant over operation lists |
| C09 | `initial_states`, `final_states` (S) | firstn/skipn per block |
| C10 | `iter_timevalue_window` (S) | characterisation of window starts |
| C11 | `assign_ids_train_test` (S) | run-length characterisation |
| C12 | `TSCKfoldSeries.split`, `TSCKFoldTime.split` (S) | partition lemmas |
| C13 | `TSCWindowFoldTime.split` (S) | window positions; refutation for unsorted IDs |
| C14 | `TSCTakensEmbedding` (S) | positions of delays |
| C15 | `_validate_and_set_time_values_predict` (S) | case analysis |
| C16 | `iter_reconstruct_ic` + `EDMD._reconstruct` (S) | positive theorem; refutation for EDMD's relabelling |
| C17, C18, C22 | `DMDStandard` full mode, `DMDControl` (M) | matrix algebra; least squares by completing the square |
| C19, C20, C21, C54 | flow maps, spectral components, triplet sorting (M) | induction over steps |
| C23 | `OnlineDMD._update` (M) | Sherman–Morrison invariant over streams |
| C24 | `StreamingDMD` bookkeeping (S) | invariant and refutation |
| C25, C26 | `KMPC` (M) | induction over the horizon, block matrices |
| C27 | `AffineKgMPC.cost_and_jacobian` (R) | derivative of a polynomial, refutation for all weights ≠ ±1 |
| C28, C29 | solver dispatch and set-up state machine (S) | case analysis, induction over histories |
| C30, C31 | `projection_matrix_from_feature_names`, `sort_eigenpairs` (S) | permutation |
| C32–C34 | distance matrices (S) | filter characterisation, refutations |
| C35–C37, C55 | diffusion-map kernels, Nyström, pre-image (M) | matrix algebra |
| C38 | caches and refit (S) | histories |
| C39–C41 | Roseland, JSF, GHI (M) | matrix algebra |
| C42 | Laplacian pyramids loop (M) | loop invariant |
| C43 | `EarlyStopping` (M, ordered domain) | induction over losses |
| C44 | `estimate_scale`, `estimate_cutoff` (R, M) | real analysis, sorting |
| C45 | `ContinuousNNKernel` (M) | decision rule |
| C46 | `ConeKernel` (R) | Cauchy–Schwarz, monotonicity of cos |
| C47 | `PCManifold` aliasing (S) | heap model, invariant over histories |
| C48 | `scipy_eigsolver`, `compute_kernel_eigenpairs` (M) | decision table; uniqueness of the matrix with a given eigenbasis |
| C49 | `LocalRegressionSelection` (S) | selection by argpartition, pigeonhole for nan |
| C50 | residual filter of `DMDStandard` (M over closed fields) | quadratic forms, refutation for all non-left eigenpairs |
| C51–C53 | control input of DMD/EDMD predictions (S) | matching of IDs, list induction |
| C56 | EDMD with a dictionary that evolves linearly (M) | least squares recovery + modes |
| C57, C58 | `TSCMetric`, `TSCScoring` (M, real closed fields) | pairing of equal indices, sums of non-negative terms; refutations for all data |
| C59 | `gDMDFull`, `gDMDAffine` and the vector field integrated by the prediction (M) | normal equations of the stacked regressors, reuse of C24's least squares lemmas |
| C60 | `time_derivative` (L), instantiated with real vectors (M); findiff's table is an oracle with the order conditions as contract | list induction on the stencil, regular times of C03, Taylor expansion of polynomials |
| C61 | `assign_ids_const_delta`, `assign_ids_sequential` (L) | closed form of the flags, cutting a list at flags, blocks with increasing IDs |
| C62 | `normalize_time`, `is_normalized_time` (L); double precision quotients with `SpecFloat` | blocks, scaled regular times, division bounds; evaluation of the counterexample |
| C63 | `fill_timeseries_with_last_state` (L) | a single block continued arithmetically; refutations for all other IDs |
| C64 | `augment_control_input` (L) | both masks as parallel recursive selections, unique index |
| C65 | `TSCIdentity` (L), frames as named columns | case analysis, names compared as strings |
| C66 | `get_feature_names_out` of four transformers (L) | permutation for lambdas, refutation from the second name |
| C67 | `TSCApplyLambdas` (L) | injectivity of the labels (decimal digits contain no underscore) |
| C68 | `TSCPolynomialFeatures` with scikit-learn's enumeration (L) | bijection between non-decreasing index lists and exponent vectors |
| C69 | `TSCMovingAverage` (L); the mean of a window is a parameter | closed form of the rolling window, blocks |
| C70 | `TSCFeatureSelect` (L) | list induction |
| C71 | `TSCRadialBasis` as an object with state (M); `lstsq`, the random choice, distance and basis function are parameters | matrix algebra row by row; history fit, inverse, fit for the refutation |
| C72 | `check_tsc` and its checks with exceptions as values (L); `np.isfinite` and the number of features are parameters | every check decides its property; composition in the order of the code |
| C73 | `InitialCondition.validate`, `from_tsc`, `from_array` (L) | C72 and the closed form of `initial_states` |
| C74 | `_validate_and_setup_fit_attrs` (L), rounding half to even of the quotient | blocks; arithmetic of rounding |
| C75 | `feature_to_array` (L) | blocks: reshape of the concatenated series |
| C76 | `expand_time_values` (L) | single series: sorted lists; several: specification of `from_tensor` (C08) |
| C77 | `const_sampled_time_values` (L), length of `np.arange` exact | C03, integer division |
| C78 | `from_single_timeseries`, `from_array`, `from_frame_list` with collections (L) | uniqueness of the sorted permutation; C03 blocks |
| C79 | `shift_time_by_delta`, `shift_time_per_time_series` (L) with the state of the object | blocks moved by a function of the ID |
| C80 | `check_contain_required_ids`, `check_equal_delta_time` (L) | sorted lists without duplicates are unique; C03 |
| C81 | `_window_reconstruct`, `_window_score` (L) without control | windows as blocks of equal regular times, then C16 |
| C82 | `_reconstruct` with control (L): `validate_control`, `predict` of C51 | exact list of groups of `iter_reconstruct_ic`; decision of `validate_control` |
| C83 | `_window_reconstruct` with control (L) | C81 and C82; counting windows |
| C84 | `_predict_stepwise_transform` (L) without control | loop invariant over the table of all times: first n+k entries final, the rest placeholders |
| C85 | `_set_dict_preserves_id_state`, `_attach_id_state`, `_compute_inverse_map`, `fit`/`partial_fit`/`transform`/`inverse_transform` of EDMD (L) over an abstract dictionary | case analysis on the settings; label lookup on tables with unique labels |
| C86 | attributes of EDMD that steer later calls (L); outcome of the numerical steps is part of the call | invariants over all histories of calls |
| C87 | `control_system_reference`, `control_sequence_horizon` (L) over abstract plant, lift and solver | loop invariant: all sequences are equally sampled series that end at the current time |
| C88 | `LQR` (L) in a real field; Riccati solver as an oracle with its equation as hypothesis | completing the square, telescoping sum |
| C89 | `EDMDCV.fit`, `_split_X_edmd`, `_fit_and_score_edmd` (L) over abstract fit and score; set_params, ranking and reshaping of scikit-learn by documentation | positions in the product of candidates and splits, reshape; splitters of C07-C09 |
| C90 | `EDMDPostObservable` (L) over abstract fit, score, reconstruct and transform | rows of the renumbered collections by position; alignment because both have the same series per split |
| C91 | `ControllableODE.predict`, `ODE.predict`, `Hopf.predict` (L) over an abstract solver; integer time values, control evaluated at rational times | time grid of C42, zero-order hold by induction over the grid, collection of solutions by position |
| C92 | `_compute_reduced_system_matrix`, lifting of eigenvectors, prediction (mathcomp) in an arbitrary field; SVD, eig, lstsq as arguments | block decomposition of the truncated SVD; normal equations; eigenvector algebra |
| C93 | `koopman_eigenfunction`, `_sort_koopman_triplets` (mathcomp); argsort and lstsq as oracles | spectral states in an eigenbasis; permutation of triplets; importance by position |
| C94 | `DmapKernelVariable`, `DiffusionMapsVariable.fit` (mathcomp) in a real closed field; exp, power, 2 pi and the eigensolver as arguments | chain of closed forms for every intermediate; conjugation by the basis change; maximum principle for the eigenvalues |
| C95 | `EDMD.predict`, `_predict_dict_ic`, `DMDBase.predict`, data of `EDMD.score` on rows; dictionary, flow, control step and map back as arguments | exact set of evaluated times, block form of the dictionary states, alignment of control tensor and states |
| C96 | `DCMotor.predict_vectorize` on rows with the one-step map as argument; `_runge_kutta` and `_f` over a field (mathcomp) | strided slices of equal blocks, invariant of the loop, series of a tensor; expansion of the step for affine right hand sides |
| C97 | `pcm_subsample`, `pcm_remove_outlier`, `random_subsample` on top of the distance matrices of C32; the random permutation as argument | row of the sparse matrix empty iff all distances are large; invariant of the scan; uniqueness of the block of an index |
| C98 | `evolve_system` with its checks and the batched solvers on arrays over a semiring; matrix exponential and powers as arguments | columns of matrix products, invariant of the control loop, rows of a tensor; inversion of the checks |
| C99 | closed formulas, right-hand sides and coordinate changes of the systems in `_systems.py` over the reals (exact arithmetic; `arctan2` and `linspace` from their documentation; the numerical integrator is not modelled) | derivatives with Coquelicot (no axiom beyond the standard library's), mean value theorem for the energy, telescoping sums on the ring, limit of a difference quotient |
| C100 | the radial kernels, their constructor and call over the reals; dense and sparse distance matrices (the sparse one by its result, see C32) | powers of the inner product are sums of squares; series of the exponential; the other kernels as integrals of Gaussians (derivative, monotonicity and limit); separation of distinct points by polynomials for strictness; state machine of the bandwidth |
| C101 | `pseudospectrum` on the Gram matrices a fit stores, over a closed field (exact square roots); `eigh` and `eigs` as arguments that meet their documentation; `spectral_measure` only for its effect on the argument | spectral decomposition of Hermitian matrices (induction over the dimension), minimum of a quadratic form at the smallest eigenvalue, change of variables with the inverse root; Minkowski inequality for the Lipschitz bound |
| C102 | constructor and `generate_control_signal` of `AffineKgMPC` with the objects of the caller in a heap (views and the cached state are references), the search as an interaction with the objective; integration, lifting and search are arguments | invariant of the cache over all histories, induction over the search; index arithmetic of blocks |
| C103 | lookup of backends, removal of arguments by signature, constructors, calls of the default, brute force, tree and nearest neighbour backends; neighbour searches are arguments that meet their documentation (instances given) | case analysis over backends and metrics, reuse of the facts about tree and brute force calls (C32), set entries of rows |
| C104 | eigenvectors above the cut-off, functions of two and of more splits (the definitions of C40), threshold `compute_E0`, checks of the parameters; eigen- and singular value decompositions as arguments that meet their documentation | norm of the sum of projections against the largest remaining singular value; Bessel; dimension argument (Courant-Fischer) for uniqueness |
| C105 | parameters of the finite differences, selection of states by label (`gDMDFull`) and by time value (`gDMDAffine`), fit; on top of the models of C59, C60, C10 and C03; findiff's coefficients and the least squares routine are arguments | labels of the derivatives from C60, uniqueness of sorted label lists, integer powers of M along a series; concrete rational data for the refuted order of IDs |
| C106 | conversion of the distance matrix, replaced distances, bandwidth, symmetric part, overwritten input; points and matrices over a real closed field, exponential and estimation of the bandwidth as arguments | algebra of quadratic forms, case analysis over stored pairs |
| C107 | `TSCFeaturePreprocess` as an object with state, the scalers and the treatment of feature names of scikit-learn 1.2; columns as lists over a real closed field, the machine precision is an argument | algebra of affine maps per column, minimum and maximum by induction, permutations of rows |
| C108 | `TSCPrincipalComponent` as an object with state on top of scikit-learn's `PCA` (solver "full", integer or no number of components, whiten); matrices over a real closed field, LAPACK's singular value decomposition is an argument assumed to return one | Ky Fan's maximum principle by a weighted sum argument, trace algebra for projections and averages, sign flips keep the decomposition; four points in the plane as a concrete case |
| C109 | `TSCFiniteDifference` as an object with state on top of the models of C60 (time derivative), C72 (checks) and C03 (sampling interval); integer times, findiff's coefficients are an argument | case analysis of the checks, C60_values for the rows, arithmetic of offsets for causality |
| C110 | `predict`, `score` and `gradient` of `GeometricHarmonicsInterpolator` over a real closed field: the kernel row of a point is an argument, arrays with zero, one or two axes, `np.squeeze`, scikit-learn's checks of targets; the value of `gradient` is modelled but nothing is claimed about it (the code itself warns that it is wrong) | case analysis of sizes, sums of squares, the variance identity for the two averages |
| C111 | `DmapKernelFixed` and `RoselandKernel` as objects with state on top of the matrix normalisations of C35-C39; calls are data, a history is a list of calls; the internal kernel is any function of two points | induction over the history (the attributes are set once), sums of positive numbers for the values |
| C112 | `TSCColumnTransformer`: selection of columns by name, the join with `pd.concat(axis=1, sort=True)` and `dropna`, names out, remainder, `n_features_out_`; scikit-learn's base class is modelled by what it does for fitted transformers; the transformers are any functions | the index of the join is sorted without duplicates (induction over insertion), keys of the join are a filter of it; selection equals lookup by name (induction over columns) |
| C113 | `EDMD.__getitem__` for slices, numbers and names on a list of steps, with Python's rules for slice bounds; a pipeline of steps transforms step by step | the slice cuts the list in three at the positions given by a specification without clipping (linear arithmetic); the pieces are unique; induction over steps |
| C114 | `from_same_indices_as` and `df_type_and_indices_from` on tables with index, columns and values; the checks of the constructor are those of C01 | validity depends on the index only (TscProofs), then case analysis; a counterexample for alignment |

## Trusted base

* Coq 8.16.1's kernel.  No kernel check is switched off, no `Axiom`,
  `Parameter`, `Admitted` or section-less `Variable`/`Hypothesis`; every
  `Variable` stands in a closed `Section` and becomes a universally quantified
  argument of the theorems.
* `Print Assumptions` of every theorem (printed by the build):
  * 749 theorems and examples: "Closed under the global context".
  * `C100_bandwidth_example`, `C27_gradient_iff_unit_weights`, `C27_gradient_refuted`, `C27_state_term_iff_unit_weights`, `C27_unit_weights`, `C99_burger`: `ClassicalDedekindReals.sig_forall_dec`, `FunctionalExtensionality.functional_extensionality_dep` (Coq standard library, construction of the reals).
  * `C100_bandwidth_history`, `C100_bandwidth_stale_refuted`, `C100_cut_off_positive_refuted`, `C100_dense`, `C100_interpolation_unique`, `C100_markov_eigenvalues`, `C100_monotone`, `C100_multiquadric`, `C100_positive`, `C100_sparse`, `C44_beyond_cut_off`, `C44_example`, `C44_kernel_at_cut_off`, `C44_tolerance_refuted`, `C46_alignment_refuted`, `C46_documented_refuted`, `C46_example`, `C46_kernel_matrix`, `C99_angle`, `C99_burger_example`, `C99_finite_differences`, `C99_hopf`, `C99_hopf_example`, `C99_hopf_polar`, `C99_hopf_polar_refuted`, `C99_limit_cycle`, `C99_pendulum_energy`, `C99_pendulum_example`, `C99_trigonometric`, `C99_trigonometric_velocity_refuted`: `ClassicalDedekindReals.sig_not_dec`, `ClassicalDedekindReals.sig_forall_dec`, `FunctionalExtensionality.functional_extensionality_dep`, `Classical_Prop.classic` (Coq standard library, construction of the reals).
  * `C100_cloud_example`, `C46_cosine_of_cosine`, `C46_sample_at_rest`, `C46_training_samples`, `C46_without_angle`, `C99_angle_example`, `C99_burger_seam_refuted`, `C99_inverted_pendulum`, `C99_inverted_pendulum2`, `C99_inverted_pendulum2_parameters_refuted`, `C99_inverted_pendulum_control_refuted`, `C99_inverted_pendulum_rest_refuted`, `C99_pendulum_position`, `C99_three_points`: `ClassicalDedekindReals.sig_not_dec`, `ClassicalDedekindReals.sig_forall_dec`, `FunctionalExtensionality.functional_extensionality_dep` (Coq standard library, construction of the reals).
* `vcheck` reports further "library axioms" for mathcomp: these are the fields of
  opaquely sealed modules of the library (`BigOp.bigop`, `FinfunDef.finfun`,
  `PermDef`, `SetDef`, `Under_rel` of ssreflect, ...), which a tool that looks at
  module types lists as parameters.  They have definitions; `Print Assumptions`
  does not list them and no axiom of mathcomp is used.
* The hand translation from Python to Gallina (the citations).
* NumPy / SciPy / pandas / scikit-learn behaviour, as described in the comment of
  each model definition.  Floating-point rounding is not modelled: exact
  arithmetic in `Z`, `Q`, an arbitrary (ordered, real closed, algebraically
  closed) field or Coq's reals.  `nan` and infinities are modelled where the
  property depends on them (`option`, special constructors).

Numerical routines of other libraries are universally quantified functions
(oracles).  What the theorems assume of them is written in the `*Spec.v` files and
appears as a hypothesis; next to the theorems a satisfying instance is given:

| oracle | assumption (definition) |
|---|---|
| `np.linalg.lstsq`, `LinearRegression` | solves every consistent system (`LinSpec.solves_consistent`) |
| `np.linalg.eig`, `eigh`, `eigs`, `eigsh` | if they return, they return eigenpairs; symmetric solvers those of the lower triangle (`EigSpec`, `KernSpec`, `ResSpec`) |
| `svd`, `svds` | if it returns, singular triplets (`EmbSpec`) |
| `np.linalg.pinv`, `inv`, `solve` | `invmx` for invertible matrices, an exception otherwise |
| `solve_qp`, `minimize` | not assumed to be right: the theorems are about the program handed over |
| `argsort`, `argpartition`, `np.partition` | documented order (`QoiSpec`, `LrsSpec`), arbitrary ties |
| k nearest neighbour and radius queries | documented result (`DistSpec`) |
| `np.power`, kernels, dictionaries, `solve_ivp` | arbitrary functions |

## What is modelled

The citations of the model, by source file (lines as in the comments; functions in
brackets are named there):

* `_systems.py`: 31-286 (SimModel); 34 (SimModel); 40-61 (SimModel); 63-98 [ODE.predict] (SimModel); 124-286 [ControllableODE.predict] (SimModel); 153-165 (SimModel); 167-196 (SimModel); 203-209 (SimModel); 217-237 (SimModel); 228-235 (SimModel); 239-263 (SimModel); 295-309 [_compute_angle] (BenModel); 311-313 [_as_cartesian_coordinates] (BenModel); 331-353 [eval_finite_differences] (BenModel); 355-372 [eval_analytical] (BenModel); 381-384 (BenModel); 421-428 [_f] (BenModel); 421-480 (SimModel); 430-480 [Hopf.predict] (SimModel); 447-448 (BenModel); 454-456 (SimModel); 463-470 (BenModel); 521-526 [_integrate_pendulum_sim] (BenModel); 528-539 [_compute_cart_parameters] (BenModel); 624-654 [InvertedPendulum._f] (BenModel); 656-667 (BenModel); 669-680 (BenModel); 812-841 [InvertedPendulum2._f] (BenModel); 843-854 [theta_to_trigonometric] (BenModel); 856-867 [trigonometric_to_theta] (BenModel); 950-952 (BenModel); 961-978 [_f] (BenModel); 967 (BenModel); 968 (BenModel); 972 (BenModel); 1118-1194 (DcmModel); 1118-1126 [_runge_kutta] (DcmModel, RkModel); 1128-1194 [predict_vectorize] (DcmModel); 1175-1182 (DcmModel); 1196-1200 [_f] (RkModel); 1198-1199 (RkModel).
* `accessor.py`: 48-64 [check_tsc] (ChkModel); 114-151 [check_tsc] (ChkModel); 137-142 [check_equal_timevalues] (PredModel); 153-173 (ChkModel); 175-180 [check_const_time_delta] (TscModel); 182-190 [check_const_timesteps] (DcmModel); 192-210 (BldModel); 192-195 (ChkModel); 197-210 [check_contain_required_ids] (BldModel, PredModel); 212-221 (ChkModel); 220-252 [check_required_time_delta] (TakensModel); 223-253 [check_required_time_delta] (ChkModel); 255-267 (ChkModel); 269-277 [check_required_n_timesteps] (ChkModel); 279-292 [check_required_min_timesteps] (TscModel); 294-301 (ChkModel); 303-315 [check_non_overlapping_timeseries] (CvModel); 317-392 (BldModel); 317-368 [check_equal_delta_time] (BldModel); 393-467 [iter_timevalue_window] (TscModel); 457-467 (TscModel); 469-497 [shift_time_by_delta] (BldModel); 523-637 (BldModel); 523-556 [expand_time_values] (BldModel); 558-637 (BldModel, ReconModel); 591-609 (BldModel); 639-687 [normalize_time] (AccModel); 689-702 [drop_last_n_samples] (TscModel); 704-824 [time_derivative] (DerModel, GdmdModel, GenModel); 706 (GdmdModel); 746-798 [_InternalDiff.diff] (DerModel); 758-774 (DerModel); 785 (DerModel); 800-801 (DerModel); 836-843 [assign_ids_sequential] (AsgModel); 845-967 [assign_ids_train_test] (TscModel); 898-902 (TscModel); 905-906 (TscModel); 951-961 (SearchModel); 969-1127 [assign_ids_const_delta] (AsgModel); 1000-1091 [split_irregular_time_series] (AsgModel); 1016-1056 (AsgModel); 1024-1027 (AsgModel); 1058-1059 (AsgModel); 1093-1111 (AsgModel); 1099-1102 (AsgModel); 1117-1123 (AsgModel); 1129-1158 [fill_timeseries_with_last_state] (AccModel); 1160-1179 [augment_control_input] (AccModel); 1181-1263 (TscModel); 1218-1219 (TscModel); 1224-1227 (TscModel); 1234-1235 (TscModel); 1237-1242 (TscModel); 1244-1250 (TscModel); 1265-1293 [time_values_overview] (ReconModel).
* `base.py`: 83-212 [_validate_datafold_data] (FdtModel, PcaModel, RefitModel, ScaModel, TrModel); 251-279 [_setup_feature_attrs_fit] (FdtModel, PcaModel, RefitModel, ScaModel); 281-287 [_validate_feature_input] (FdtModel, PcaModel, ScaModel); 281-306 [_validate_feature_input] (RefitModel); 281-283 [_validate_feature_input] (TrModel); 284-306 [_validate_feature_input] (RbfModel, TrModel); 288-306 (PcaModel); 316-355 [_same_type_X] (PcaModel, ScaModel); 432-494 [_validate_and_setup_fit_attrs] (ChkModel); 484-493 (ChkModel); 496-677 (PredModel); 496-644 [_validate_and_set_time_values_predict] (PredModel); 514-531 (PredModel); 536-541 (PredModel); 538 (PredModel); 646-677 [_validate_time_values_format] (PredModel); 655-663 (PredModel); 665-667 (PredModel); 669-670 (PredModel); 672-676 (PredModel); 679-691 (StreamModel); 738-760 [_validate_qois] (QoiModel).
* `collection.py`: 280-325 (ReconModel); 309-356 (SamModel, TscModel); 358-360 (BldModel, ReconModel, WinModel); 413-465 [from_tensor] (TscModel); 515-534 [from_shift_matrices] (TscModel); 527-528 (TscModel); 535-576 [from_same_indices_as] (SamModel); 579-750 (BldModel); 579-623 [from_single_timeseries] (BldModel); 608-609 (AccModel); 625-653 [from_array] (BldModel, LqrModel); 655-750 [from_frame_list] (BldModel); 683-695 (TscModel); 697-722 (BldModel); 710-717 (TscModel); 724-739 (TscModel); 741-750 (TscModel); 832-923 [_validate_index] (TscModel); 833-842 (TscModel); 856-867 (TscModel); 876-891 (TscModel); 903-907 (TscModel); 914-922 (TscModel); 925-950 (FdtModel); 925-965 [_validate] (SamModel); 967-970 (TscModel); 977-982 [ids] (TscModel); 984-1144 (TscModel); 1035 (AccModel); 1069-1077 (AccModel); 1146-1165 [n_timesteps] (TscModel); 1221-1246 [set_index] (ReconModel); 1298-1322 [itertimeseries] (TscModel); 1317-1322 (BldModel); 1324-1328 [is_equal_length] (TscModel); 1330-1347 [is_const_delta_time] (TscModel); 1349-1369 [is_same_time_values] (TscModel); 1371-1381 [is_normalized_time] (AccModel, ChkModel); 1383-1385 (ChkModel); 1387-1406 [degenerate_ids] (TscModel); 1408-1414 (ChkModel); 1416-1474 [insert_ts] (TscModel); 1438-1441 (TscModel); 1476-1491 [time_interval] (AccModel, ReconModel); 1493-1511 [time_values] (TscModel); 1513-1588 (BldModel); 1530-1543 [const_sampled_time_values] (BldModel); 1576-1583 (BldModel); 1585-1586 (BldModel); 1590-1608 [select_time_values] (TscModel); 1610-1638 (TscModel); 1640-1668 (TscModel); 1777-1795 [InitialCondition.from_array] (ChkModel); 1797-1821 [from_array_control] (EdpModel); 1818-1820 (PredModel); 1823-1846 [InitialCondition.from_tsc] (ChkModel); 1849-1897 [iter_reconstruct_ic] (ReconModel); 1874 (ReconModel); 1878-1880 (ReconModel); 1900-1959 [InitialCondition.validate] (ChkModel); 1961-1973 [InitialCondition.validate_control] (CtrModel, PredModel).
* `compose.py`: 65-68 [n_features_out_] (ColModel); 70-80 [_hstack] (ColModel).
* `dictlearning.py`: 46-52 [EarlyStopping.__init__] (StopModel); 54-63 [update] (StopModel); 571-620 (StopModel).
* `distance.py`: 59 (DistModel); 61-106 (SelModel); 82-106 [_set_attrs_range] (DistModel); 115-118 (SelModel); 117-120 (DistModel); 147-168 [_validate_cut_off] (RadModel); 165-182 [_validate_X_Y] (DistModel); 202-236 (DistModel); 204-236 (SelModel); 238-248 [_dense2csr_matrix] (DistModel); 250-362 [_ensure_kmin_nearest_neighbor] (DistModel); 284-345 (DistModel); 300-308 (DistModel); 320-333 (DistModel); 364-387 [_handle_kmin] (DistModel); 440-543 [BruteForceDist] (DistModel); 476 (SelModel); 478-487 [BruteForceDist.__init__] (SelModel); 492-549 [BruteForceDist.__call__] (RadModel); 517-527 (RadModel, RbfModel); 530-539 (RadModel, RbfModel); 541-548 (RadModel); 576-581 (SelModel); 647-745 [ScipyKdTreeDist] (DistModel); 673-678 (SelModel); 748-845 [SklearnBalltreeDist] (DistModel); 776-784 (SelModel); 850-853 [SklearnKNN.__init__] (SelModel); 859-882 [SklearnKNN.__call__] (SelModel); 909-927 [GuessOptimalDist, GuessOptimalDist.__new__] (SelModel, SubModel); 930-967 [_all_available_distance_algorithm] (SelModel); 970-1008 [get_backend_distance_algorithm] (SelModel); 1011-1066 [init_distance_algorithm] (SelModel); 1058-1060 (SelModel); 1069-1119 [compute_distance_matrix] (SelModel).
* `dmap.py`: 50-106 [solve_eigenproblem] (KernModel); 73-92 (EigModel, KernModel); 108-158 [unsymmetric_kernel_matrix] (KernModel); 355-381 [_nystrom] (KernModel); 383-405 [_perform_dmap_embedding] (KernModel); 407-423 [_select_eigenpairs_target_coords] (KernModel); 427-456 [set_target_coords] (RefitModel); 458-464 [get_feature_names_out] (RefitModel); 466-563 [fit] (RefitModel); 467-563 [fit] (KernModel); 510-514 (RefitModel); 565-624 [transform] (KernModel, RefitModel); 626-649 [fit_transform] (KernModel); 651-693 [inverse_transform] (KernModel, RefitModel); 751-792 [fit] (VarModel); 968-1000 [_compute_kernel_svd] (EmbModel); 1002-1019 [_select_svdpairs_target_coords] (EmbModel); 1021-1043 [_nystrom] (EmbModel); 1045-1062 [_perform_roseland_embedding] (EmbModel); 1102-1171 [fit] (EmbModel); 1173-1227 [transform] (EmbModel); 1229-1255 [fit_transform] (EmbModel); 1338-1383 [_validate_parameter] (LrsModel); 1385-1496 (LrsModel); 1498-1525 [_set_indices] (LrsModel); 1536-1591 [fit] (LrsModel); 1574-1586 (LrsModel); 1593-1616 [transform] (LrsModel).
* `dmd.py`: 32-50 [compute_spectral_components] (LinModel); 194-206 (LinModel); 203-297 (EdpModel, PredModel); 205-285 (RedModel); 208-262 [_evolve_dmd_system] (LinModel); 216 (PredModel); 219-223 (PredModel); 223-226 (RedModel); 225-227 (PredModel); 229-231 (PredModel); 241 (ReconModel); 350-411 (CtrModel, EdpModel, PredModel); 373-391 (PredModel); 387 (PredModel); 413-467 (ReconModel); 440-467 (ReconModel); 466 (ReconModel); 701 (RedModel); 739-760 [_validate_parameters] (RedModel); 754-836 [DMDStandard._compute_full_system_matrix] (LinModel, ResModel); 779-843 (PsModel); 781-786 (LinModel); 838-873 (ResModel); 848-867 (RedModel); 849-853 (RedModel); 865-867 (PsModel); 877-959 [DMDStandard._remove_spectral_pollution] (ResModel); 883-901 (PsModel, ResModel); 889-898 (ResModel); 900 (ResModel); 905-906 (ResModel); 910-927 (ResModel); 987-991 (ResModel); 990-1001 (RedModel); 1019-1117 [DMDStandard.pseudospectrum] (PsModel); 1046-1047 (PsModel); 1061-1062 (PsModel); 1065-1068 (PsModel); 1080-1112 (PsModel); 1086-1091 (PsModel); 1163-1175 (PsModel); 1224-1234 (RedModel); 1254-1293 (RedModel); 1255-1290 (ResModel); 1258-1275 (PsModel); 1295-1303 (RedModel); 1317-1320 (PsModel); 1419-1436 [gDMDFull._compute_koopman_generator] (GenModel); 1451-1465 [_generate_fd_kwargs] (GdmdModel); 1467-1543 [gDMDFull.fit] (GdmdModel); 1497-1510 (GdmdModel); 1497-1502 (GdmdModel); 1608-1648 [DMDControl._compute_koopman_and_control_matrix] (LinModel); 1656-1716 [DMDControl.fit] (GdmdModel); 1795-1806 (GdmdModel); 1795-1853 [gDMDAffine._compute_koopman_and_control_matrix] (GdmdModel, GenModel); 1819-1822 (GenModel); 1829-1832 (GdmdModel); 1848-1853 (GenModel); 2056-2374 (StreamModel); 2146-2175 [_pod_compression] (StreamModel); 2198-2230 [fit] (StreamModel); 2232-2245 [_separate_init_pairs] (StreamModel); 2287-2323 [partial_fit] (StreamModel); 2377-2631 (OnlineModel); 2469-2482 [_basic_initialize] (OnlineModel); 2484-2491 [ready_] (OnlineModel); 2493-2531 [fit] (OnlineModel); 2510-2515 (OnlineModel); 2533-2638 [partial_fit] (OnlineModel); 2579-2586 (OnlineModel); 2592-2613 (OnlineModel); 2624-2636 (OnlineModel).
* `dynsystem.py`: 23-326 (SysModel); 24-43 (EvoModel); 41 (EvoModel); 45-78 (SysModel); 96-124 (EvoModel); 100-103 (GenModel); 131-139 (EvoModel); 155-188 [flowmap_matrix] (LinModel); 173-196 (EvoModel); 191-235 [flowmap_spectral] (LinModel); 227-238 (EvoModel); 238-295 [flowmap_matrix_controlled] (CtrModel, LinModel, PredModel); 240-295 (EvoModel); 263-293 (EvoModel, SysModel); 297-326 (EvoModel); 298-326 [flowmap_spectral_controlled] (LinModel); 313-326 (EvoModel, SysModel); 328-388 [select_strategy] (SysModel); 433-446 (SysModel); 433-471 [__init__] (SysModel); 471-484 [_set_sys_matrix] (EvoModel); 486-521 [_check_control_input] (EdpModel, EvoModel, PredModel, SysModel); 492 (EdpModel); 497 (PredModel); 508-515 (PredModel); 523-547 [_check_initial_condition] (EvoModel); 541-545 [_check_initial_condition] (RedModel); 549-571 [_check_time_values] (EvoModel); 573-596 [_check_time_delta] (EvoModel); 598-649 [_set_and_check_system_params] (EvoModel); 606-612 (RedModel); 690-703 [is_linear_system_setup] (SysModel); 705-778 [compute_spectral_system_states] (LinModel); 780-894 (EvoModel); 780-834 [setup_spectral_system] (SysModel); 836-894 [setup_matrix_system] (SysModel); 896-997 [evolve_system] (EvoModel, SysModel); 975-997 (EvoModel); 992-997 (ReconModel).
* `edmd.py`: 275-296 (DictModel); 309-312 (SliModel); 347-401 [koopman_eigenfunction] (KefModel); 436-569 (DictModel); 436-454 (DictModel); 456-472 [_set_dict_preserves_id_state] (DictModel); 487-506 [_least_squares_inverse_map] (DictModel, KoopModel); 508-569 [_compute_inverse_map] (DictModel); 571-598 [_compute_koopman_modes] (KoopModel, LinModel); 600-666 [_sort_koopman_triplets] (KefModel, LinModel); 640-644 (KefModel); 646 (KefModel); 668-688 [_attach_id_state] (DictModel); 675-684 (DictModel); 712-834 (CtrModel); 712-772 [_reconstruct] (CtrModel, ReconModel); 715-719 (CtrModel); 724-745 (CtrModel); 727-728 (CtrModel); 740 (CtrModel); 740-743 (CtrModel); 759 (ReconModel); 774-866 [_predict_dict_ic] (EdpModel, QoiModel); 796-832 (QoiModel); 802-828 (KoopModel); 815-819 (QoiModel); 818-822 (CtrModel); 824 (CtrModel); 829-833 (CtrModel); 829-856 (KoopModel); 833-866 (QoiModel); 857-858 (EdpModel); 868-919 [_predict_stepwise_transform] (StepModel); 869-880 (LifeModel, StepModel); 882-919 (StepModel); 885-909 (StepModel); 897-903 [transform] (StepModel); 909 (StepModel); 971-1090 [fit] (LifeModel); 971-996 (LifeModel); 1021-1090 [fit] (DictModel); 1072-1088 (DictModel); 1150-1219 [predict] (EdpModel); 1156-1170 (EdpModel); 1172-1195 (EdpModel); 1190-1196 (PredModel); 1272-1291 [__getitem__] (SliModel); 1292-1293 (SliModel); 1335-1419 [partial_fit] (LifeModel); 1335-1369 (LifeModel); 1376-1419 (DictModel); 1421-1457 [transform] (DictModel, EdpModel); 1538-1551 (CtrModel, ReconModel); 1540-1551 [reconstruct] (CtrModel, ReconModel); 1553-1586 [inverse_transform] (DictModel); 1588-1633 [score] (EdpModel); 1636-1778 (SearchModel); 1636-1647 [_split_X_edmd] (SearchModel); 1650-1778 [_fit_and_score_edmd] (SearchModel); 1669 (SearchModel); 1938-2081 (SearchModel); 1945-2081 [EDMDCV.fit] (SearchModel); 2084-2368 (WinModel); 2118-2285 (CtrModel, WinModel); 2184-2188 (WinModel); 2194-2200 (WinModel); 2204-2212 (WinModel); 2214-2215 (WinModel); 2219-2223 (WinModel); 2233-2237 (WinModel); 2240-2248 (WinModel); 2251-2272 (CtrModel); 2268-2272 (WinModel); 2287-2330 [_window_score] (WinModel); 2424-2614 [EDMDPostObservable] (PostModel); 2424-2453 [_adapt_edmd_model] (PostModel); 2435-2437 (PostModel); 2455-2473 [_compute_err_timeseries] (PostModel); 2469 (PostModel); 2475-2498 [_fit_and_create_error_timeseries] (PostModel); 2500-2515 (PostModel); 2517-2572 [_run_cv] (PostModel); 2574-2614 [fit_transform] (PostModel).
* `eigsolver.py`: 75-92 (EigModel); 98-108 (EigModel); 180-258 (KernModel); 181-271 [compute_kernel_eigenpairs] (EigModel); 256-263 (EigModel); 269 (EigModel); 275-318 [compute_kernel_svd] (EmbModel).
* `estimators.py`: 59-92 [estimate_cutoff] (CknnModel); 124-128 [estimate_scale] (EstModel).
* `general.py`: 139-198 (SysModel); 139-173 [is_matrix] (SysModel); 176-198 [is_vector] (SysModel); 201-205 [if1dim_colvec] (EvoModel, KgModel); 215-249 (DictModel, QoiModel); 215-334 (QoiModel); 239 (QoiModel); 252-334 [sort_eigenpairs] (LinModel, QoiModel); 337-373 (LinModel); 376-430 [diagmat_dot_mat] (EvoModel); 376-413 (LinModel); 436-470 [df_type_and_indices_from] (KefModel, SamModel); 453 (SamModel); 473-493 [is_symmetric_matrix] (EigModel); 529-578 [remove_numeric_noise_symmetric_matrix] (KernModel); 581-621 [random_subsample] (SubModel).
* `jsf.py`: 109-126 (JsfModel); 115-119 (JsfModel); 128-149 [_validate_parameter] (JsfModel); 151-182 [_compute_kernel_eigenpairs] (JsfModel); 173-180 (JsfModel); 184-224 [_compute_jointly_smooth_vectors] (EmbModel); 187 (EmbModel); 189-199 (EmbModel); 225-234 (EmbModel); 245-297 [_nystrom] (EmbModel); 487-519 [compute_E0] (JsfModel).
* `kernels.py`: 43-55 [_apply_kernel_function_numexpr] (RadModel); 58-185 [_symmetric_matrix_division] (ConeModel); 58-186 [_symmetric_matrix_division] (KernModel, VarModel); 189-260 [_conjugate_stochastic_kernel_matrix] (KernModel); 263-316 [_stochastic_kernel_matrix] (KernModel); 319-389 [_kth_nearest_neighbor_dist] (CknnModel); 393-435 (EigModel); 428-435 [is_symmetric] (EigModel); 499-516 [_read_kernel_kwargs] (RadModel); 518-533 [_required_attrs] (KoModel); 689-712 [RadialBasisKernel.__init__] (RadModel); 714-723 [_check_bandwidth_parameter] (RadModel); 721-760 [__call__] (RbfModel); 725-760 [RadialBasisKernel.__call__] (RadModel); 781-785 (RadModel); 786 (RadModel); 787-827 (RadModel); 804-815 (RadModel); 820-825 [GaussianKernel.evaluate] (EstModel); 821-825 (RadModel); 851-874 (RadModel); 870-874 (RadModel); 898-921 (RadModel); 917-921 (RadModel); 945-969 (RadModel); 965-969 (RadModel); 978-985 (RadModel); 981-984 (RadModel); 1003-1020 (RadModel); 1033-1050 [evaluate] (RadModel); 1082-1120 (CknnModel); 1082-1098 (CknnModel); 1208-1250 [evaluate] (CknnModel); 1280-1324 [__call__] (MahModel); 1326-1399 [evaluate] (MahModel); 1345 (MahModel); 1347-1375 (MahModel); 1360-1368 (MahModel); 1371-1375 (MahModel); 1514-1530 (EigModel); 1515 (KernModel); 1532-1542 [is_conjugate] (KernModel); 1544-1587 [_normalize_sampling_density] (KernModel); 1550-1554 (KoModel); 1589-1632 [_normalize] (KernModel); 1631-1656 [_eval_kernel_matrix] (KoModel); 1658-1696 [__call__] (KoModel); 1689-1694 (KoModel); 1772-1812 [_compute_normalize_diagonal] (EmbModel); 1780 (KoModel); 1814-1872 [_eval_kernel_matrix] (EmbModel); 1843-1896 [_eval_kernel_matrix] (KoModel); 1898-1930 [__call__] (KoModel); 2050-2098 (ConeModel); 2130-2180 [_compute_distance_and_cosinus_matrix] (ConeModel); 2190-2200 (ConeModel); 2240-2262 (ConeModel); 2262 [remove_numeric_noise_symmetric_matrix] (ConeModel); 2276-2318 (ConeModel); 2318 (ConeModel); 2320-2326 (ConeModel); 2364-2395 [__init__] (VarModel); 2381 (VarModel); 2382-2388 (VarModel); 2415-2428 [_compute_rho0] (VarModel); 2464-2485 [_compute_q0] (VarModel); 2487-2492 [_compute_rho] (VarModel); 2494-2499 [_compute_kernel_eps_s] (VarModel); 2501-2504 [_compute_q_eps_s] (VarModel); 2506-2511 [_compute_kernel_eps_alpha_s] (VarModel); 2513-2517 [_compute_matrix_l] (VarModel); 2519-2535 [_compute_matrix_l_conjugate] (VarModel); 2537-2560 [__call__] (VarModel); 2562-2600 [evaluate] (VarModel).
* `metric.py`: 87-99 (MetModel); 101-113 [_scaling] (MetModel); 115-134 [_norm_metric] (MetModel); 124-127 (MetModel); 131-134 [_norm_metric] (MetModel); 180-203 [_rrmse_metric] (MetModel); 205-212 [_max_error] (MetModel); 214-241 (MetModel); 267-314 [_metric_per_timeseries] (MetModel); 316-350 [_metric_per_feature] (MetModel); 352-406 [_metric_per_timestep] (MetModel); 424-433 (MetModel); 446-496 [__call__] (MetModel); 454-455 (MetModel); 536-596 [TSCScoring.__call__] (MetModel); 568-573 (MetModel); 642-692 [TSCKfoldSeries.split] (CvModel); 692-711 (SearchModel); 733-769 [TSCKFoldTime.split] (CvModel); 769-788 (SearchModel); 817-856 (CvModel); 858-872 [_reversed_ids_and_indices_tsc] (CvModel); 874-937 [TSCWindowFoldTime.split] (CvModel); 903-937 (CvModel); 916-934 (CvModel); 947-969 [get_n_splits] (SearchModel).
* `mpc.py`: 26-50 [_cost_to_array] (MpcModel); 233-253 [_setup_optimizer] (MpcModel); 255-308 [_create_evolution_matrices] (MpcModel); 266-272 (MpcModel); 276-285 (MpcModel); 290-306 (MpcModel); 297-302 (MpcModel); 310-340 [_create_cost_matrices] (MpcModel); 323 (MpcModel); 342-365 [_create_constraint_matrices] (MpcModel); 367-485 [control_sequence_horizon] (LoopModel); 411-485 (LoopModel); 415-460 [control_sequence_horizon] (MpcModel); 426 (LoopModel); 439-445 (MpcModel); 446-459 (LoopModel); 483-488 (MpcModel); 487-573 [control_system_reference] (LoopModel); 522-571 (LoopModel); 524-531 (LoopModel); 553-557 (LoopModel); 554-557 (LoopModel); 622-631 [_setup_optimizer] (LqrModel); 633-643 [_create_cost_matrices] (LqrModel); 645-664 [control_sequence] (LqrModel); 726-781 (KgModel); 742-760 (AffMpcModel); 774-775 (KgModel); 783-794 (KgModel); 786 (KgModel); 804-808 [cost_and_jacobian] (AffMpcModel); 819-853 (KgModel); 849-852 (AffMpcModel); 849-977 (KgModel); 884-899 [jacobian] (AffMpcModel); 928-934 [_dcost_dx] (AffMpcModel); 936-938 [_dcost_du] (AffMpcModel); 979-1100 [generate_control_signal] (KgModel); 1044-1047 (KgModel); 1054-1059 (KgModel); 1077-1081 (KgModel); 1082-1091 (KgModel); 1093-1098 (KgModel); 1100 (KgModel).
* `outofsample.py`: 93-106 [_precompute_aux] (EmbModel); 99-105 (ScoModel); 145-226 [fit] (EmbModel); 170-171 (ScoModel); 225-246 [predict] (ScoModel); 228-245 [predict] (EmbModel); 248-315 [gradient] (ScoModel); 317-379 [score] (ScoModel); 363-364 (ScoModel); 369-371 (ScoModel); 543-549 [_LoopCond] (PyrModel); 551-565 (PyrModel); 629-656 [_termination_rules_single] (PyrModel); 687-701 [_track_new_level] (PyrModel); 733-740 (PyrModel); 733-756 [_prepare_kernel_and_matrix] (PyrModel); 776-792 (PyrModel); 794-861 (PyrModel); 865-890 [fit] (PyrModel); 892-921 [predict] (PyrModel).
* `pointcloud.py`: 43-83 [__new__] (PcmModel); 85-110 [__array_finalize__] (PcmModel); 103-110 (PcmModel); 108-110 (PcmModel); 124-149 [__reduce__] (PcmModel); 151-159 (PcmModel); 161-174 (PcmModel); 176-201 (PcmModel); 231-292 [optimize_parameters] (PcmModel); 299-421 [pcm_subsample] (SubModel); 299-387 [pcm_subsample] (SubModel); 353-381 (SubModel); 390-421 [pcm_remove_outlier] (SubModel).
* `transform.py`: 57-67 [from_name] (ScaModel); 72-103 [fit] (ScaModel); 105-128 [transform] (ScaModel); 110-135 (TakensModel); 130-157 [fit_transform] (ScaModel); 159-178 [inverse_transform] (ScaModel); 194-200 [get_feature_names_out] (TrModel); 202-226 [fit] (TrModel); 228-233 [transform] (TrModel); 256-272 [get_feature_names_out] (TrModel); 298-303 [fit] (TrModel); 316-347 [transform] (TrModel); 349-373 [inverse_transform] (TrModel); 416-418 [get_feature_names_out] (PcaModel); 420-445 [fit] (PcaModel); 447-469 [transform] (PcaModel); 471-493 [fit_transform] (PcaModel); 495-515 [inverse_transform] (PcaModel); 518-851 (TakensModel); 571-608 [_validate_parameter] (TakensModel); 610-616 [_setup_delay_indices_array] (TakensModel); 625-655 [get_feature_names_out] (TakensModel); 631-648 (TakensModel); 657-700 [fit] (TakensModel); 729-828 [transform] (TakensModel); 781-789 (TakensModel); 793-825 (TakensModel); 812-813 (TakensModel); 830-851 [inverse_transform] (TakensModel); 1044-1072 [transform] (TrModel); 1057-1062 (TrModel); 1141-1218 [fit] (RbfModel); 1220-1243 [transform] (RbfModel); 1245-1276 [fit_transform] (RbfModel); 1278-1308 [inverse_transform] (RbfModel); 1340-1346 [powers_] (TrModel); 1359-1361 [_non_id_state_mask] (TrModel); 1396-1429 [transform] (TrModel); 1465-1475 [get_feature_names_out] (TrModel); 1501-1539 [transform] (TrModel); 1576-1587 (FdtModel); 1589-1592 [get_feature_names_out] (FdtModel, TrModel); 1594-1676 [fit] (FdtModel); 1645-1650 (FdtModel); 1678-1682 [partial_fit] (FdtModel); 1684-1718 [transform] (FdtModel).

Not modelled: plotting, `_systems.py` (example systems), printing and
documentation, `FeedforwardNN` (torch) apart from early stopping, scoring of
estimators, scikit-learn cloning and pipelines, warnings, sparse storage formats
(beyond the stored entries), floating-point rounding, and everything not named
above.

## Theorems

* C01 (TSCDataFrame index validation is exact), TscProps.v: `C01_construct_iff_valid`, `C01_construct_total`, `C01_accepts`, `C01_rejects_split_series`.
* C02 (IDs, number of time series and number of time steps describe the rows), TscProps.v: `C02_ids`, `C02_n_timesteps_int`, `C02_n_timesteps_table`, `C02_counts_sum_to_rows`, `C02_example_int`, `C02_example_table`.
* C03 (delta_time is the sampling interval), TscKindProps.v, TscProps.v: `C03_float_scalar_iff`, `C03_float_error_iff`, `C03_datetime_first_series`, `C03_float_scalar_example`, `C03_float_error_example`, `C03_datetime_example`, `C03_scalar_iff_regular`, `C03_regular_any_kind`, `C03_nan_iff_no_regular_series`, `C03_table_entries`, `C03_never_fails`, `C03_scalar_example`, `C03_small_steps_example`, `C03_table_example`, `C03_float_refuted`, `C03_unsorted_ids_refuted`, `C03_datetime_refuted`, `C03_large_steps_refuted`, `C03_float_degenerate_refuted`.
* C04 (is_same_time_values / is_equal_length are exact), TscProps.v: `C04_is_equal_length`, `C04_is_same_time_values`, `C04_example`, `C04_example_true`.
* C05 (shift_matrices pairs consecutive samples of the same series, and all of them), TscProps.v: `C05_pairs`, `C05_succeeds`, `C05_unsorted_unequal_refuted`, `C05_example_equal`, `C05_example_unequal`.
* C06 (shift matrices and from_shift_matrices are inverse to each other), TscProps.v: `C06_round_trip`, `C06_construct_succeeds`, `C06_example`.
* C07 (from_tensor addresses every entry), TscProps.v: `C07_from_tensor`, `C07_duplicate_ids_rejected`, `C07_example`.
* C08 (insert_ts adds exactly one series and keeps all others), TscProps.v: `C08_insert_iff`, `C08_default_id_is_max_plus_one`, `C08_present_id_rejected`, `C08_histories`, `C08_example`.
* C09 (initial_states, final_states and drop_last_n_samples select per series), AccProps.v, TscProps.v: `C09_drop_last`, `C09_initial_states`, `C09_final_states`, `C09_short_series_rejected`, `C09_example`.
* C10 (iter_timevalue_window yields exactly the full windows), TscProps.v: `C10_per_series`, `C10_collection_wide`, `C10_collection_wide_unsorted`, `C10_window_positions`, `C10_bad_parameters_rejected`, `C10_example`, `C10_unsorted_example`.
* C11 (assign_ids_train_test never mixes series or folds), TscProps.v: `C11_train_test_ids`, `C11_accepts_disjoint_index_sets`, `C11_example`.
* C12 (TSC cross-validation splits are leak-free partitions), CvProps.v: `C12_series_split`, `C12_time_split`, `C12_series_split_succeeds`, `C12_time_split_succeeds`, `C12_series_example`, `C12_time_example`.
* C13 (TSCWindowFoldTime test windows), CvProps.v: `C13_window_splits`, `C13_windows_disjoint`, `C13_example_valid`, `C13_example`, `C13_unsorted_ids_refuted`, `C13_no_training_data_refuted`.
* C14 (Takens embedding delays), TakensProps.v: `C14_embedding`, `C14_succeeds_when_long_enough`, `C14_too_short_rejected`, `C14_parameters`, `C14_labels`, `C14_inverse_transform`, `C14_example`.
* C15 (predict evaluates the requested time values only from the reference time on), PredProps.v: `C15_requested_times`, `C15_accepted_iff`, `C15_default`, `C15_no_common_reference`, `C15_array_initial_condition`, `C15_control_collection`, `C15_example_valid`, `C15_example`.
* C16 (reconstruct keeps labels: every series is reconstructed from its own initial condition), ReconProps.v: `C16_dmd_labels`, `C16_dmd_once`, `C16_dmd_succeeds`, `C16_edmd_labels`, `C16_example_edmd`, `C16_example_dmd`, `C16_edmd_refuted`.
* C17 (DMD recovers exact linear dynamics), LinProps.v: `C17_recovers_system`, `C17_predicts_trajectory`, `C17_example`.
* C18 (DMD in full mode is the least squares solution), LinProps.v: `C18_least_squares`, `C18_lstsq_exists`.
* C19 (Spectral and matrix modes predict the same trajectories), LinProps.v: `C19_spectral_equals_matrix`, `C19_post_map`, `C19_controlled`, `C19_controlled_trajectory`, `C19_hypotheses_met`.
* C20 (Left eigenvectors from solve are the dual basis), LinProps.v: `C20_dual_basis`, `C20_fails_iff_singular`, `C20_singular_refuted`.
* C21 (Permuting Koopman triplets does not change predictions), LinProps.v: `C21_sorted_triplets`, `C21_sorted_triplets_without_left`.
* C22 (DMDControl identifies controlled linear systems), LinProps.v: `C22_recovers_controlled_system`, `C22_least_squares`, `C22_example`.
* C23 (OnlineDMD equals weighted batch DMD after any stream), OnlineProps.v: `C23_online_least_squares`, `C23_batch_fit_least_squares`, `C23_batching`, `C23_batching_batch_fit`, `C23_ready`, `C23_oracles_exist`, `C23_example`.
* C24 (StreamingDMD processes every snapshot pair of a batch), StreamProps.v: `C24_later_batches_complete`, `C24_first_batch`, `C24_first_batch_complete_iff`, `C24_first_batch_refuted`, `C24_sampling_of_first_batch_refuted`, `C24_compression_keeps_smallest`, `C24_compression_refuted`, `C24_example`.
* C25 (KMPC condensed prediction matrices), MpcProps.v: `C25_condensed_matrices`.
* C26 (KMPC quadratic program is the tracking cost), MpcProps.v: `C26_quadratic_program`, `C26_optimal_sequence`, `C26_invalid_costs_rejected`, `C26_documented_bounds_refuted`, `C26_example`.
* C27 (AffineKgMPC gradient matches its cost), AffMpcProps.v: `C27_gradient_iff_unit_weights`, `C27_state_term_iff_unit_weights`, `C27_gradient_refuted`, `C27_unit_weights`.
* C28 (Controlled differential systems use their control input), SysProps.v: `C28_supported_configurations`, `C28_flowmap_matrix_uses_control`, `C28_flowmap_spectral_uses_control`, `C28_example`, `C28_controlled_differential_unreachable`, `C28_differential_ignores_control`, `C28_affine_refuted`.
* C29 (A linear system object can be set up again only in the documented way), SysProps.v: `C29_first_matrix_setup`, `C29_matrix_setup_once`, `C29_spectral_setup_repeatable`, `C29_spectral_last_wins`, `C29_spectral_example`, `C29_failed_setup_blocks`, `C29_failed_setup_refuted`, `C29_left_eigenvectors_refuted`, `C29_matrix_setup_in_spectral_mode_refuted`.
* C30 (Selecting features (qois) keeps names and values together), QoiProps.v: `C30_by_name_correct`, `C30_spectral_correct_iff_storage_order`, `C30_spectral_succeeds`, `C30_example`, `C30_spectral_refuted`.
* C31 (sort_eigenpairs is a consistent permutation), QoiProps.v: `C31_sorted_pairs`, `C31_succeeds_iff`, `C31_magnitude_if_nonnegative`, `C31_example`, `C31_magnitude_refuted`.
* C32 (Sparse distance matrices store exactly the pairs below the cut-off), DistProps.v: `C32_brute_force`, `C32_trees`, `C32_example`, `C32_backends_agree_refuted`, `C32_zero_cut_off`.
* C33 (kmin guarantees k nearest neighbours), DistProps.v: `C33_k_nearest_stored`, `C33_succeeds`, `C33_oracle_exists`, `C33_example`, `C33_squared_metric_refuted`, `C33_infinite_cut_off_fails`.
* C34 (Distance computations do not depend on earlier calls), DistProps.v: `C34_pairwise_independent_of_history`, `C34_componentwise_reference`, `C34_same_reference_correct`, `C34_example`, `C34_other_reference_refuted`.
* C35 (Symmetric conjugate kernel has the spectrum of the Markov matrix), KernProps.v: `C35_conjugate_symmetric`, `C35_same_eigenpairs`, `C35_undo_basis_change`, `C35_zero_row_rejected`, `C35_unsymmetric_internal_kernel_refuted`.
* C36 (Diffusion kernel rows are probability distributions), KernProps.v: `C36_rows`, `C36_sparse_same`, `C36_renormalisation`, `C36_isolated_point`, `C36_example`.
* C37 (DiffusionMaps.transform reproduces the embedding on training points), KernProps.v: `C37_transform_training_points`, `C37_embedding`, `C37_example`, `C37_selected_with_exponent_refuted`, `C37_single_coordinate_refuted`.
* C38 (Results after refit depend on the last fit only), RefitProps.v: `C38_refit_like_new`, `C38_transform_last_fit`, `C38_inverse_transform_first_use`, `C38_other_number_of_features_refuted`, `C38_example`, `C38_inverse_transform_refuted`, `C38_selected_coordinates_refuted`, `C38_failed_fit_refuted`.
* C39 (Roseland transform agrees with fit_transform on training data), EmbProps.v: `C39_transform_training_points`, `C39_time_exponent`, `C39_time_exponent_refuted`, `C39_landmark_diffusion`.
* C40 (Jointly smooth functions are orthonormal and their extension is consistent), EmbProps.v: `C40_orthonormal`, `C40_extension_at_training_points`, `C40_extension_refuted`, `C40_too_many_functions_refuted`, `C40_multi_orthonormal`, `C40_multi_extension`, `C40_multi_example`.
* C41 (Geometric harmonics reproduce band-limited targets), EmbProps.v: `C41_projection`, `C41_band_limited`, `C41_example`, `C41_any_kernel`, `C41_stochastic_refuted`.
* C42 (Laplacian pyramids meet the residual tolerance on training data), PyrProps.v: `C42_training_residual`, `C42_terminates`, `C42_duplicates_refuted`, `C42_example`, `C42_example_distinct`, `C42_example_duplicates`.
* C43 (Early stopping reacts to `patience` consecutive non-improvements), StopProps.v: `C43_stops_after_patience`, `C43_example`, `C43_drift_refuted`, `C43_nan_refuted`.
* C44 (Gaussian kernel scale estimate meets the tolerance), CknnProps.v, EstProps.v: `C44_cut_off_estimate`, `C44_cut_off_k1_refuted`, `C44_kernel_at_cut_off`, `C44_tolerance_refuted`, `C44_beyond_cut_off`, `C44_example`.
* C45 (Continuous nearest neighbour graph), CknnProps.v: `C45_edges`, `C45_training_points`, `C45_second_pairwise_rejected`, `C45_example`, `C45_k1_refuted`.
* C46 (Cone kernel uses the angle between velocity and displacement), ConeProps.v: `C46_kernel_matrix`, `C46_training_samples`, `C46_without_angle`, `C46_cosine_of_cosine`, `C46_documented_refuted`, `C46_alignment_refuted`, `C46_sample_at_rest`, `C46_example`.
* C47 (PCManifold keeps its own distance parameters), PcmProps.v: `C47_cut_off`, `C47_epsilon`, `C47_separate_objects`, `C47_constructor_refuted`, `C47_view_refuted`, `C47_example`.
* C48 (Symmetric eigen-solver is used only for symmetric matrices), EigProps.v: `C48_solver`, `C48_eigenpairs`, `C48_all_eigenpairs_refuted`, `C48_dmap_refuted`, `C48_example`.
* C49 (Local regression selection picks the largest residuals), LrsProps.v: `C49_dim`, `C49_dim_first`, `C49_threshold`, `C49_nan_refuted`, `C49_example`.
* C50 (Residual filter keeps exact eigenpairs), ResProps.v: `C50_residual`, `C50_residual_reduced`, `C50_zero`, `C50_symmetric_keeps_all`, `C50_exact_pair_refuted`, `C50_reduced_conjugate_refuted`, `C50_reduced_normal`, `C50_threshold`, `C50_keep_n`, `C50_example`.
* C51 (Control input is matched to initial conditions by time series ID), PredProps.v: `C51_control_matched_by_id`, `C51_unsorted_control_refuted`.
* C52 (A controlled prediction labelled t is the state (t - t0)/dt steps after the initial condition), PredProps.v: `C52_flow_on_equispaced_times`, `C52_controlled_prediction`, `C52_other_spacing_refuted`.
* C53 (Control input may be given as an array), PredProps.v: `C53_array_control_times`, `C53_edmd_accepts`, `C53_float_reference_refuted`, `C53_dmd_refuted`.
* C54 (Predictions compose), LinProps.v: `C54_predictions_compose`.
* C55 (Diffusion map pre-image), KernProps.v: `C55_preimage_of_embedding`, `C55_time_exponent_refuted`.
* C56 (EDMD is exact for dictionaries that evolve linearly), KoopProps.v: `C56_exact_prediction`, `C56_modes_equal_inverse_map`, `C56_example`.
* C57 (Metrics compare each sample with the prediction for the same series and time), MetProps.v: `C57_timeseries`, `C57_timestep`, `C57_feature`, `C57_uniform`, `C57_defined`, `C57_exact`, `C57_score`, `C57_example`.
* C58 (Prior scaling and options of metrics act as documented), MetProps.v: `C58_min_max`, `C58_standard`, `C58_l2_normalize_refuted`, `C58_rrmse_refuted`, `C58_user_weights_refuted`, `C58_max_refuted`, `C58_example`.
* C59 (Identification of generators and control-affine systems recovers the true system), GenProps.v: `C59_recovers_generator`, `C59_generator_least_squares`, `C59_recovers_affine_system`, `C59_affine_least_squares`, `C59_example`.
* C60 (Finite differences in time are exact and stay within each series), DerProps.v: `C60_values`, `C60_defined`, `C60_datetime_refuted`, `C60_exact_for_polynomials`, `C60_example`.
* C61 (Splitting irregular time series), AsgProps.v: `C61_pieces`, `C61_drop_total`, `C61_keep_total`, `C61_errors`, `C61_example`, `C61_example_keep`, `C61_example_drop`, `C61_float_refuted`.
* C62 (Normalised time values), AccProps.v: `C62_normalize`, `C62_sound`, `C62_rejects`, `C62_float_refuted`.
* C63 (Continuing a series with its last state), AccProps.v: `C63_fill`, `C63_rejects`, `C63_fill_refuted`.
* C64 (States augmented with the preceding control input), AccProps.v: `C64_augment`, `C64_covered`, `C64_mismatch`, `C64_augment_refuted`.
* C65 (Identity transformation), TrProps.v: `C65_transform`, `C65_roundtrip`, `C65_rename_refuted`, `C65_array_refuted`, `C65_const_refuted`.
* C66 (Names of the transformed features), TrProps.v: `C66_identity`, `C66_select`, `C66_lambdas`, `C66_lambdas_refuted`, `C66_finite_difference_refuted`.
* C67 (Functions applied to features), TrProps.v: `C67_lambdas`.
* C68 (Polynomial features), TrProps.v: `C68_monomials`.
* C69 (Moving average), TrProps.v: `C69_moving_average`, `C69_short_series`.
* C70 (Feature selection), TrProps.v: `C70_by_index`, `C70_by_name_refuted`.
* C71 (Radial basis coefficients), RbfProps.v: `C71_coefficients`, `C71_fit_transform`, `C71_roundtrip`, `C71_refit_refuted`, `C71_refit_size_refuted`.
* C72 (Validation of time series collections), ChkProps.v: `C72_check`, `C72_datetime_refuted`, `C72_float_refuted`.
* C73 (Initial conditions), ChkProps.v: `C73_validate`, `C73_validate_dt`, `C73_validate_arguments`, `C73_from_tsc`, `C73_from_array`.
* C74 (Data accepted by fit of time series models), ChkProps.v: `C74_accepted`, `C74_aligned`, `C74_controls`, `C74_irregular`, `C74_aligned_refuted`.
* C75 (A feature as a matrix), BldProps.v: `C75_array`, `C75_error`, `C75_frame`, `C75_example`, `C75_frame_refuted`.
* C76 (Expanding a collection by new time values), BldProps.v: `C76_single`, `C76_single_succeeds`, `C76_many`, `C76_error`, `C76_example_single`, `C76_example_many`, `C76_refuted`, `C76_between_refuted`.
* C77 (Constantly sampled time values), BldProps.v: `C77_values`, `C77_error`, `C77_complete`, `C77_example`, `C77_refuted`.
* C78 (Constructors of collections), BldProps.v: `C78_single`, `C78_single_error`, `C78_array`, `C78_array_default`, `C78_items`, `C78_roundtrip`, `C78_example_single`, `C78_example_items`.
* C79 (Shifting time values), BldProps.v: `C79_delta`, `C79_delta_error`, `C79_given`, `C79_given_error`, `C79_given_labels`, `C79_default`, `C79_example`, `C79_example_default`, `C79_given_refuted`, `C79_default_refuted`.
* C80 (Checks that compare collections), BldProps.v: `C80_required_ids`, `C80_required_order`, `C80_equal_const`, `C80_equal_const_error`, `C80_equal_series`, `C80_example`, `C80_symmetric_refuted`, `C80_reflexive_refuted`.
* C81 (Windowed reconstruction and score), WinProps.v: `C81_windows`, `C81_score`, `C81_errors`, `C81_example`, `C81_score_control_refuted`.
* C82 (Reconstruction with control input), WinProps.v: `C82_reconstruct`, `C82_elapsed`, `C82_start_refuted`, `C82_lengths_refuted`, `C82_example`.
* C83 (Windowed reconstruction with control input), WinProps.v: `C83_windows`, `C83_start_refuted`, `C83_matching_refuted`, `C83_example`, `C83_times_refuted`.
* C84 (Stepwise prediction), StepProps.v: `C84_stepwise`, `C84_placeholder`, `C84_independent`, `C84_example`, `C84_order_refuted`, `C84_single_time_refuted`, `C84_single_time_example`.
* C85 (The full state survives the dictionary of an EDMD model), DictProps.v: `C85_fit`, `C85_attached`, `C85_preserved`, `C85_reordered_refuted`, `C85_partial_fit_exclude_refuted`, `C85_partial_fit_include_refuted`, `C85_example_attached`, `C85_example_reordered`.
* C86 (fit and partial_fit of an EDMD model exclude each other, and rejected calls have effects), DictProps.v: `C86_mode`, `C86_exclusive`, `C86_same_kind`, `C86_control_lost_refuted`, `C86_failed_call_refuted`, `C86_stepwise_refuted`, `C86_example`.
* C87 (The closed control loop follows the receding-horizon law), LoopProps.v: `C87_closed_loop`, `C87_last_refuted`, `C87_start`, `C87_default_refuted`, `C87_id_refuted`, `C87_example`.
* C88 (The linear quadratic regulator is optimal), LqrProps.v: `C88_optimal`, `C88_bounded`, `C88_control`, `C88_inputs_refuted`, `C88_equilibrium_refuted`, `C88_example`.
* C89 (Grid search evaluates each candidate on each split without leakage and picks the first best), SearchProps.v: `C89_table`, `C89_best`, `C89_refit`, `C89_succeeds`, `C89_splitters`, `C89_divided`, `C89_no_leak`, `C89_control_refuted`, `C89_example`, `C89_raise_example`.
* C90 (Post observables: errors are aligned with the data, but the call never returns), PostProps.v: `C90_errors`, `C90_best`, `C90_aligned`, `C90_initial_refuted`, `C90_never_refuted`, `C90_example`, `C90_usable`.
* C91 (Simulated systems: which initial condition is driven by which control, and what is returned), SimProps.v: `C91_callable`, `C91_uncontrolled`, `C91_one_step`, `C91_hold`, `C91_one_step_frame_refuted`, `C91_channels_refuted`, `C91_ode_frame`, `C91_ode_array`, `C91_ode_default_refuted`, `C91_polar_refuted`, `C91_polar_frame_refuted`, `C91_hold_example`, `C91_hold_hypotheses`, `C91_channels_example`, `C91_one_step_example`, `C91_one_step_frame_example`, `C91_callable_example`, `C91_uncontrolled_example`, `C91_ode_example`, `C91_polar_example`.
* C92 (A DMD of reduced rank is the least squares fit on the leading singular directions and recovers invariant subspaces), RedProps.v: `C92_accepts`, `C92_regression`, `C92_exact_modes`, `C92_projected_modes`, `C92_recovers`, `C92_predicts`, `C92_exact_span`, `C92_example`, `C92_exact_initial_refuted`, `C92_matrix_mode_refuted`, `C92_accepts_example`.
* C93 (Koopman eigenfunctions evolve with their eigenvalues and the triplets are ranked), KefProps.v: `C93_eigenfunctions`, `C93_decomposition`, `C93_ranked`, `C93_argsort_exists`, `C93_filtered_left`, `C93_example`, `C93_filtered_refuted`, `C93_lstsq_exists`.
* C94 (Variable bandwidth diffusion maps approximate the generator of a diffusion), VarProps.v: `C94_accepts`, `C94_validation_refuted`, `C94_fit`, `C94_total`, `C94_symmetric`, `C94_constant`, `C94_default`, `C94_default_refuted`, `C94_example`.
* C95 (EDMD predicts every series from its own samples at the requested times), EdpProps.v: `C95_free`, `C95_free_only`, `C95_control`, `C95_control_accepts`, `C95_array`, `C95_array_samples`, `C95_array_control`, `C95_control_given`, `C95_inverse_control_refuted`, `C95_score`, `C95_example`, `C95_hypotheses`.
* C96 (Simulating several DC motor trajectories), DcmProps.v, RkProps.v: `C96_simulated`, `C96_single_control`, `C96_accepted_only`, `C96_by_id`, `C96_example_U`, `C96_hypotheses`, `C96_example`, `C96_by_id_refuted`, `C96_motor_affine`, `C96_second_order`, `C96_third_order_error`, `C96_order_refuted`.
* C97 (Subsampling of point clouds and removal of outliers), SubProps.v: `C97_subsample`, `C97_subsample_accepts`, `C97_covers`, `C97_small_cloud`, `C97_example`, `C97_apart_refuted`, `C97_entire_refuted`, `C97_min_distance_default`, `C97_default_refuted`, `C97_outlier`, `C97_outlier_infinite`, `C97_outlier_monotone`, `C97_outlier_one`, `C97_outlier_limit_refuted`, `C97_outlier_example`, `C97_random`, `C97_random_example`.
* C98 (Evolving a linear system treats every initial condition separately), EvoProps.v: `C98_flowmap_matrix`, `C98_differential_matrix`, `C98_flowmap_spectral`, `C98_differential_spectral`, `C98_controlled`, `C98_controlled_spectral`, `C98_accepts_only`, `C98_postmap_spectral`, `C98_postmap_matrix_refuted`, `C98_postmap_rectangular_refuted`, `C98_default_names_refuted`, `C98_controlled_example`, `C98_example`.
* C99 (The benchmark systems are the systems they are named after), BenProps.v: `C99_angle`, `C99_limit_cycle`, `C99_finite_differences`, `C99_hopf`, `C99_hopf_polar`, `C99_hopf_polar_refuted`, `C99_pendulum_position`, `C99_pendulum_energy`, `C99_inverted_pendulum`, `C99_inverted_pendulum_control_refuted`, `C99_inverted_pendulum_rest_refuted`, `C99_inverted_pendulum2`, `C99_inverted_pendulum2_parameters_refuted`, `C99_trigonometric`, `C99_trigonometric_velocity_refuted`, `C99_burger`, `C99_burger_seam_refuted`, `C99_three_points`, `C99_hopf_example`, `C99_pendulum_example`, `C99_angle_example`, `C99_burger_example`.
* C100 (Radial kernels are the documented functions of the distance and positive), RadProps.v: `C100_dense`, `C100_sparse`, `C100_thinplate_sparse_refuted`, `C100_monotone`, `C100_positive`, `C100_multiquadric`, `C100_interpolation_unique`, `C100_markov_eigenvalues`, `C100_cut_off_positive_refuted`, `C100_bandwidth_history`, `C100_bandwidth_stale_refuted`, `C100_metric`, `C100_metric_retry_refuted`, `C100_cloud_example`, `C100_bandwidth_example`.
* C101 (The pseudospectrum is the minimal residual over all observables), PsProps.v: `C101_minimal_residual`, `C101_minimal_residual_reduced`, `C101_unique`, `C101_conjugate`, `C101_lipschitz`, `C101_zero_at_eigenvalues`, `C101_positive_mass`, `C101_available`, `C101_two_pairs_refuted`, `C101_eigfuncs_refuted`, `C101_observable_overwritten_refuted`, `C101_example`.
* C102 (Generated control signals belong to the given state and reference, whatever was computed before), KgProps.v: `C102_control_signal`, `C102_arguments_unchanged`, `C102_construct`, `C102_bounds`, `C102_vector_reference_refuted`, `C102_in_place_refuted`, `C102_example`, `C102_bounds_example`.
* C103 (The chosen distance algorithm returns the distances that were asked for), SelProps.v: `C103_cut_off`, `C103_cut_off_and_k`, `C103_dense`, `C103_nearest_neighbours`, `C103_knn_backend_refuted`, `C103_k_ignored_refuted`, `C103_k_not_guaranteed_refuted`, `C103_options_dropped_refuted`, `C103_options_kept`, `C103_backend`, `C103_symmetric_backends_history_refuted`, `C103_example`, `C103_nearest_example`.
* C104 (Jointly smooth functions are the smoothest functions of all, with unique eigenvalues), JsfProps.v: `C104_two_splits`, `C104_two_splits_balanced`, `C104_more_splits`, `C104_energies_unique`, `C104_algorithms_agree`, `C104_energies`, `C104_kernel_eigenvectors`, `C104_threshold`, `C104_threshold_not_shuffled_refuted`, `C104_parameters`, `C104_two_splits_example`, `C104_more_splits_example`, `C104_cut_off_example`, `C104_threshold_example`.
* C105 (Generators identified from sampled time series), GdmdProps.v: `C105_parameters`, `C105_defined`, `C105_datetime_refuted`, `C105_least_squares`, `C105_exact_for_polynomials`, `C105_sampled_system`, `C105_central_generator`, `C105_shift_index_refuted`, `C105_affine_exact`, `C105_affine_times_refuted`, `C105_affine_order_refuted`, `C105_growth_example`, `C105_integrator_example`, `C105_affine_example`.
* C106 (The Mahalanobis kernel), MahProps.v: `C106_values`, `C106_symmetric`, `C106_range`, `C106_identity`, `C106_invariant`, `C106_covariance_refuted`, `C106_diagonal_sparse`, `C106_zero_distance_refuted`, `C106_defined`, `C106_queries_refuted`, `C106_input_overwritten_refuted`, `C106_call_arguments`, `C106_example`.
* C107 (Feature scaling is an exact, row-wise and invertible change of units), ScaProps.v: `C107_from_name`, `C107_roundtrip`, `C107_rows`, `C107_sample_order`, `C107_increasing`, `C107_standardized`, `C107_min_max`, `C107_fit_transform`, `C107_array_inverse_refuted`, `C107_number_labels`, `C107_failed_fit`, `C107_labels_refuted`, `C107_refit_refuted`, `C107_example`.
* C108 (Principal components: best affine subspace, exact projection and round trips), PcaProps.v: `C108_projection`, `C108_optimal`, `C108_scores`, `C108_components`, `C108_array_refuted`, `C108_refit`, `C108_refit_refuted`, `C108_labels`, `C108_example`.
* C109 (The finite difference transformation is causal, per series and checks its data), FdtProps.v: `C109_fit`, `C109_transform`, `C109_causal`, `C109_labels`, `C109_number_labels_refuted`, `C109_names_refuted`, `C109_spacing_refuted`, `C109_refit_refuted`, `C109_refit`, `C109_partial_fit`, `C109_example`.
* C110 (Prediction and score of the geometric harmonics interpolator), ScoProps.v: `C110_predict`, `C110_raw_values`, `C110_uniform_average`, `C110_documented_metric_refuted`, `C110_one_point_refuted`, `C110_weights_refuted`, `C110_gradient_column`, `C110_example`.
* C111 (Kernel objects: what is remembered and which calls are accepted), KoProps.v: `C111_dmap_history`, `C111_dmap_values`, `C111_training_points`, `C111_reference_refuted`, `C111_roseland_history`, `C111_roseland_values`, `C111_roseland_alpha_refuted`, `C111_example`.
* C112 (A column transformer joins its parts by series and time), ColProps.v: `C112_rows`, `C112_names`, `C112_order`, `C112_series_order_refuted`, `C112_columns`, `C112_missing_column`, `C112_n_features_out`, `C112_n_features_out_refuted`, `C112_example`.
* C113 (Slices of an EDMD model are parts of its dictionary), SliProps.v: `C113_slice`, `C113_stride`, `C113_compose`, `C113_number`, `C113_number_out_of_range`, `C113_name`, `C113_example`.
* C114 (New values under the indices of another collection), SamProps.v: `C114_result`, `C114_new_columns`, `C114_cells`, `C114_errors`, `C114_aligned_refuted`, `C114_example`.

## Findings

Deviations between documentation (or reasonable expectation) and the code met while
modelling.  "(Cnn)" marks those that are proved as `_refuted` theorems or stated by the
theorems of that property; the others come from reading the code.

**Time series collections and accessors**

* NaN and infinite time values are accepted by the index validation; an empty index raises IndexError; the check for negative times is skipped for datetimes.
* `delta_time`: wrong or missing result for float times, unsorted IDs, datetime index and very large integer steps (C03).
* `shift_matrices` pairs samples of different series if series of different length are stored in an order that differs from the sorted IDs (C05); the window fold splitter has the same defect (C13).
* `insert_ts` changes the index of the caller's data frame.
* `fixed_delta`: `time_values()` is scaled, `select_time_values` uses the raw labels.
* `check_required_time_delta` fails with AttributeError for datetimes.
* `shift_time_per_time_series` repeats shifts in storage order by counts in sorted order and changes the caller's index.
* `fill_timeseries_with_last_state` appends states with ID 0; `augment_control_input` treats `prepend=True` as 1.
* `is_integer(0.0)` raises ZeroDivisionError.

**Linear systems and DMD**

* `select_strategy` never reaches the affine and the controlled differential solver; `differential_matrix_controlled` is not executable (C28).
* A failed `setup_matrix_system` blocks later set-ups; `setup_spectral_system` checks the right eigenvectors twice and never the left; `setup_matrix_system` is accepted in spectral mode but leaves the system not set up (C29).
* `sort_eigenpairs` documents magnitude but sorts by complex value.
* `_check_time_values` combines conditions with `and` where `or` is meant.
* `compute_spectral_components` raises LinAlgError for every singular system matrix (C20).
* The residual filter evaluates right instead of left eigenvectors; with a reduced rank it conjugates the eigenvalue; threshold 0 is ignored (C50).
* `pseudospectrum` raises AttributeError instead of its own message (misspelled attribute).
* `DMDControl` documentation promises `DMD.predict` with an array `U`: always rejected; EDMD accepts it for integer reference times only (C53).
* Control input is compared with initial conditions in sorted order but used in storage order: swapped controls (C51).
* `flowmap_matrix_controlled` ignores time differences (`if False and`); the sampling of `U` is not compared with `dt` (C52).
* Empty `time_values` raise IndexError; normalised time uses the smallest requested time as the time of the initial condition.
* `OnlineDMD(is_diagonalize=True)` calls a function that does not exist; `OnlineDMD.fit` does not set up the spectral system.
* `StreamingDMD` drops the pair (second, third sample) of the first batch, takes `dt_` from the first pair only, keeps the smallest eigen-directions, checks the wrong argument for degenerate series (C24).

**EDMD**

* `_reconstruct` mislabels series (C16), passes the full `U` and shifts `X` but not `U`.
* `qois` in spectral mode are returned in storage order under the requested names (C30).
* `_inverse_map_control` contains an unreachable branch.

**Model predictive control**

* `KMPC` documents bounds as [max, min], the code uses [lower, upper]; a terminal cost of 0 is silently replaced by the running cost (C26).
* The gradient of `AffineKgMPC` lacks the squared weights (C27).
* `LQR` uses `preset_target_state` inconsistently.

**Distances and kernels**

* A cut-off of 0 is treated as infinity; brute force stores d < cut-off, trees d ≤ cut-off (C32).
* `kmin > 1` with an infinite cut-off raises AttributeError, `BruteForceDist` ignores `kmin`, `kmin` inserts unsquared distances for sqeuclidean (C33).
* Tree backends reuse the tree of an earlier call (C34).
* All eigenpairs of a non-symmetric matrix of a "symmetric" kernel are computed with a symmetric solver (C48).
* `DmapKernelFixed(symmetrize_kernel=True)` conjugates non-symmetric internal kernels; `alpha > 0` with an isolated out-of-sample point raises ZeroDivisionError (C35, C36).
* `_symmetric_matrix_division` works in place and overwrites the caller's distance matrix; kernels cannot be evaluated pairwise twice.
* Continuous nearest neighbours: k = 1 always divides by zero, `(diagonal != 0).all()` should be any (C45).
* `ConeKernel` takes the cosine of the cosine, which reverses the effect of zeta; samples at rest have kernel 1 with every sample; epsilon = 0 is accepted but fails an assertion (C46).
* `estimate_scale` returns a scale with kernel value sqrt(tol) at the cut-off; `estimate_cutoff` ignores k for fewer than 10 points and accepts k = 1, which gives cut-off 0 (C44).
* `GaussianKernel` with a callable epsilon keeps a stale value.
* `PCManifold` ignores the distance parameters passed to the constructor; views share dictionary and kernel (C47).
* `pcm_subsample` uses an infinite minimum distance by default; `pcm_remove_outlier` compares squared distances with the cut-off.

**Manifold learning**

* Selected coordinates with `time_exponent ≠ 0` fail or have the wrong shape (C37); `inverse_transform` ignores `time_exponent` (C55).
* Refit: `target_coords_`, `n_features_in_`, feature names and the coefficients of `inverse_transform` survive; a failed refit mixes states (C38).
* Roseland: `fit_transform` ignores `time_exponent`, `alpha > 0` raises (C39).
* Jointly smooth functions: `transform` fails if functions are truncated, the extension is scaled by (1+s)/2 or s²/N; `np.array(dict.values())` (C40).
* Geometric harmonics with a stochastic kernel are not a projection; `score` ignores sample weights (C41).
* Laplacian pyramids: no termination for duplicate points with different values, `mu = 1` is accepted, the auto-adaptive fit uses a zero diagonal but predict does not (C42).
* `EarlyStopping`: drift with delta > 0, NaN losses never stop, NaN losses are dropped by the truncation of the record (C43).
* `LocalRegressionSelection`: nan residuals bring the trivial coordinate in, `dim = 1` ignores the residuals (C49).

**Transforms**

* `TSCIdentity(include_const=True).inverse_transform` of arrays raises TypeError; `TSCApplyLambdas` names columns in another order than the values; `TSCFiniteDifference` mislabels columns; a TypeError in `_validate_datafold_data` is created but not raised.

**Metrics**

* `l2_normalize` scales samples instead of features and does not use the factors of `y_true` for the prediction (C58); `rrmse` divides the mean of the squared errors by the sum of the squared values (C58); feature weights fail for l2, linf and rrmse, `max` for several features (C58).

**Generators**

* `gDMDAffine` selects states and controls by the union of the time values of the derivatives: series with different time ranges give different numbers of rows and an error (C59 is stated for aligned data).

**Finite differences**

* `time_derivative` always raises TypeError for datetime indices, because a timedelta has no power (C60).

**Splitting irregular series**

* For float time values `delta_time` ignores the first interval, so `assign_ids_const_delta` leaves e.g. the times 0, 5, 6, 7 in one series (C61).
* Two samples followed by a gap (0, 1, 5, 6) become two single samples and a pair: a pair at the beginning of a series is not kept, and a single pair is dropped as well (not claimed otherwise in C61).

**Accessor functions**

* `normalize_time` cuts the quotient off instead of rounding it: regular float times such as 0.2 + 0.7 i produce a duplicate time and an error (C62); series that are not aligned lose their offset (C62).
* `fill_timeseries_with_last_state` creates a second series with ID 0 if the series has another ID, and fails for datetime indices (C63).
* `augment_control_input` compares the first ID with `prepend=True`, i.e. 1: collections whose first series has ID 1 always fail (C64).

**Feature transformations**

* `TSCIdentity.inverse_transform` does not undo the renaming, fails for arrays with `include_const` (`ndarray.copy(deep=True)`), and `include_const` overwrites a feature named const (C65).
* `TSCApplyLambdas.get_feature_names_out` lists the names in another order than the columns of `transform`; `TSCFiniteDifference.get_feature_names_out` never lists the columns (C66).
* `TSCFeatureSelect` rejects all selections by name, because the data type of an array of strings is never equal to `np.str_` (C70).
* `TSCRadialBasis` keeps `inv_coeff_matrix_` when it is fitted again: `inverse_transform` then uses the centres of the first fit, or fails if their number changed (C71). The parameter `exact_distance` has no effect.

**Validation**

* `check_required_time_delta` raises a bare AttributeError for datetime indices, and only AssertionError is turned into TSCException (C72); for float times `delta_time` takes the minimum of an empty array for degenerate series in collections with different lengths (C72).
* `_validate_and_setup_fit_attrs` refers to `X.time_delta`, which does not exist, in the message of the intended NotImplementedError (C74); it compares only the span of the whole collection with the sampling interval, so series with different offsets may be accepted (C74).

**Building and shifting collections**

* `feature_to_array(as_frame=True)` and `expand_time_values` label data in storage order with sorted IDs: samples move to another series if the series are not stored in the order of their IDs (C75, C76). For one series `expand_time_values` rejects times between the samples, for several it accepts them (C76).
* `const_sampled_time_values` omits the times of series with another offset (C77).
* `shift_time_per_time_series` repeats shift values and numbers of time steps in two different orders; for series not stored in the order of their IDs samples are moved by the shift of another series (C79). Both shift methods change the collection on which they are called.
* `check_equal_delta_time` raises a ValueError instead of the documented TSCException if only the second argument is not constant, and rejects an irregular series compared with itself (C80).

**Reconstruction with control input**

* `_window_score` never hands on U: the windowed score of a controlled model always raises ValueError (C81); `EDMDWindowPrediction._validate` is never called by `adapt_model`.
* `EDMD._reconstruct` shifts X to start at time 0 but not U: the control that belongs to X is rejected for every series that does not start at 0, and control of other times is accepted (C82, C83). The whole U is validated for every group of series, so series of different lengths cannot be reconstructed with control (C82).
* `_window_reconstruct` cuts U into windows of the length of those of X: U needs one more sample than `reconstruct` accepts (C83).

**Stepwise prediction**

* `_predict_stepwise_transform` inherits the exchange of samples of `expand_time_values` (C76): initial conditions not stored in the order of their IDs are predicted under the ID of another series; a single series with only the time of the initial condition requested fails (C84).

**EDMD: dictionary and life cycle**

* The projection that recovers the state ignores the order of the features: a dictionary that preserves the state in another order (for example a column transformer) makes `inverse_transform` and `predict` return exchanged columns (C85).
* `partial_fit` takes the return value of `_validate_dictionary` (always True) for "dictionary preserves the state": it never attaches the state, and without `include_id_state` the double negation `not not` rejects exactly the allowed case (C85).
* A rejected `partial_fit` resets `is_controlled_`; a failed first `partial_fit` blocks `fit` for ever; `partial_fit` never sets `is_state_transition_map_`, so stepwise predictions raise AttributeError (C86).

**Control**

* `control_system_reference`: the default `augment_control=False` stores the current state twice and fails in the first step; IDs other than 0 fail with `augment_control=True`, because `from_array` labels the control with ID 0; the loop stops one sample before the end of the reference (C87).
* `LQR.control_sequence` passes an array of shape (n_control, n_samples) to `from_array` with a single time value: it fails for more than one control input (C88).

**Grid search and post observables**

* `EDMDCV` scores with `estimator.score(X)` without control input: for models fitted with `U` the default `error_score="raise"` always raises, and a numeric `error_score` makes all candidates equal, so the first one is chosen (C89).
* `EDMDPostObservable._adapt_edmd_model` calls `_least_squares_inverse_map` without its required argument `U`: `fit_transform` always raises TypeError; `_compute_err_timeseries` removes with `head(1)` only the initial state of the first series (C90).

**Simulated systems**

* `ControllableODE.predict`: the functions built in the loop over the control channels read the loop variable late, so for more than one step every channel is driven by the last channel (VanDerPol with control in both coordinates, Burger) (C91_channels_refuted).
* `ControllableODE.predict`: one-step control as a collection of several series is always rejected, because `check_const_time_delta` fails for series of one sample (C91_one_step_frame_refuted). The result is numbered from 0 while the returned control keeps its IDs.
* `ODE.predict` without time values raises UnboundLocalError; `Hopf.predict(ic_type="polar")` ignores the conversion for arrays and overwrites the caller's DataFrame (C91).

**Reduced rank DMD**

* `DMDStandard(rank=r)` with the default `reconstruct_mode="exact"` cannot represent the components of an initial state that the system maps to zero: predictions are combinations of the second snapshots, so already the state at the initial time is wrong if an eigenvalue is zero (C92_exact_initial_refuted).
* `DMDStandard(rank=r, sys_mode="matrix")` can be fitted, but stores the r x r matrix as system matrix, and every prediction raises ValueError (C92_matrix_mode_refuted).

**Koopman eigenfunctions**

* After `residual_filter` and without `diagonalize=True` the values of `koopman_eigenfunction` are least squares coefficients with respect to the kept right eigenvectors; for a non-normal Koopman matrix they are not eigenfunctions (C93_filtered_refuted).

**Variable bandwidth diffusion maps**

* `DiffusionMapsVariable` with the default `symmetrize_kernel=False` subtracts the identity from a kernel matrix that is not normalised by its row sums, so the result is not a generator (constants are not mapped to zero); the variant `symmetrize_kernel=True` is normalised (C94_default_refuted, C94_fit). The two variants also differ by the factor epsilon and by the identity.
* The checks of `expected_dim`, `epsilon` and `k` in `DmapKernelVariable.__init__` all look at the type of `expected_dim` and combine the conditions with `and`; with an integer dimension nothing is refused (C94_validation_refuted).

**Prediction of EDMD models**

* With `use_transform_inverse=True` the control input is not passed on to the DMD model (edmd.py 857-858), so a controlled model fails in every prediction (C95_inverse_control_refuted).

**DC motor**

* `DCMotor._runge_kutta` evaluates the fourth stage with `k1` instead of `k3` (_systems.py 1124), so the step is of second order only, not "standard Runge Kutta 4" (C96_third_order_error, C96_order_refuted).
* `DCMotor.predict_vectorize` numbers the result 0, 1, ... and matches initial conditions and controls by position; IDs are not compared (C96_by_id_refuted).

**Subsampling and outliers**

* `pcm_subsample`: points are compared with earlier blocks only, so the minimal distance does not hold within a block; a cloud with fewer than `n_samples` (default 100) points is returned unchanged up to order (C97_apart_refuted, C97_small_cloud).
* `min_added_per_iteration=0` does not iterate the entire cloud, because the loop ends if the number of added points is `<=` the threshold (C97_entire_refuted).
* Without `min_distance` the default cut-off of a point cloud is infinite, the distance matrix is dense and `getnnz` raises AttributeError (C97_default_refuted).
* `pcm_remove_outlier` counts the point itself for finite cut-offs and not for infinite ones, so `kmin=1` removes nothing and the infinite cut-off removes more points than any large finite one (C97_outlier_one, C97_outlier_limit_refuted).

**Evolving linear systems**

* `evolve_system(overwrite_sys_matrix=P @ A)`, the documented post-mapping, is wrong in matrix mode: the power of P A is taken, so P is not applied at time 0 and applied n times at step n, and a rectangular P is rejected (C98_postmap_matrix_refuted, C98_postmap_rectangular_refuted). In spectral mode without control it is right (C98_postmap_spectral).
* The default feature names of `evolve_system` are numbered by the dimension of the state, not by the number of features, so a call with a rectangular system matrix and no names fails (C98_default_names_refuted).
* The check of the time values uses `and` where `or` is meant (dynsystem.py 561), so time values that are not numeric pass it (C98).

**Benchmark systems**

* `HopfSystem` computes the radius as x1 / cos(angle), so every state on the axis x1 = 0 gets radius 0 (in floats: a rounding error divided by a rounding error) (C99_hopf_polar_refuted).
* `InvertedPendulum._f` adds the control to the cart but not to the pendulum, and the gain is a constant force instead of a factor of the input voltage: the upright pendulum at rest is no equilibrium (C99_inverted_pendulum_control_refuted, C99_inverted_pendulum_rest_refuted).
* `InvertedPendulum2` ignores the parameters of its constructor (C99_inverted_pendulum2_parameters_refuted).
* `theta_to_trigonometric` treats the angular velocity like an angle, so velocities outside of (-pi, pi] cannot be recovered (C99_trigonometric_velocity_refuted).
* `Burger1DPeriodicBoundary` has both ends of the period as nodes; the difference quotient over the seam tends to half of the derivative (C99_burger_seam_refuted). Its `_jac` uses an attribute that is never set (read only, not modelled).

**Radial kernels**

* A cut-off destroys the positive definiteness of the Gaussian kernel (three points on a line), so eigenvalues of sparse kernel matrices can be negative (C100_cut_off_positive_refuted).
* A bandwidth given as a function is replaced with its first value: a second data set evaluated or fitted with the same kernel object uses the bandwidth of the first, and after one non-positive value the object is unusable (C100_bandwidth_history, C100_bandwidth_stale_refuted).
* `RadialBasisKernel.__init__` removes the key "metric" from the dictionary of the caller before it raises, so the repeated call succeeds with another metric than requested (C100_metric_retry_refuted).
* `ThinplateKernel` with a cut-off raises TypeError (`np.isnan` of a sparse matrix) (C100_thinplate_sparse_refuted).

**Pseudospectrum**

* The returned pseudo-eigenfunctions are eigenvectors of SQ M SQ without the factor SQ: as observables they do not attain the returned residual (C101_eigfuncs_refuted).
* For models with two observables scipy's `eigs` falls back to all pairs, and the assignment of the residual raises ValueError (C101_two_pairs_refuted).
* `compute_pseudospectrum=True` without `residual_filter` (and without rank) stores None; without `compute_pseudospectrum` the message of the intended ValueError reads a misspelled attribute: both raise AttributeError (C101_available).
* `spectral_measure` normalises the observable of the caller in place (C101_observable_overwritten_refuted).

**Control signals of the generator model**

* The cache of the lifted state keeps a view of the caller's array: if the state is updated in place between two calls, the second signal is computed for the old state (C102_in_place_refuted).
* A reference given as one-dimensional array is turned into a column and rejected for every horizon of at least one step, also for systems with one state (C102_vector_reference_refuted).

**Choice of distance algorithms**

* The backend "sklearn.knn" cannot be used through `compute_distance_matrix` or `init_distance_algorithm`: k is handed on as `kmin`, which its constructor does not have and which is therefore removed, and every call raises TypeError (C103_knn_backend_refuted).
* k is silently ignored by the brute force backend, and by the default backend for metrics that are not Euclidean, also with a cut-off (C103_k_ignored_refuted, C103_k_not_guaranteed_refuted).
* The default backend drops all further options without a message (C103_options_dropped_refuted); `kmin` as option of a tree backend is a TypeError (C103_options_kept).
* The list of symmetric backends raises NotImplementedError until the default backend was used once (C103_symmetric_backends_history_refuted).

**Jointly smooth functions**

* `compute_E0` stacks the eigenvectors without the shuffled ones for three and more splits: the threshold is computed from the data it is meant to judge (C104_threshold_not_shuffled_refuted).
* `eigenvalues_` holds singular values s with energy 1 + s for two splits and energy s^2 for more splits: the two algorithms agree on the functions, not on what they store (C104_algorithms_agree).

**Generators from time series**

* `gDMDAffine` selects states and control input by time value only: series with different time ranges end in a ValueError of the matrix products (C105_affine_times_refuted), and if the IDs are not stored in increasing order the states (ordered by time) are silently paired with derivatives of other series (ordered by ID) (C105_affine_order_refuted).
* `gDMDFull` with `shift_index=True` pairs the derivative at a sample with the state at a later sample; the identified generator is off by a factor M^-1 (C105_shift_index_refuted).
* `gDMDFull` cannot be used with datetime indices (C105_datetime_refuted, from C60).

**Mahalanobis kernel**

* `MahalanobisKernel` multiplies with the given matrices instead of their inverses; with the documented covariance matrices the kernel depends on units (C106_covariance_refuted, C106_invariant).
* Without cut-off the dense distance matrix is converted to a sparse one without its zeros: the diagonal and duplicated points get the kernel value 0 instead of 1, different from the sparse case (C106_zero_distance_refuted, C106_diagonal_sparse).
* Query points are ignored if there are as many as training points, else the call fails (C106_queries_refuted); a sparse distance matrix passed to `evaluate` is overwritten (C106_input_overwritten_refuted).

**Feature scaling**

* `TSCFeaturePreprocess.inverse_transform` reads `feature_names_in_` also for arrays: after a fit on an array (or on a pandas frame with numbers as labels) it always raises an AttributeError (C107_array_inverse_refuted).
* `TSCFeaturePreprocess.inverse_transform` does not compare labels: a frame with exchanged columns is scaled by position and relabelled (C107_labels_refuted); `transform` rejects it.
* The feature attributes are kept from the first fit: after a second fit on data with other labels `transform` rejects the training data (C107_refit_refuted). `fit` replaces the fitted scaler before it validates the data, so a failing fit destroys the earlier one (C107_failed_fit).

**Principal components**

* `TSCPrincipalComponent.inverse_transform` reads `feature_names_in_` also for arrays: after a fit on an array (or on a pandas frame with numbers as labels) it always raises an AttributeError (C108_array_refuted).
* The number of features out is kept from the first fit: after a second fit with another number of components `inverse_transform` rejects what `transform` returned (C108_refit_refuted). The labels are set anew, so a refit with the same number of components is fine (C108_refit).

**Finite difference transformation**

* `TSCFiniteDifference.fit` with a number as `spacing` always fails: `check_scalar` is called without `name` (C109_spacing_refuted).
* `TSCFiniteDifference.get_feature_names_out` announces `x_dot`, `transform` returns `x_dot1` (C109_names_refuted).
* Labels are kept from the first fit, so a second fit on other labels succeeds but `transform` refuses the training data (C109_refit_refuted); labels that are numbers are not compared (C109_number_labels_refuted).
* `GeometricHarmonicsInterpolator.score` is documented as negative mean squared error but is the negative root (C110_documented_metric_refuted); `sample_weight` is accepted and ignored (C110_weights_refuted); one point cannot be scored because `predict` squeezes its result (C110_one_point_refuted).
* `GeometricHarmonicsInterpolator.gradient` checks `0 <= vcol <= n_targets`; `vcol = n_targets` is an IndexError (C110_gradient_column).
* `RoselandKernel` with `alpha > 0` always fails: `_normalize_density` calls `scipy.sparse.spmatrix(...)` (an abstract class) instead of `issparse` (C111_roseland_alpha_refuted).
* `DmapKernelFixed(X', Y)` does not compare `X'` with the points of the pairwise call, only their number (C111_reference_refuted).
* `TSCColumnTransformer.n_features_out_` raises AttributeError if there are dropped or passed columns, also with the default `remainder="drop"` (C112_n_features_out_refuted).
* `TSCColumnTransformer` sorts the series by ID as soon as one part loses rows (C112_series_order_refuted).
* An empty slice of an EDMD model (`edmd[:0]`) is an IndexError from `steps[-1]` instead of a clear message or an empty pipeline (C113_slice).
* `TSCDataFrame.from_same_indices_as` accepts a data frame as values and ignores its labels: columns in another order end up under the wrong names (C114_aligned_refuted).

## Testing the theorems

`seeded/LOG.jsonl` lists edits of the model (realistic bugs) with the theorems that
no longer prove.  An edit that no theorem noticed led to a tighter theorem (named in
the log) or is a change without effect on any claimed property (explained there).

## Independent check

`coqchk -o` was run once on the compiled theorem files of C01-C113 (all `*Props*.v` listed in `_CoqProject` before C114
was added) and accepted them.  Its list of axioms: `functional_extensionality_dep`, `sig_not_dec`, `sig_forall_dec`,
`classic`, all of the standard library; no type-in-type, no unsafe fixpoints, no assumed positivity.  It was not run
again on C114.
