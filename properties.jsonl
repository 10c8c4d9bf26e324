{"id": "C01", "title": "TSCDataFrame index validation is exact", "statement": "Constructing a TSCDataFrame from an index of (time series ID, time) pairs succeeds if and only if no ID is negative, no time is negative, no (ID, time) pair occurs twice, the rows of every ID form one contiguous block, and inside every block the time values strictly increase; when it succeeds the rows are stored unchanged and in the given order.", "quantifier": "all finite sequences of (ID, time) rows with integer IDs and integer time values, of any length, in any order", "why_tests_cant": "The accepted language is an infinite set of row sequences; unit tests sample a handful of accepted and rejected frames.", "anchors": ["datafold/pcfold/timeseries/collection.py:TSCDataFrame._validate_index", "datafold/pcfold/timeseries/collection.py:TSCDataFrame.__init__"]}
{"id": "C02", "title": "IDs, number of time series and number of time steps describe the rows", "statement": "For every valid collection, `ids` is the strictly increasing list of the IDs that occur, `n_timeseries` is its length, and `n_timesteps` is either one integer equal to the number of rows of every series, or a per-ID table whose entry for an ID is the number of rows of that ID; the reported counts always sum up to the number of rows.", "quantifier": "all valid collections (any number of series, any lengths, IDs stored in any block order)", "why_tests_cant": "Requires every combination of lengths and ID orders.", "anchors": ["datafold/pcfold/timeseries/collection.py:TSCDataFrame.ids", "datafold/pcfold/timeseries/collection.py:TSCDataFrame.n_timesteps"]}
{"id": "C03", "title": "delta_time is the sampling interval", "statement": "For every valid collection with steps below 1e11. Integer time values: `delta_time` is a single value d exactly when every two consecutive time values of every series differ by d (a single nan exactly when no series is regularly sampled); otherwise it is a table, and for IDs stored in increasing order or unequal lengths the entry of an ID is d exactly when all consecutive differences inside that series are d. Floating point time values: a single value d exactly when every series is sampled with d or all series are equally long and sampled with d after a first step that may be longer; the only error is the ValueError for a one-row series among series of different lengths. Datetime values: always a single value, the interval of one series. A collection sampled with d throughout has delta_time d for every kind and size of interval. (The reading `a single value d means everything is sampled with d` is false of the code for floating point, datetime and very large integer steps, and the table is permuted for IDs not stored in increasing order: exhibited.)", "quantifier": "all valid collections, with integer, floating point or datetime time values", "why_tests_cant": "The property is about every pair of consecutive rows of every collection; the failing inputs need an irregular first step or unsorted IDs.", "anchors": ["datafold/pcfold/timeseries/collection.py:TSCDataFrame.delta_time", "datafold/pcfold/timeseries/collection.py:TSCDataFrame.is_const_delta_time"]}
{"id": "C04", "title": "is_same_time_values / is_equal_length are exact", "statement": "`is_equal_length` is true exactly when all series have the same number of rows, and `is_same_time_values` is true exactly when all series have the same list of time values.", "quantifier": "all valid collections", "why_tests_cant": "The code decides the second one by counting unique values only; that this suffices is a theorem about all collections.", "anchors": ["datafold/pcfold/timeseries/collection.py:TSCDataFrame.is_same_time_values", "datafold/pcfold/timeseries/collection.py:TSCDataFrame.is_equal_length"]}
{"id": "C05", "title": "shift_matrices pairs consecutive samples of the same series, and all of them", "statement": "`X.tsc.shift_matrices()` returns left and right snapshot matrices whose k-th columns are a sample and its immediate successor in the same time series; every such pair occurs exactly once and in storage order; no pair crosses two series. (False of the code for collections of unequal length whose IDs are not stored in increasing order: exhibited.)", "quantifier": "all valid collections without degenerate series", "why_tests_cant": "All systems fitted by DMD/EDMD depend on it; errors appear only for particular combinations of lengths and ID orders.", "anchors": ["datafold/pcfold/timeseries/accessor.py:TSCAccessor.shift_matrices"]}
{"id": "C06", "title": "shift matrices and from_shift_matrices are inverse to each other", "statement": "Building a collection with `TSCDataFrame.from_shift_matrices(L, R)` and calling `shift_matrices` on it returns L and R again, for any number of snapshot pairs.", "quantifier": "all pairs of equally shaped snapshot matrices with at least one column", "why_tests_cant": "Round trip over all sizes.", "anchors": ["datafold/pcfold/timeseries/collection.py:TSCDataFrame.from_shift_matrices", "datafold/pcfold/timeseries/accessor.py:TSCAccessor.shift_matrices"]}
{"id": "C07", "title": "from_tensor addresses every entry", "statement": "For every tensor of shape (n_series, n_time, n_features), every list of pairwise distinct IDs and every strictly increasing time vector, the collection returned by `TSCDataFrame.from_tensor` contains exactly n_series*n_time rows, and the row labelled (id_i, t_j) holds tensor[i, j, :]; duplicate IDs are rejected.", "quantifier": "all tensor shapes and entries, all admissible ID and time vectors (including unsorted IDs)", "why_tests_cant": "All shapes and all ID orders; the code sorts the index after the fact.", "anchors": ["datafold/pcfold/timeseries/collection.py:TSCDataFrame.from_tensor"]}
{"id": "C08", "title": "insert_ts adds exactly one series and keeps all others", "statement": "`insert_ts` with a fresh ID (or with no ID, in which case the ID is one larger than the largest present) returns a valid collection whose rows are the old rows unchanged followed by the new series under that ID; a present ID is rejected. After any sequence of successful insertions every series inserted can be read back unchanged.", "quantifier": "all valid collections and all sequences of insertions", "why_tests_cant": "History property: ranges over all operation sequences.", "anchors": ["datafold/pcfold/timeseries/collection.py:TSCDataFrame.insert_ts"]}
{"id": "C09", "title": "initial_states, final_states and drop_last_n_samples select per series", "statement": "`initial_states(n)` (`final_states(n)`) of a collection in which every series has at least n rows returns, for every series, exactly its first (last) n rows, in storage order and nothing else; if some series is shorter the call is rejected. `drop_last_n_samples(n)` of a collection in which every series has more than n rows removes exactly the last n rows of every series.", "quantifier": "all valid collections, all n >= 1", "why_tests_cant": "All lengths and all n, including n equal to the series length.", "anchors": ["datafold/pcfold/timeseries/collection.py:TSCDataFrame.initial_states", "datafold/pcfold/timeseries/collection.py:TSCDataFrame.final_states", "datafold/pcfold/timeseries/accessor.py:TSCAccessor.drop_last_n_samples"]}
{"id": "C10", "title": "iter_timevalue_window yields exactly the full windows", "statement": "For window size w >= 1 and offset o >= 1, with per_time_series=True the iterator yields, series by series in increasing ID, the contiguous blocks of exactly w rows that start at positions 0, o, 2o, ... and fit into the series; no window mixes two series and none that fits is omitted. With per_time_series=False the same holds for the sorted distinct time values of the whole collection, and a window consists of exactly the rows of all series at these times. Non-positive sizes are rejected.", "quantifier": "all valid collections, all window sizes and offsets", "why_tests_cant": "Boundary behaviour for every length/window/offset combination.", "anchors": ["datafold/pcfold/timeseries/accessor.py:TSCAccessor.iter_timevalue_window"]}
{"id": "C11", "title": "assign_ids_train_test never mixes series or folds", "statement": "For disjoint train and test position sets, the returned collection keeps the (time, values) of every selected row; two rows share a new ID only if they had the same old ID, belong to the same fold, and no row between them was dropped or belongs to the other fold; hence every new series is a contiguous piece of an old one and train and test IDs are disjoint.", "quantifier": "all valid collections, all disjoint index sets", "why_tests_cant": "All index patterns (including adjacent train/test switches and series boundaries).", "anchors": ["datafold/pcfold/timeseries/accessor.py:TSCAccessor.assign_ids_train_test"]}
{"id": "C12", "title": "TSC cross-validation splits are leak-free partitions", "statement": "For TSCKfoldSeries and TSCKFoldTime every split has disjoint train and test positions whose union is all rows; every row is in exactly one test set over all splits; TSCKfoldSeries never cuts a series; in TSCKFoldTime a test block covers the same time range in every series.", "quantifier": "all valid collections admissible for the splitter, all numbers of splits", "why_tests_cant": "All sizes; the time splitter relies on a Fortran-order reshape.", "anchors": ["datafold/pcfold/timeseries/metric.py:TSCKfoldSeries.split", "datafold/pcfold/timeseries/metric.py:TSCKFoldTime.split"]}
{"id": "C13", "title": "TSCWindowFoldTime test windows", "statement": "For a collection whose IDs are stored in increasing order, TSCWindowFoldTime.split(window w, offset o, train_min m) yields exactly the blocks of w consecutive rows of a single series that end o rows before the next block (counted from the end of every series, series by decreasing ID) as test sets; test sets of different splits are disjoint; the training set is every row outside of the test window, reduced to the contiguous pieces with at least m rows, and a split without training rows is left out. (For collections whose IDs are not stored in increasing order the windows straddle two series, and a window that leaves no training row at all makes the call fail instead of being left out: both exhibited.)", "quantifier": "all valid collections, window lengths and offsets", "why_tests_cant": "All sizes and ID orders.", "anchors": ["datafold/pcfold/timeseries/metric.py:TSCWindowFoldTime.split"]}
{"id": "C14", "title": "Takens embedding delays", "statement": "`TSCTakensEmbedding(delays=d, lag=l, frequency=f)` maps every series of length N to N - l - (d-1)*f - 1 rows (series that are too short are rejected); the row at time position k has the original features followed by, for j = 1..d, the sample at position k - (l + 1 + (j-1)*f) of the same series (times exp(-kappa j) for kappa > 0), under the label 'feature:dN' with N the number of steps back; output series are ordered by ID; `inverse_transform` returns the original rows from the first embedded position on.", "quantifier": "all valid constant-sampled collections, all delays, lags, frequencies", "why_tests_cant": "All parameter combinations and lengths; no delay may cross two series.", "anchors": ["datafold/dynfold/transform.py:TSCTakensEmbedding.fit", "datafold/dynfold/transform.py:TSCTakensEmbedding.transform", "datafold/dynfold/transform.py:TSCTakensEmbedding.inverse_transform"]}
{"id": "C15", "title": "predict evaluates the requested time values only from the reference time on", "statement": "For fitted models `predict(X, time_values)` uses the last time value of the initial conditions as reference; the evaluated time values always start with the reference (up to the floating point tolerance), contain every requested value and nothing else, are strictly increasing, and requests before the reference are rejected; initial conditions ending at different times are rejected. Default is [reference, reference + dt]; with a control collection U it is the times of U followed by one more step, and U must start at the reference.", "quantifier": "all initial conditions, all time value vectors, with and without control", "why_tests_cant": "All vectors of requested values.", "anchors": ["datafold/dynfold/base.py:TSCPredictMixin._validate_and_set_time_values_predict"]}
{"id": "C16", "title": "reconstruct keeps labels: every series is reconstructed from its own initial condition", "statement": "`DMD.reconstruct(X)` returns, for regularly sampled integer-time series of any number, length, start and storage order, every sample of X exactly once under its own (ID, time) label, predicted from the first sample of that ID at the elapsed time. `EDMD.reconstruct(X)` does the same from the first n_samples_ic_ samples if the IDs are sorted and a series with larger ID is never shorter; in general it is false of the code: the rows are computed in the order of the groups of equal time intervals but labelled in the order of X (exhibited with two series of lengths 3 and 2).", "quantifier": "all valid collections", "why_tests_cant": "Depends on every combination of time spans in the collection.", "anchors": ["datafold/appfold/edmd.py:EDMD._reconstruct", "datafold/pcfold/timeseries/collection.py:InitialCondition.iter_reconstruct_ic"]}
{"id": "C17", "title": "DMD recovers exact linear dynamics", "statement": "If all snapshot pairs satisfy y = A x for one matrix A and the snapshots span the state space, then the system matrix of DMDStandard in full mode is A, and hence predict equals A^k x0 at k steps.", "quantifier": "all dimensions, all A, all spanning snapshot sets, over any field", "why_tests_cant": "All matrices and dimensions.", "anchors": ["datafold/dynfold/dmd.py:DMDStandard._compute_full_system_matrix"]}
{"id": "C18", "title": "DMD in full mode is the least squares solution", "statement": "The system matrix of full-mode DMDStandard minimises the sum of squared one-step errors over all matrices, for arbitrary (also noisy, also rank deficient) snapshot data and non-negative sample weights.", "quantifier": "all snapshot data over any real field, all competing matrices", "why_tests_cant": "Minimality quantifies over all matrices.", "anchors": ["datafold/dynfold/dmd.py:DMDStandard._compute_full_system_matrix"]}
{"id": "C19", "title": "Spectral and matrix modes predict the same trajectories", "statement": "Whenever the system matrix is diagonalised by the stored eigenvectors, the discrete-time evolution in 'spectral' mode equals that in 'matrix' mode at every integer number of steps, for every initial condition, with and without control input.", "quantifier": "all system matrices with an eigenbasis, all initial conditions, all control sequences, all horizons", "why_tests_cant": "Unbounded horizons and all control histories.", "anchors": ["datafold/dynfold/dynsystem.py:flowmap_spectral", "datafold/dynfold/dynsystem.py:flowmap_matrix", "datafold/dynfold/dynsystem.py:flowmap_matrix_controlled", "datafold/dynfold/dynsystem.py:flowmap_spectral_controlled"]}
{"id": "C20", "title": "Left eigenvectors from solve are the dual basis", "statement": "compute_spectral_components returns left eigenvectors L with V diag(w) L = A; if all eigenvalues are non-zero then L V = I, so initial conditions computed from L are the eigenbasis coordinates. The computation succeeds exactly if A is invertible; for every singular matrix it raises a LinAlgError (so a diagonalised model cannot be fitted to data with a singular system matrix: exhibited).", "quantifier": "all diagonalisable matrices", "why_tests_cant": "All matrices.", "anchors": ["datafold/dynfold/dmd.py:compute_spectral_components"]}
{"id": "C21", "title": "Permuting Koopman triplets does not change predictions", "statement": "Sorting eigenvalues, left and right eigenvectors with one permutation (EDMD sort_koopman_triplets) leaves every prediction unchanged.", "quantifier": "all spectra, permutations, initial conditions, horizons", "why_tests_cant": "All permutations.", "anchors": ["datafold/appfold/edmd.py:EDMD._sort_koopman_triplets"]}
{"id": "C22", "title": "DMDControl identifies controlled linear systems", "statement": "If every snapshot triple satisfies y = A x + B u and the stacked (x, u) samples span, DMDControl returns exactly [A, B]; for arbitrary data it minimises the squared one-step error.", "quantifier": "all dimensions and data", "why_tests_cant": "All data.", "anchors": ["datafold/dynfold/dmd.py:DMDControl.fit"]}
{"id": "C23", "title": "OnlineDMD equals weighted batch DMD after any stream", "statement": "After processing any sequence of snapshot pairs in any batching, the matrix held by OnlineDMD is the unique minimiser of the exponentially weighted squared one-step error over all pairs seen (regularised by the initial guess; with batch_fit and a spanning first batch without regularisation); splitting the stream into batches differently does not change the result.", "quantifier": "all streams, all batchings, all weighting factors in (0,1], all dimensions", "why_tests_cant": "History property over unbounded streams.", "anchors": ["datafold/dynfold/dmd.py:OnlineDMD.partial_fit"]}
{"id": "C24", "title": "StreamingDMD processes every snapshot pair of a batch", "statement": "StreamingDMD uses every consecutive snapshot pair of the data handed to (partial_)fit. (False: the pair formed by the second and third sample of the first batch is dropped: exhibited.) When compressing to max_rank it keeps the directions of largest energy. (False: it keeps the smallest: exhibited.) All data of the first batch has the sampling interval recorded as dt_. (False: read off the first pair only: exhibited.)", "quantifier": "all streams and batch splits", "why_tests_cant": "History property.", "anchors": ["datafold/dynfold/dmd.py:StreamingDMD.partial_fit", "datafold/dynfold/dmd.py:StreamingDMD._pod_compression"]}
{"id": "C25", "title": "KMPC condensed prediction matrices", "statement": "For every horizon the condensed matrices of KMPC reproduce the state trajectory of the lifted linear system: Ab z0 + Bb u stacks C z_1, ..., C z_N of z_{k+1} = A z_k + B u_k.", "quantifier": "all horizons, dimensions, matrices, control sequences", "why_tests_cant": "Unbounded horizon.", "anchors": ["datafold/appfold/mpc.py:KMPC._create_evolution_matrices"]}
{"id": "C26", "title": "KMPC quadratic program is the tracking cost", "statement": "For all inputs the objective handed to the QP solver equals the quadratic tracking cost of the predicted trajectory (running + terminal state cost + input cost) minus a constant independent of the input, and the constraint rows hold exactly when the predicted states and inputs respect the bounds at every step. (Bounds are read as [lower, upper]; with the documented order [max, min] no input is feasible: proved.)", "quantifier": "all cost weights, references, bounds, horizons, inputs", "why_tests_cant": "All input sequences.", "anchors": ["datafold/appfold/mpc.py:KMPC._setup_optimizer", "datafold/appfold/mpc.py:KMPC._create_constraint_arrays", "datafold/appfold/mpc.py:KMPC.generate_control_signal"]}
{"id": "C27", "title": "AffineKgMPC gradient matches its cost", "statement": "The gradient returned to the optimizer is the gradient of the cost returned to the optimizer. (False whenever a weight is neither 0 nor 1, because the cost squares the weights and the gradient does not: exhibited.)", "quantifier": "all weights, states, inputs", "why_tests_cant": "All real weights.", "anchors": ["datafold/appfold/mpc.py:AffineKgMPC.cost_and_jacobian"]}
{"id": "C28", "title": "Controlled differential systems use their control input", "statement": "Predicting with a controlled system gives results that depend on the control input exactly as the fitted model prescribes. (False for gDMDAffine: the strategy selection returns the uncontrolled matrix evolution before the affine branch can be reached: exhibited.)", "quantifier": "all configurations of system type, mode and control flags", "why_tests_cant": "Decision table plus all inputs.", "anchors": ["datafold/dynfold/dynsystem.py:LinearDynamicalSystem.select_strategy"]}
{"id": "C29", "title": "A linear system object can be set up again only in the documented way", "statement": "For every sequence of setup calls on a linear dynamical system: spectral set-up may be repeated and the last one wins; matrix set-up succeeds at most once, and a failed set-up leaves the object usable. (Last part false: a rejected control matrix leaves the system half configured and blocks every later set-up: exhibited. Also exhibited: wrongly shaped left eigenvectors are accepted, and a matrix set-up is accepted in spectral mode without setting the system up.)", "quantifier": "all sequences of setup calls", "why_tests_cant": "History property.", "anchors": ["datafold/dynfold/dynsystem.py:LinearDynamicalSystem.setup_matrix_system", "datafold/dynfold/dynsystem.py:LinearDynamicalSystem.setup_spectral_system"]}
{"id": "C30", "title": "Selecting features (qois) keeps names and values together", "statement": "Requesting quantities of interest returns for each requested name the values of that feature, in whatever order the names are given. (False in the spectral mode of EDMD: values come in dictionary order under the requested order of names: exhibited.)", "quantifier": "all name lists and request orders", "why_tests_cant": "All permutations of names.", "anchors": ["datafold/utils/general.py:projection_matrix_from_feature_names", "datafold/appfold/edmd.py:EDMD._predict_dict_ic"]}
{"id": "C31", "title": "sort_eigenpairs is a consistent permutation", "statement": "sort_eigenpairs returns the same multiset of (value, vector) pairs, ordered by value (real part, then imaginary part) in the requested direction, and left eigenvectors stay attached to their value. For non-negative real spectra this is the documented order by magnitude. (In general the documented order by magnitude is not met: exhibited.)", "quantifier": "all finite spectra (including ties)", "why_tests_cant": "All inputs incl. ties.", "anchors": ["datafold/utils/general.py:sort_eigenpairs"]}
{"id": "C32", "title": "Sparse distance matrices store exactly the pairs below the cut-off", "statement": "For the brute force backend with finite cut-off the sparse distance matrix stores an entry for (y, x) if and only if their distance is smaller than the cut-off, with the exact value, including explicitly stored zeros for duplicates and the diagonal. The tree based backends store also pairs exactly at the cut-off (difference exhibited). A cut-off of zero means no cut-off.", "quantifier": "all point clouds and cut-offs", "why_tests_cant": "All point clouds incl. duplicates and exact boundary hits.", "anchors": ["datafold/pcfold/distance.py:DistanceAlgorithm._dense2csr_matrix", "datafold/pcfold/distance.py:BruteForceDist"]}
{"id": "C33", "title": "kmin guarantees k nearest neighbours", "statement": "With kmin=k every row of the sparse distance matrix has at least k entries and contains a set of k nearest neighbours with their true distances. (False for metric sqeuclidean: inserted values are not squared: exhibited. With infinite cut-off every call with kmin > 1 fails: proved.)", "quantifier": "all point clouds, all k", "why_tests_cant": "All point clouds.", "anchors": ["datafold/pcfold/distance.py:DistanceAlgorithm._ensure_kmin_nearest_neighbor"]}
{"id": "C34", "title": "Distance computations do not depend on earlier calls", "statement": "The result of a pair-wise distance computation depends only on its arguments; a component-wise computation returns the distances to the reference points of the last pair-wise call on the object (or of its first call), so it is right whenever these are the given ones. (Independence of earlier calls is false for the tree based backends: the tree built for one reference set is silently reused for another: exhibited.)", "quantifier": "all call histories", "why_tests_cant": "History property.", "anchors": ["datafold/pcfold/distance.py:ScipyKdTreeDist", "datafold/pcfold/distance.py:SklearnBalltreeDist"]}
{"id": "C35", "title": "Symmetric conjugate kernel has the spectrum of the Markov matrix", "statement": "For every symmetric kernel matrix with positive row sums, the conjugate matrix computed by the diffusion map kernel is symmetric, and multiplying its eigenvectors with the stored basis change matrix gives eigenvectors of the row-stochastic matrix for the same eigenvalue; undoing the basis change recovers the stochastic matrix; a zero row is an error. (The conjugation is also applied to a non-symmetric internal kernel if symmetrize_kernel=True, then the spectrum is a different one: exhibited.)", "quantifier": "all kernel matrices, all sizes", "why_tests_cant": "All matrices.", "anchors": ["datafold/pcfold/kernels.py:_conjugate_stochastic_kernel_matrix", "datafold/dynfold/dmap.py:_DmapKernelAlgorithms"]}
{"id": "C36", "title": "Diffusion kernel rows are probability distributions", "statement": "With is_stochastic=True every row of the (non-conjugate) kernel matrix with positive row sum sums to one; rows without mass are zero; re-normalisation with alpha keeps a symmetric matrix symmetric; with alpha>0 an out-of-sample point without neighbours makes the evaluation fail.", "quantifier": "all non-negative kernel matrices", "why_tests_cant": "All matrices.", "anchors": ["datafold/pcfold/kernels.py:_stochastic_kernel_matrix", "datafold/pcfold/kernels.py:DmapKernelFixed"]}
{"id": "C37", "title": "DiffusionMaps.transform reproduces the embedding on training points", "statement": "Applying transform (Nystroem) to the training data returns the same coordinates as fit_transform whenever the eigenvalues are non-zero, for all alpha and both symmetrize settings, with time_exponent and without selected coordinates. (With selected coordinates and time_exponent != 0 the shapes do not match, and a single selected coordinate is broadcast to all: both exhibited.)", "quantifier": "all data, kernels, alphas", "why_tests_cant": "All kernels/data.", "anchors": ["datafold/dynfold/dmap.py:DiffusionMaps.transform", "datafold/dynfold/dmap.py:DiffusionMaps.fit_transform"]}
{"id": "C38", "title": "Results after refit depend on the last fit only", "statement": "After any history of fit and transform calls of a DiffusionMaps object on data with the same number of features (including failed fits), a successful fit makes all later calls answer as those of a new instance; transform always uses the last fit and the coordinates selected last. (False beyond that, exhibited: inverse_transform keeps the coefficients of its first call, selected coordinates survive a new fit, a failed fit mixes new data with old eigenvectors, and after fitting data with another number of features every transform is rejected.)", "quantifier": "all histories of fit/set_target_coords/transform/inverse_transform calls", "why_tests_cant": "History property.", "anchors": ["datafold/dynfold/dmap.py:DiffusionMaps.inverse_transform", "datafold/dynfold/dynsystem.py:LinearDynamicalSystem.setup_matrix_system", "datafold/dynfold/base.py:TSCTransformerMixin._setup_feature_attrs_fit"]}
{"id": "C39", "title": "Roseland transform agrees with fit_transform on training data", "statement": "Roseland.transform(X_train) equals Roseland.fit_transform(X_train), and the coordinates are eigenvectors of the Markov matrix of the landmark diffusion K K^T. (Holds for time_exponent=0, the first part fails otherwise because fit_transform ignores the exponent: exhibited.)", "quantifier": "all data, kernels, landmark sets, time exponents", "why_tests_cant": "All data.", "anchors": ["datafold/dynfold/dmap.py:Roseland.fit_transform", "datafold/dynfold/dmap.py:Roseland.transform"]}
{"id": "C40", "title": "Jointly smooth functions are orthonormal and their extension is consistent", "statement": "The jointly smooth functions are orthonormal; the out-of-sample extension at the training points returns them again. (Second part false: they come back scaled by (1+s)/2 for two splits and by s^2/N for N >= 3 splits, s the singular value: proved as an exact formula and exhibited; with fewer eigenvectors than functions in one split transform fails: exhibited.)", "quantifier": "all data, kernels and number of functions", "why_tests_cant": "All data.", "anchors": ["datafold/dynfold/jsf.py:JointlySmoothFunctions._compute_jointly_smooth_vectors", "datafold/dynfold/jsf.py:JointlySmoothFunctions._nystrom"]}
{"id": "C41", "title": "Geometric harmonics reproduce band-limited targets", "statement": "For a symmetric (non-stochastic) kernel, predict at the training points returns the orthogonal projection of the targets on the span of the computed eigenvectors; targets in that span are reproduced exactly. (With a stochastic kernel the result is not a projection: a constant target is predicted as 31/33 of it: exhibited.)", "quantifier": "all data and targets", "why_tests_cant": "All data.", "anchors": ["datafold/dynfold/outofsample.py:GeometricHarmonicsInterpolator"]}
{"id": "C42", "title": "Laplacian pyramids meet the residual tolerance on training data", "statement": "If fit returns without auto-adaptive termination, predict at the training points deviates from every target by at most residual_tol (or the internal tiny threshold). Fit terminates if the points are distinct (their mutual kernel weights vanish for small scales). (For duplicate points with different targets fit never returns: proved for all such data.)", "quantifier": "all data, targets, tolerances, numbers of levels and targets", "why_tests_cant": "Loop of unbounded length with per-target removal.", "anchors": ["datafold/dynfold/outofsample.py:LaplacianPyramidsInterpolator._laplacian_pyramid", "datafold/dynfold/outofsample.py:LaplacianPyramidsInterpolator.predict"]}
{"id": "C43", "title": "Early stopping reacts to `patience` consecutive non-improvements", "statement": "With delta=0, training stops exactly when `patience` consecutive validation losses exceeded the smallest loss seen before them. (With delta>0 a steadily increasing loss need not stop the training, because the reference value drifts upwards, and after a NaN loss training never stops: both proved for all such sequences.)", "quantifier": "all loss sequences", "why_tests_cant": "Unbounded histories.", "anchors": ["datafold/dynfold/dictlearning.py:EarlyStopping"]}
{"id": "C44", "title": "Gaussian kernel scale estimate meets the tolerance", "statement": "Every point has at least k points within the estimated cut-off. With epsilon = estimate_scale(tol, cut_off) the Gaussian kernel at distance cut_off equals tol. (Second part false: it equals sqrt(tol): proved as an identity; k = 1 gives the cut-off 0: proved.)", "quantifier": "all real tol in (0,1) and cut_off > 0", "why_tests_cant": "All reals.", "anchors": ["datafold/pcfold/estimators.py:estimate_scale", "datafold/pcfold/kernels.py:GaussianKernel.evaluate"]}
{"id": "C45", "title": "Continuous nearest neighbour graph", "statement": "The pairwise C-kNN kernel is a symmetric adjacency matrix with an edge (i, j) iff d(i,j) < delta*sqrt(d_k(i) d_k(j)), and the component-wise evaluation at the reference points gives the same graph. (For k_neighbor=1, accepted by the constructor, every pairwise evaluation divides by zero because the self distance counts as nearest neighbour: exhibited.)", "quantifier": "all distance matrices, all k, delta", "why_tests_cant": "All point clouds.", "anchors": ["datafold/pcfold/kernels.py:ContinuousNNKernel.evaluate", "datafold/pcfold/kernels.py:_kth_nearest_neighbor_dist"]}
{"id": "C46", "title": "Cone kernel uses the angle between velocity and displacement", "statement": "The pairwise cone kernel matrix is symmetric with unit diagonal and entries in (0, 1], component-wise evaluation at the reference samples gives the same matrix, and for zeta = 0 every entry is the documented one. (For zeta > 0 the documented weight 1 - zeta*cos(theta)^2, theta the angle between velocity and displacement, is not used: the cosine is taken of cos(theta), which reverses the effect of zeta, so of two pairs with equal distance and speeds the better aligned pair gets the smaller value; a sample at rest has kernel value 1 with every sample: exhibited.)", "quantifier": "all point pairs", "why_tests_cant": "All reals.", "anchors": ["datafold/pcfold/kernels.py:ConeKernel._compute_distance_and_cosinus_matrix"]}
{"id": "C47", "title": "PCManifold keeps its own distance parameters", "statement": "After every history of construct / view / pickle / set operations a PCManifold reports the cut-off (kernel parameter) that was last set on it or on another view of the same constructed or unpickled object, and separately constructed objects do not influence each other. (The parameters passed to the constructor are ignored, and changing the cut-off of a view changes its parent: exhibited.)", "quantifier": "all sequences of construct / view / set operations", "why_tests_cant": "History and aliasing property.", "anchors": ["datafold/pcfold/pointcloud.py:PCManifold.__new__", "datafold/pcfold/pointcloud.py:PCManifold.__array_finalize__"]}
{"id": "C48", "title": "Symmetric eigen-solver is used only for symmetric matrices", "statement": "The pairs returned for a kernel matrix are eigenpairs of it if not all pairs are requested, or the distance is symmetric, or the kernel is declared non-symmetric. (If all eigenpairs are requested of a kernel declared symmetric on a non-symmetric distance, a solver for symmetric matrices is used and the result is wrong for every non-symmetric matrix: exhibited.)", "quantifier": "all kernel configurations", "why_tests_cant": "Decision table over configurations, consequences for all matrices.", "anchors": ["datafold/pcfold/eigsolver.py:scipy_eigsolver"]}
{"id": "C49", "title": "Local regression selection picks the largest residuals", "statement": "With strategy 'dim' exactly intrinsic_dim >= 2 coordinates with the largest residuals are selected and the trivial constant coordinate never (for intrinsic_dim = 1 always the first non-trivial one); with 'threshold' exactly those above the threshold, always including the first non-trivial one. Invalid parameters raise ValueError. (NaN residuals bring the trivial coordinate into the selection: exhibited.)", "quantifier": "all residual vectors, all dims", "why_tests_cant": "All vectors incl. ties.", "anchors": ["datafold/dynfold/dmap.py:LocalRegressionSelection._set_indices"]}
{"id": "C50", "title": "Residual filter keeps exact eigenpairs", "statement": "The residual filter keeps exactly the eigenpairs whose residual is not above the threshold (keep_n: those with the smallest residuals), where the residual is the relative one-step error of the linear function with the pair's vector as coefficients; for data generated by a symmetric linear system every positive threshold keeps all computed eigenpairs. (For other system matrices the filter evaluates right instead of left eigenvectors, so every exact eigenpair that is not a left eigenpair is removed by all sufficiently small thresholds; with a reduced rank the eigenvalue is conjugated: exhibited.)", "quantifier": "all linear systems, all spanning data, all thresholds", "why_tests_cant": "All matrices.", "anchors": ["datafold/dynfold/dmd.py:DMDStandard._remove_spectral_pollution"]}
{"id": "C51", "title": "Control input is matched to initial conditions by time series ID", "statement": "When predict is called with initial conditions X and a control collection U, the control sequence applied to the initial condition of ID i is the series of U with ID i. (Holds if U stores its IDs in increasing order. False otherwise: a U stored in another order is accepted and the sequences are exchanged: exhibited.)", "quantifier": "all valid X and U accepted by predict", "why_tests_cant": "All storage orders of the two collections.", "anchors": ["datafold/dynfold/dmd.py:DMDBase._evolve_dmd_system", "datafold/pcfold/timeseries/collection.py:InitialCondition.validate_control"]}
{"id": "C52", "title": "A controlled prediction labelled t is the state (t - t0)/dt steps after the initial condition", "statement": "For control input sampled with the dt of the model, the state returned under time t0 + n dt is obtained from the initial condition by applying the first n control states. (For control input with another sampling, which is accepted, the labels do not match the number of steps: exhibited.)", "quantifier": "all initial conditions, control collections, horizons", "why_tests_cant": "All horizons and samplings.", "anchors": ["datafold/dynfold/dynsystem.py:LinearDynamicalSystem.flowmap_matrix_controlled", "datafold/dynfold/base.py:TSCPredictMixin._validate_and_set_time_values_predict"]}
{"id": "C53", "title": "Control input may be given as an array", "statement": "For one initial condition, an array of n control states is accepted by predict and gives the n+1 time values r, r+dt, ... (Holds for EDMD with integer or datetime reference. False for floating point reference times, where n+2 time values are generated and the call is rejected, and for DMD models, which reject every array: both proved for all n.)", "quantifier": "all n, dt, reference times", "why_tests_cant": "All horizons.", "anchors": ["datafold/dynfold/base.py:TSCPredictMixin._validate_and_set_time_values_predict", "datafold/dynfold/dmd.py:DMDBase.predict", "datafold/appfold/edmd.py:EDMD.predict"]}
{"id": "C54", "title": "Predictions compose", "statement": "Predicting k steps and using the result as initial condition for another j steps gives the same state as predicting j + k steps at once, in both system modes.", "quantifier": "all system matrices, initial conditions and horizons", "why_tests_cant": "Unbounded horizons.", "anchors": ["datafold/dynfold/dynsystem.py:LinearDynamicalSystem.flowmap_matrix", "datafold/dynfold/dynsystem.py:LinearDynamicalSystem.flowmap_spectral"]}
{"id": "C55", "title": "Diffusion map pre-image", "statement": "DiffusionMaps.inverse_transform applied to the embedding of the training points returns the training points if every feature is a linear combination of the selected eigenvectors (time_exponent=0). (With time_exponent != 0 the coefficients ignore the exponent and other values are returned: exhibited.)", "quantifier": "all data, kernels, selected coordinates", "why_tests_cant": "All data.", "anchors": ["datafold/dynfold/dmap.py:DiffusionMaps.inverse_transform"]}
{"id": "C56", "title": "EDMD is exact for dictionaries that evolve linearly", "statement": "If the dictionary evolves linearly along the dynamics, the state coordinates are linear combinations of dictionary functions and the samples span the dictionary space, then fit identifies the evolution matrix and predict returns the true (nonlinear) trajectory for every initial condition and horizon; the Koopman-mode and the inverse-map reconstruction agree.", "quantifier": "all dictionaries, dynamics, spanning data, initial conditions and horizons", "why_tests_cant": "Unbounded horizons, all dictionaries.", "anchors": ["datafold/appfold/edmd.py:EDMD._compute_inverse_map", "datafold/appfold/edmd.py:EDMD._compute_koopman_modes", "datafold/dynfold/dmd.py:DMDStandard.fit"]}
{"id": "C57", "title": "Metrics compare each sample with the prediction for the same series and time", "statement": "TSCMetric returns one entry per series (time step, feature): the metric of the errors of exactly the samples of that series (time step, feature), each sample being compared with the prediction for the same ID and time, whatever the storage order. The metric is defined exactly if both collections have the same index (ValueError otherwise), all entries are zero exactly if the prediction equals the data, and the score of an error metric is never positive and zero exactly for the perfect prediction.", "quantifier": "all collections, predictions, metrics (mse, rmse, mae, l2, linf, max), modes and sample weights", "why_tests_cant": "All numbers and orders of series and samples.", "anchors": ["datafold/pcfold/timeseries/metric.py:TSCMetric.__call__", "datafold/pcfold/timeseries/metric.py:TSCMetric._metric_per_timeseries", "datafold/pcfold/timeseries/metric.py:TSCMetric._metric_per_timestep", "datafold/pcfold/timeseries/metric.py:TSCMetric._metric_per_feature", "datafold/pcfold/timeseries/metric.py:TSCScoring.__call__"]}
{"id": "C58", "title": "Prior scaling and options of metrics act as documented", "statement": "min-max and standard scaling divide the errors of a feature by the range and the standard deviation of its true values. (False for l2_normalize, documented as scaling each feature with the factors of y_true: every sample is divided by its own norm, so that for all data a prediction that is wrong by a constant positive factor has the same metric as the perfect one. The relative root mean squared error is for all data the documented one divided by the square root of the number of samples. Feature weights for l2 and linf and several features for max are rejected: all proved.)", "quantifier": "all collections, predictions, factors, weights", "why_tests_cant": "All data.", "anchors": ["datafold/pcfold/timeseries/metric.py:TSCMetric._scaling", "datafold/pcfold/timeseries/metric.py:TSCMetric._rrmse_metric", "datafold/pcfold/timeseries/metric.py:TSCMetric._norm_metric", "datafold/pcfold/timeseries/metric.py:TSCMetric._max_error"]}
{"id": "C59", "title": "Identification of generators and control-affine systems recovers the true system", "statement": "If the time derivatives come from linear dynamics and the samples span the state space, gDMDFull returns exactly the generator; if they come from a control-affine system (a drift matrix and one matrix per input that multiplies the state) and the samples together with their input products span, gDMDAffine returns exactly the drift and every input matrix, each under its own input, and the predicted vector field is the true one for every state and input. For arbitrary data both minimise the squared error of the derivatives among all systems of their class.", "quantifier": "all data sets, numbers of states and inputs, systems", "why_tests_cant": "All matrices.", "anchors": ["datafold/dynfold/dmd.py:gDMDFull._compute_koopman_generator", "datafold/dynfold/dmd.py:gDMDAffine._compute_koopman_and_control_matrix", "datafold/dynfold/dynsystem.py:LinearDynamicalSystem.differential_matrix_controlled_affine"]}
{"id": "C60", "title": "Finite differences in time are exact and stay within each series", "statement": "time_derivative returns exactly one row for every sample of every series around which the whole stencil lies in that series: the weighted sum of the samples of the same series at the stencil's offsets, divided by the power of the sampling interval, stored under the time of the sample (with shift_index under the latest time used, so that no future information is used); no row mixes two series, whatever their order and length. It is defined exactly if every series has more samples than the stencil is wide, and for a scheme that meets its order conditions the derivatives of polynomials of degree below order + accuracy are exact. (False for datetime indices, for which it always raises TypeError: proved.)", "quantifier": "all regularly sampled collections, schemes, orders, accuracies, stencils", "why_tests_cant": "All numbers, lengths and orders of series and all polynomials.", "anchors": ["datafold/pcfold/timeseries/accessor.py:TSCAccessor.time_derivative"]}
{"id": "C61", "title": "Splitting irregular time series", "statement": "assign_ids_const_delta on a collection with integer or datetime time values returns a valid collection with IDs 0, 1, 2, ... whose series are contiguous, equidistantly sampled parts (at least two samples) of the input series, with unchanged times and values, in the order of the input. A series that is already equidistant is kept in one piece; every sample that belongs to three equidistant successive samples is kept; no part could be extended by the sample before it. With drop_samples=False no sample is lost, and the only possible failure is a ValueError, which cannot occur if every series is equidistant or consists of equidistant triples; with drop_samples=True the function never fails and returns None only if nothing is kept. For float time values the equidistance does not hold: a series whose first interval differs from the others is not split.", "quantifier": "all valid collections, all values, both settings of drop_samples, integer and datetime time values; one counterexample for float time values", "why_tests_cant": "The indicator combines first and second differences at every sample with two cancellation rules, and the result depends on the pattern of intervals of arbitrary length; tests use a handful of patterns.", "anchors": ["datafold/pcfold/timeseries/accessor.py:TSCAccessor.assign_ids_const_delta", "datafold/pcfold/timeseries/accessor.py:TSCAccessor.assign_ids_sequential"]}
{"id": "C62", "title": "Normalised time values", "statement": "normalize_time of a collection whose series share the sampling interval d returns a valid collection with the same rows (IDs, values, order) in which the earliest time is 0, all sampling intervals are 1, and the new time of each sample is the number of whole intervals since the earliest time. Whatever the input and the kind of time values, a result that is returned has these properties; collections without a common sampling interval are rejected with TSCException. With double precision time values a regular series can be rejected: 0.2 + 0.7 i, i = 0..3, has three identical differences, but the last quotient is rounded to below 3.", "quantifier": "all valid collections, sampling intervals, offsets between the series and kinds of time values; one counterexample in double precision", "why_tests_cant": "The guarantee ranges over all intervals and offsets, including series that are not aligned with each other; the rounding failure depends on the last bit of the time values.", "anchors": ["datafold/pcfold/timeseries/accessor.py:TSCAccessor.normalize_time", "datafold/pcfold/timeseries/collection.py:TSCDataFrame.is_normalized_time"]}
{"id": "C63", "title": "Continuing a series with its last state", "statement": "fill_timeseries_with_last_state(n) continues a regularly sampled single series with ID 0 and less than n samples to exactly n samples: the original samples come first, the sampling interval is kept and every new sample has the last state. It raises NotImplementedError for several series and TSCException for a series that is long enough. (False for a series with another ID, whose new samples form a second series with ID 0, and for datetime indices, which always raise TypeError: proved.)", "quantifier": "all valid collections, lengths n, sampling intervals, IDs and kinds of time values", "why_tests_cant": "All lengths, intervals and IDs; tests use ID 0 and integer times.", "anchors": ["datafold/pcfold/timeseries/accessor.py:TSCAccessor.fill_timeseries_with_last_state"]}
{"id": "C64", "title": "States augmented with the preceding control input", "statement": "augment_control_input attaches to every state of a collection the control input of the preceding sample of the same series, never of another series; the first state of each series has no control input (nan), and rows, IDs, times and states are unchanged. It requires that the control inputs have exactly the index of the states without the last sample of each series; every other index is rejected. (False if the ID of the first series is 1, for which the function always raises ValueError: proved.)", "quantifier": "all valid collections of states and control inputs with any number, order and length of series", "why_tests_cant": "Depends on the boundaries between series of every length and on the IDs; the failure concerns a single ID value.", "anchors": ["datafold/pcfold/timeseries/accessor.py:TSCAccessor.augment_control_input"]}
{"id": "C65", "title": "Identity transformation", "statement": "TSCIdentity.transform keeps the rows and all columns (with the suffix _id if rename_features is set) and appends a column of ones named const if include_const is set. Without renaming, inverse_transform recovers the frame exactly. It does not in three cases: with rename_features the values come back under the renamed features; for arrays with include_const every call of inverse_transform raises TypeError; a feature that is itself named const is overwritten with ones and inverse_transform raises ValueError.", "quantifier": "all frames (any index, columns, values), include_const and rename_features; all arrays", "why_tests_cant": "The round trip must hold for every set of feature names; the failures depend on a combination of options and names.", "anchors": ["datafold/dynfold/transform.py:TSCIdentity.transform", "datafold/dynfold/transform.py:TSCIdentity.inverse_transform", "datafold/dynfold/base.py:TSCTransformerMixin._validate_feature_input"]}
{"id": "C66", "title": "Names of the transformed features", "statement": "For TSCIdentity (no feature named const) and TSCFeatureSelect the columns of the transformed frame are exactly get_feature_names_out(). For TSCApplyLambdas they are only the same up to order: as soon as there are two functions and two features the orders differ. For TSCFiniteDifference they never agree, because transform appends the order of the derivative to every name.", "quantifier": "all frames, numbers of functions and features, derivative orders", "why_tests_cant": "Agreement for one feature or one function (the usual test) says nothing about the general order.", "anchors": ["datafold/dynfold/transform.py:TSCIdentity.get_feature_names_out", "datafold/dynfold/transform.py:TSCFeatureSelect.get_feature_names_out", "datafold/dynfold/transform.py:TSCApplyLambdas.get_feature_names_out", "datafold/dynfold/transform.py:TSCFiniteDifference.get_feature_names_out"]}
{"id": "C67", "title": "Functions applied to features", "statement": "TSCApplyLambdas.transform of a frame with unique feature names keeps the rows and returns exactly one column for every pair of a feature and a function; the labels are unique and the column labelled with feature c and number i is function i applied to the column c.", "quantifier": "all frames with unique names, all lists of functions", "why_tests_cant": "Uniqueness of the generated labels must hold for all feature names, also those that contain _lambda and digits themselves.", "anchors": ["datafold/dynfold/transform.py:TSCApplyLambdas.transform"]}
{"id": "C68", "title": "Polynomial features", "statement": "TSCPolynomialFeatures.transform returns, for the degree and the options interaction_only, include_bias and include_first_order, exactly one column per admissible exponent vector (total degree at most the given one; 0 only with bias; 1 only with first order; exponents at most 1 for interactions): every column holds the monomial with these exponents for each row, its name is formed from the same exponents, and the rows keep their index.", "quantifier": "all degrees, options, numbers of features and rows; values in any monoid (associative multiplication with one)", "why_tests_cant": "The enumeration of the exponents and the mask that removes the first order must agree for every degree and number of features.", "anchors": ["datafold/dynfold/transform.py:TSCPolynomialFeatures.transform", "datafold/dynfold/transform.py:TSCPolynomialFeatures.powers_", "datafold/dynfold/transform.py:TSCPolynomialFeatures._non_id_state_mask"]}
{"id": "C69", "title": "Moving average", "statement": "TSCMovingAverage.transform of a collection with a common sampling interval, in which at least one series has window samples, returns a valid collection. For every series it contains, for each sample with at least window samples up to it, the mean of the last window samples of this series (never of another one) at the time of the sample. Series shorter than the window disappear without an error.", "quantifier": "all collections with a common sampling interval, all windows, all means", "why_tests_cant": "That no window reaches over the border of two series must hold for all lengths, orders of the series and windows.", "anchors": ["datafold/dynfold/transform.py:TSCMovingAverage.transform"]}
{"id": "C70", "title": "Feature selection", "statement": "TSCFeatureSelect with integer features returns the rows with exactly the requested columns in the requested order (also repeated ones; negative integers count from the end). The documented selection by names does not work: every array of names is rejected with ValueError during fit.", "quantifier": "all frames with unique names, all arrays of valid integers, all arrays of names", "why_tests_cant": "The order and pairing must hold for all requests; the rejection by names is hidden by tests that never use names.", "anchors": ["datafold/dynfold/transform.py:TSCFeatureSelect.fit", "datafold/dynfold/transform.py:TSCFeatureSelect.transform", "datafold/dynfold/transform.py:TSCFeatureSelect.get_feature_names_out"]}
{"id": "C71", "title": "Radial basis coefficients", "statement": "After TSCRadialBasis.fit, transform returns for every point the basis function of its distance to each centre; the centres are points of the training data (except for center_type fit_params). fit_transform agrees with fit followed by transform of the same data for every center_type. On a new object inverse_transform(transform(Y)) = Y for all points Y among the centres, provided the centres can be interpolated (e.g. the matrix of the basis functions at the centres is invertible). This is lost when an object is fitted again after inverse_transform was used: the matrix of the first fit is kept, so that e.g. the new centre b is mapped back to the old centre a, and a changed number of centres makes every inverse_transform fail.", "quantifier": "all training data, center types, symmetric distances, basis functions, histories fit / inverse / fit; least squares routine with the contract that it solves consistent systems", "why_tests_cant": "Interpolation must hold for all centres and kernels; the stale matrix needs a second fit with other data after an inverse transformation.", "anchors": ["datafold/dynfold/transform.py:TSCRadialBasis.fit", "datafold/dynfold/transform.py:TSCRadialBasis.transform", "datafold/dynfold/transform.py:TSCRadialBasis.fit_transform", "datafold/dynfold/transform.py:TSCRadialBasis.inverse_transform", "datafold/pcfold/kernels.py:RadialBasisKernel.__call__"]}
{"id": "C72", "title": "Validation of time series collections", "statement": "X.tsc.check_tsc(...) of a collection with integer times returns the collection unchanged if it has every requested property (finite values, number of samples and features, equal lengths, constant or required sampling interval, equal times, normalized time, number of series, (minimum) number of samples per series, no degenerate series, type of times) and raises TSCException otherwise. (Violated outside of integer times: for datetime a wrong sampling interval raises AttributeError; for float times a degenerate series in a collection with different lengths raises ValueError.)", "quantifier": "all collections with integer times and sampling intervals below 1e11, all combinations of arguments", "why_tests_cant": "The checks interact (sampling intervals, equal lengths and times are computed by different code paths for equal and unequal lengths and for unsorted IDs); tests cover a few combinations.", "anchors": ["datafold/pcfold/timeseries/accessor.py:TSCAccessor.check_tsc", "datafold/pcfold/timeseries/accessor.py:TSCAccessor.check_required_time_delta", "datafold/pcfold/timeseries/accessor.py:TSCAccessor.check_const_time_delta", "datafold/pcfold/timeseries/collection.py:TSCDataFrame.is_normalized_time", "datafold/pcfold/timeseries/collection.py:TSCDataFrame.degenerate_ids"]}
{"id": "C73", "title": "Initial conditions", "statement": "InitialCondition.validate accepts a collection exactly if all values are finite, all series have the same times, they have the required number of samples and, for more than one sample, a common (the required) sampling interval. InitialCondition.from_tsc(X, n) returns exactly the first n samples of every series if they exist, are finite and have the same times and (for n > 1) X has a common sampling interval, and raises TSCException otherwise. InitialCondition.from_array(X, t) returns one initial condition per row with time t and the given (or default) IDs if they are unique and non-negative, the time is not negative and the values are finite, and fails otherwise.", "quantifier": "all collections with integer times, all arrays, IDs, times and numbers of samples", "why_tests_cant": "Acceptance and rejection must agree with the requirement for every collection, also with unsorted IDs and different lengths.", "anchors": ["datafold/pcfold/timeseries/collection.py:InitialCondition.validate", "datafold/pcfold/timeseries/collection.py:InitialCondition.from_tsc", "datafold/pcfold/timeseries/collection.py:InitialCondition.from_array"]}
{"id": "C74", "title": "Data accepted by fit of time series models", "statement": "The validation in fit accepts a collection with integer times exactly if every series has the same sampling interval dt, the controls (if given) have the row index of the states (with or without the last state of each series, depending on the model), and the time span of the collection is within 0.5e-5 of a multiple of dt; the attribute dt_ is that interval. Regular collections on a common time grid are always accepted; other controls are rejected with ValueError. (Violated: data without constant sampling is rejected with AttributeError instead of NotImplementedError; series that are not on a common time grid are accepted if the span happens to be a multiple.)", "quantifier": "all collections with integer times and sampling intervals below 1e11, all controls", "why_tests_cant": "The comparison of the controls and the rounding of the span must be right for every collection; tests use aligned series.", "anchors": ["datafold/dynfold/base.py:TSCPredictMixin._validate_and_setup_fit_attrs", "datafold/pcfold/timeseries/accessor.py:TSCAccessor.drop_last_n_samples"]}
{"id": "C75", "title": "A feature as a matrix", "statement": "feature_to_array returns a matrix with one row per time series, in storage order, that holds the values of the series in the order of time; it raises TSCException if and only if the series do not have the same time values. With as_frame=True the entry in the row labelled i and the column labelled t is the sample of series i at time t (series stored in the order of their IDs; refuted otherwise).", "quantifier": "every valid collection, any number of series and samples", "why_tests_cant": "the labels are wrong only for collections whose series are not stored in the order of their IDs; test data are almost always sorted", "anchors": ["datafold/pcfold/timeseries/collection.py:TSCDataFrame.feature_to_array"]}
{"id": "C76", "title": "Expanding a collection by new time values", "statement": "expand_time_values keeps every sample and adds, for every series and every new time, exactly one sample with the fill value; the result is a valid collection. A single series accepts exactly distinct times later than its last sample; several series must have the same time values (else TSCException) and be stored in the order of their IDs (otherwise refuted: samples move to another series).", "quantifier": "every valid collection, every list of new times and fill value", "why_tests_cant": "the exchange of samples depends on the storage order and on the number of series", "anchors": ["datafold/pcfold/timeseries/accessor.py:TSCAccessor.expand_time_values"]}
{"id": "C77", "title": "Constantly sampled time values", "statement": "const_sampled_time_values returns, in increasing order, exactly the values s, s+d, s+2d, ... up to the latest time, where s is the earliest time and d the sampling interval of all series; it raises TSCException if and only if there is no common interval. It contains every time of the collection if the series are aligned (refuted otherwise).", "quantifier": "every valid collection with integer times", "why_tests_cant": "completeness depends on the offsets between the series, which range over all integers", "anchors": ["datafold/pcfold/timeseries/collection.py:TSCDataFrame.const_sampled_time_values"]}
{"id": "C78", "title": "Constructors of collections", "statement": "from_single_timeseries and from_array store the given samples, in the order of time, under the given ID (default 0) and times (default 0, 1, 2, ...); they accept exactly non-empty data with distinct non-negative times, one per row. from_frame_list gives every series of the listed frames and collections one label, in the order of the list and of the IDs inside a collection, and changes neither times nor values; rebuilding a collection with its own IDs returns it.", "quantifier": "every list of samples in any order, every list of frames and collections, every choice of labels", "why_tests_cant": "acceptance is an equivalence over all inputs and the labels depend on all preceding elements of the list", "anchors": ["datafold/pcfold/timeseries/collection.py:TSCDataFrame.from_single_timeseries", "datafold/pcfold/timeseries/collection.py:TSCDataFrame.from_array", "datafold/pcfold/timeseries/collection.py:TSCDataFrame.from_frame_list"]}
{"id": "C79", "title": "Shifting time values", "statement": "shift_time_by_delta moves every time by the given value, shift_time_per_time_series moves every series by its own value (by default to start at zero); values and IDs stay. Both change the collection on which they are called, and if a time became negative they raise AttributeError and leave it unchanged. Shift values labelled with other IDs raise ValueError. For series not stored in the order of their IDs the claim about single series is refuted.", "quantifier": "every valid collection and every shift", "why_tests_cant": "the wrong assignment needs series stored out of order with suitable lengths; the state after a failed call must hold for every input", "anchors": ["datafold/pcfold/timeseries/accessor.py:TSCAccessor.shift_time_by_delta", "datafold/pcfold/timeseries/accessor.py:TSCAccessor.shift_time_per_time_series"]}
{"id": "C80", "title": "Checks that compare collections", "statement": "check_contain_required_ids accepts exactly the IDs of the collection, each once (in storage order with check_order=True), else TSCException. check_equal_delta_time with require_const=True accepts exactly two collections whose series all have one common sampling interval; without it, two collections with several intervals exactly if they have the same IDs and each series the same sampling. Refuted: a mismatch always raises TSCException; every collection matches itself.", "quantifier": "every pair of valid collections with integer times, every list of IDs", "why_tests_cant": "acceptance is an equivalence over all pairs of collections", "anchors": ["datafold/pcfold/timeseries/accessor.py:TSCAccessor.check_contain_required_ids", "datafold/pcfold/timeseries/accessor.py:TSCAccessor.check_equal_delta_time"]}
{"id": "C81", "title": "Windowed reconstruction and score", "statement": "EDMDWindowPrediction cuts every series into the windows of window_size samples that start at the positions 0, offset, 2*offset, ..., numbers them in the order of the IDs and of the time, predicts every window from its own first n_samples_ic samples only, and returns the prediction at the times of that window from the n-th sample on; the score compares every prediction with the sample of the same window at the same time. It fails with ValueError if the window is not longer than the initial condition and with TSCException if the data are not regularly sampled or a series is shorter than the window. Scores of models with control input always fail (refuted).", "quantifier": "every valid collection, every window size and offset, every fitted model", "why_tests_cant": "the windows are relabelled twice to allow a vectorized prediction; an error in the bookkeeping only shows for some combination of lengths, offsets and starts", "anchors": ["datafold/appfold/edmd.py:EDMDWindowPrediction._window_reconstruct", "datafold/appfold/edmd.py:EDMDWindowPrediction._window_score"]}
{"id": "C82", "title": "Reconstruction with control input", "statement": "EDMD.reconstruct(X, U) of a controlled model predicts every series from its own first n samples with its own control samples, one per step, and returns the prediction at the times of the series. This holds for series of the same length starting at time 0; refuted otherwise: X is shifted to time 0 but U is not, so the control that belongs to the data is rejected for every series that starts later, and series of different lengths are always rejected.", "quantifier": "every valid regularly sampled collection with its control, every number of samples in the initial condition, every fitted model", "why_tests_cant": "the failing inputs are exactly those that do not start at 0, which test data always do", "anchors": ["datafold/appfold/edmd.py:EDMD._reconstruct", "datafold/appfold/edmd.py:EDMD.reconstruct", "datafold/pcfold/timeseries/collection.py:InitialCondition.validate_control"]}
{"id": "C83", "title": "Windowed reconstruction with control input", "statement": "With control samples at all times of X, every window is predicted from its own first n samples with the control samples of the same window. Holds if the first series starts at time 0 and fails for every other start (refuted); with one control sample per step, as reconstruct requires, it fails if some window ends at the last sample of a series (refuted); control samples of other times are paired with the windows by number and accepted without notice (refuted).", "quantifier": "every valid regularly sampled collection with control, every window size and offset, every fitted model", "why_tests_cant": "whether the numbers of windows agree depends on all lengths, the window size and the offset", "anchors": ["datafold/appfold/edmd.py:EDMDWindowPrediction._window_reconstruct"]}
{"id": "C84", "title": "Stepwise prediction", "statement": "EDMD.predict with stepwise transform returns, for every series and every requested time, the one-step prediction from the n states of the same series before it (given ones first, predicted ones later) over the time between the two states; the placeholders for states not yet predicted never enter a prediction, and a series does not depend on the others. Refuted: series not stored in the order of their IDs exchange their initial conditions; requesting only the time of the initial condition fails for a single series.", "quantifier": "every valid set of initial conditions with common times, every strictly increasing list of requested times, every number of samples in the initial condition, every fitted model", "why_tests_cant": "the slots of the table are overwritten in place while a moving window reads from it; an off-by-one or a stale placeholder depends on the number of samples and of steps", "anchors": ["datafold/appfold/edmd.py:EDMD._predict_stepwise_transform", "datafold/pcfold/timeseries/accessor.py:TSCAccessor.expand_time_values"]}
{"id": "C85", "title": "The full state survives the dictionary of an EDMD model", "statement": "EDMD.fit with a linear inverse map succeeds exactly if the features of the data are all or none of the names of the dictionary, as the parameters include_id_state and dict_preserves_id_state demand; otherwise it raises ValueError. If the state is attached to the dictionary, inverse_transform(transform(X)) returns exactly the samples of X that the dictionary keeps. If the dictionary preserves the state in the order of the features, the same holds. If it lists the features in another order, inverse_transform returns columns under wrong names: the j-th column, named after the j-th feature, holds the feature that comes j-th in the dictionary. The first call of partial_fit fails with NotImplementedError without include_id_state, even if the dictionary preserves the state, and with include_id_state it never attaches the state: it raises ValueError unless the dictionary contains it.", "quantifier": "all dictionaries that keep or drop samples and return uniquely named features, all data, all parameter settings with use_transform_inverse=False", "why_tests_cant": "The claim ranges over all dictionaries and all orders of the preserved columns; tests use dictionaries whose columns stay in order.", "anchors": ["datafold/appfold/edmd.py:EDMD._compute_inverse_map", "datafold/appfold/edmd.py:EDMD._attach_id_state", "datafold/appfold/edmd.py:EDMD._set_dict_preserves_id_state", "datafold/appfold/edmd.py:EDMD.partial_fit", "datafold/utils/general.py:projection_matrix_from_feature_names"]}
{"id": "C86", "title": "fit and partial_fit of an EDMD model exclude each other, and rejected calls have effects", "statement": "After any sequence of fit and partial_fit calls, the mode of the object is the kind of the first call with acceptable arguments, even if that call failed later, and it never changes. Calls of the other kind are rejected with ValueError or AssertionError and leave mode and fitted model as they are; calls of the same kind never meet these rejections. However, a rejected partial_fit of a fitted model with control input turns off its is_controlled_ flag, a first partial_fit that fails in the dictionary makes every later fit fail, and stepwise predictions fail with AttributeError for every model that was only set up with partial_fit.", "quantifier": "all sequences of fit and partial_fit calls, successful or failing at any point", "why_tests_cant": "The state is decided by the whole history of calls, including failed ones; tests run one or two calls.", "anchors": ["datafold/appfold/edmd.py:EDMD.fit", "datafold/appfold/edmd.py:EDMD.partial_fit", "datafold/appfold/edmd.py:EDMD._predict_stepwise_transform"]}
{"id": "C87", "title": "The closed control loop follows the receding-horizon law", "statement": "KMPC.control_system_reference with augment_control=True applies, in each step, the first control of the plan for the next samples of the reference (the last sample repeated at the end) to the plant, feeds state and control back, and returns exactly the states and controls of this closed loop with the right times, up to the step in which the plant terminates. It raises ValueError if no plan is found or if the reference does not start one step after the initial state. It performs one step less than the reference has samples, so the last sample of the reference is never reached. With the default augment_control=False every loop fails in the first step with AttributeError, and a plant whose series has another ID than 0 fails with AssertionError.", "quantifier": "all plants, all models and solvers, all horizons, all references and initial conditions", "why_tests_cant": "The loop couples plant, model and solver over an arbitrary number of steps; there is no unit test of it.", "anchors": ["datafold/appfold/mpc.py:KMPC.control_system_reference", "datafold/appfold/mpc.py:KMPC.control_sequence_horizon", "datafold/pcfold/timeseries/accessor.py:TSCAccessor.fill_timeseries_with_last_state"]}
{"id": "C88", "title": "The linear quadratic regulator is optimal", "statement": "If the Riccati equation is solved correctly, then for every horizon, initial state and equilibrium target no sequence of inputs of the identified linear model has a lower quadratic cost than the feedback of LQR (with the Riccati solution as terminal cost), and the accumulated cost of the feedback is bounded for ever. LQR.control_sequence returns this feedback for one control input and one sample; with more than one control input or sample it always raises ValueError. A target that is not an equilibrium of the model is not kept.", "quantifier": "all models, costs, horizons, states and input sequences", "why_tests_cant": "Optimality compares with all input sequences of any length.", "anchors": ["datafold/appfold/mpc.py:LQR._setup_optimizer", "datafold/appfold/mpc.py:LQR.control_sequence"]}
{"id": "C89", "title": "Grid search evaluates each candidate on each split without leakage and picks the first best", "statement": "EDMDCV.fit evaluates every candidate parameter set on every split: the score in row i and split j belongs to a model with the parameters of candidate i, fitted with the training rows of split j only and scored with its test rows (or is the substitute error_score). The mean scores are the averages, the chosen parameters are those of the first candidate with the largest mean, and the refitted model has these parameters and all rows. All splitters of the package produce splits on which the division into two collections succeeds, and the training data do not depend on values of the test rows. The scorer passes no control input: for models fitted with control input the default settings always raise an exception, and with a numeric error_score all scores are equal and the first candidate is chosen.", "quantifier": "all models, candidates, collections and splits", "why_tests_cant": "The assignment of scores to candidates and splits must hold for every number of candidates and splits; tests check that fit runs.", "anchors": ["datafold/appfold/edmd.py:EDMDCV.fit", "datafold/appfold/edmd.py:_split_X_edmd", "datafold/appfold/edmd.py:_fit_and_score_edmd"]}
{"id": "C90", "title": "Post observables: errors are aligned with the data, but the call never returns", "statement": "EDMDPostObservable compares reconstructed samples with the samples of the same ID and time of the same split; after cross-validation the validation series and error series carry consistent new labels, and the kept model is the first one with the highest test score. Contrary to its comment only the initial state of the first series is removed from the errors. fit_transform never returns a model: it raises TypeError after the fit and leaves the model without the additional observable in final_estimator_.", "quantifier": "all models, all collections, all splits", "why_tests_cant": "Two collections are renumbered independently; alignment has to hold for every choice of splits and series.", "anchors": ["datafold/appfold/edmd.py:EDMDPostObservable.fit_transform", "datafold/appfold/edmd.py:EDMDPostObservable._run_cv", "datafold/appfold/edmd.py:EDMDPostObservable._compute_err_timeseries", "datafold/appfold/edmd.py:EDMDPostObservable._adapt_edmd_model"]}
{"id": "C91", "title": "Simulated systems: which initial condition is driven by which control, and what is returned", "statement": "Predicting with a controllable simulated system solves every initial condition on the same time values: with a control function exactly that function is used and the returned control is the function at all returned samples but the last of each series; without control the control is zero; an array with one row per initial condition is a single step with row k for initial condition k; control samples with one channel are held until the next sample, initial condition k taking the series with the k-th smallest ID. Series k of the result is the solution from initial condition k; the series are always numbered from 0. With several control channels and more than one step all channels are driven by the last one. A collection with one control sample for each of several series is always rejected. Uncontrolled systems start series k from the k-th smallest ID of a collection; without time values they raise an error although the documentation gives a default; polar initial conditions of the Hopf system given as an array are not converted, and a collection given by the caller is overwritten.", "quantifier": "all initial conditions, controls, time values and right hand sides", "why_tests_cant": "The assignment of controls to initial conditions, channels and times has to hold for every number of series, channels and samples; the tests use few channels and compare plots or shapes.", "anchors": ["datafold/utils/_systems.py:ControllableODE.predict", "datafold/utils/_systems.py:ODE.predict", "datafold/utils/_systems.py:Hopf.predict"]}
{"id": "C92", "title": "A DMD of reduced rank is the least squares fit on the leading singular directions and recovers invariant subspaces", "statement": "DMDStandard(rank=r) accepts exactly the ranks 1 <= r < n_features without diagonalize and sample weights.  Its system matrix is the unique least squares solution for the snapshots expressed in the leading r left singular vectors.  If r is the rank of the snapshots, exact modes are eigenvectors of the minimal norm least squares operator (non-zero for non-zero eigenvalues) and projected modes satisfy the eigenvalue equation up to a residual orthogonal to the snapshots.  For snapshots of a linear system that span an invariant subspace, both kinds of modes are eigenvectors of the system and predictions from every state of the subspace are exact for every number of steps; with the default exact modes this needs that no eigenvalue is zero (otherwise even the initial state is wrong), and with sys_mode='matrix' no prediction is possible at all.", "quantifier": "all numbers of features and snapshots, all ranks, all snapshots, all linear systems, all initial states and time steps, every least squares routine that solves consistent systems", "why_tests_cant": "a test compares a few noisy reconstructions with a tolerance; the eigenvector relations and the exactness for every step and every rank are algebraic statements about all data", "anchors": ["datafold/dynfold/dmd.py:DMDStandard._compute_reduced_system_matrix", "datafold/dynfold/dmd.py:DMDStandard._compute_spectral_components", "datafold/dynfold/dmd.py:DMDStandard._validate_parameters", "datafold/dynfold/dmd.py:DMDStandard.fit", "datafold/dynfold/dynsystem.py:LinearDynamicalSystem._check_initial_condition"]}
{"id": "C93", "title": "Koopman eigenfunctions evolve with their eigenvalues and the triplets are ranked", "statement": "For an EDMD model in spectral mode whose eigenvectors form a basis: if the dictionary evolves linearly, koopman_eigenfunction of the next state is eigenvalue times koopman_eigenfunction of the state (with and without left eigenvectors); the prediction is the sum over the triplets of koopman_modes, power of koopman_eigenvalues and koopman_eigenfunction, and if the state is a linear combination of the dictionary this sum is the true trajectory for every number of steps; after fit with sorting the triplets are ordered by decreasing importance (length of the mode times mean modulus of the eigenfunction at the initial states) and still belong together.  After a residual filter the first statement remains true with left eigenvectors and fails in general without them.", "quantifier": "all dictionaries, dynamics, eigenbases, samples, numbers of steps and every argsort and least squares routine that meets its documentation", "why_tests_cant": "tests evaluate eigenfunctions for one system and tolerance; the relation must hold for every state and every step, and the ranking for every spectrum", "anchors": ["datafold/appfold/edmd.py:EDMD.koopman_eigenfunction", "datafold/appfold/edmd.py:EDMD._sort_koopman_triplets", "datafold/appfold/edmd.py:EDMD._compute_koopman_modes", "datafold/dynfold/dynsystem.py:LinearDynamicalSystem.compute_spectral_system_states"]}
{"id": "C94", "title": "Variable bandwidth diffusion maps approximate the generator of a diffusion", "statement": "DiffusionMapsVariable(symmetrize_kernel=True) on at least two distinct samples with epsilon > 0 and 1 <= k <= n stores identity plus the generator of a diffusion: neighbour mean minus value, divided by the squared bandwidth, with the weights of the variable bandwidth kernel; the bandwidth has mean one and is proportional to density**beta, where the density is estimated with the root mean square distance to the k nearest other samples; the matrix given to the eigensolver is symmetric, the columns of eigenvectors_ are non-zero eigenvectors of the stored operator, all its eigenvalues that are found are at most one, eigenvalues_ are these to the power 1/epsilon and constants are mapped to zero by the generator.  The fit fails only for k > n or if the eigensolver fails.  For positive parameters the constructor accepts exactly beta < (d^2 - d - 1)/(d + 2).  Without symmetrize_kernel the weights are not normalised, so the operator is not a generator; invalid epsilon, k and expected_dim are accepted.", "quantifier": "all sets of distinct samples (given by their distances), dimensions, parameters, eigensolvers that return eigenpairs, and all functions exp and power with the stated laws", "why_tests_cant": "tests compare eigenvalues for one sphere or Ornstein-Uhlenbeck sample with a tolerance; the structure of the operator must hold for every data set", "anchors": ["datafold/pcfold/kernels.py:DmapKernelVariable", "datafold/dynfold/dmap.py:DiffusionMapsVariable.fit", "datafold/pcfold/kernels.py:_symmetric_matrix_division"]}
{"id": "C95", "title": "EDMD predicts every series from its own samples at the requested times", "statement": "EDMD.predict without control accepts a collection iff it is a set of valid initial conditions (n_samples_ic finite samples per series, common times, interval dt) and the requested times are increasing and not before the last sample; the result has the same series and each is evaluated at exactly the requested times and the reference time, by the flow from its own samples for the elapsed time.  With control, an accepted prediction evaluates the times of the control and one more, and each series is driven by the control with its own ID: the k-th state has seen the first k control samples.  Arrays of states are initial conditions at the first requested time (0 by default), not usable for n_samples_ic > 1; an array of controls equals the collection sampled with dt from the last sample on.  Control is given exactly for models with control.  EDMD.score compares every sample from the n-th on with the reconstruction of the same series and time.  A controlled model with use_transform_inverse=True can never predict.", "quantifier": "all fitted models (dictionary, flow, control step, map back), numbers of initial samples, collections, control inputs and requested time values (integer times)", "why_tests_cant": "tests predict a few series; the matching of series, controls and times must hold for every collection and every request", "anchors": ["datafold/appfold/edmd.py:EDMD.predict", "datafold/appfold/edmd.py:EDMD.score", "datafold/dynfold/dmd.py:DMDBase.predict"]}
{"id": "C96", "title": "Simulating several DC motor trajectories", "statement": "DCMotor.predict_vectorize(X_ic, U): for initial conditions with one row per series and as many controls, regularly sampled at common times, the j-th series of the result starts in the j-th initial condition and follows, step by step, the j-th control, at the times of the control and one step beyond; with a single control sample the two given time values are used; everything else (different numbers of series, unequal, irregular or different times) is rejected. One expects the series to carry the IDs of the initial conditions and to be driven by the control with the same ID: this holds only for the IDs 0, 1, ... in order (the result is numbered anew and matched by position). The integrator is said to be a standard Runge-Kutta 4 step: it agrees with the solution of the (affine) motor equations only up to second order, because the fourth stage uses the first slope instead of the third one.", "quantifier": "all initial conditions, controls, IDs, time values, one-step integrators; all affine systems, states, step sizes and motor constants over every numeric field", "why_tests_cant": "the tests simulate one series with ID 0 and never compare with the exact solution; order of accuracy and pairing are statements about all inputs", "anchors": ["datafold/utils/_systems.py:DCMotor.predict_vectorize", "datafold/utils/_systems.py:DCMotor._runge_kutta", "datafold/pcfold/timeseries/accessor.py:TSCAccessor.check_const_timesteps"]}
{"id": "C97", "title": "Subsampling of point clouds and removal of outliers", "statement": "pcm_subsample(pcm, n_samples, min_distance, min_added_per_iteration): the result lists distinct points of the cloud together with their indices; the shuffled points are cut into blocks, the first block is taken, points of later blocks are taken iff they keep the minimal distance to all points taken from earlier blocks, and every scanned point that is left out is closer than the minimal distance to a point that was taken; a negative min_added_per_iteration scans all blocks, so the whole cloud is covered. One expects that all points of the subsample keep the minimal distance (they do not within a block) and, as documented, that min_added_per_iteration=0 iterates the entire cloud (a block that adds nothing stops the scan). pcm_remove_outlier removes exactly the points with fewer than kmin points within the cut-off, the point itself counted, monotone in finite cut-offs; with an infinite cut-off the point itself is not counted. random_subsample returns n_samples distinct points for 1 <= n_samples < number of points and rejects all other numbers.", "quantifier": "all point clouds, (integer) distances, permutations, block sizes, minimal distances, thresholds, cut-offs", "why_tests_cant": "the separation and covering of the subsample are statements about all pairs of points of every cloud and every permutation; no test calls the two functions", "anchors": ["datafold/pcfold/pointcloud.py:pcm_subsample", "datafold/pcfold/pointcloud.py:pcm_remove_outlier", "datafold/utils/general.py:random_subsample", "datafold/pcfold/distance.py:GuessOptimalDist"]}
{"id": "C98", "title": "Evolving a linear system treats every initial condition separately", "statement": "LinearDynamicalSystem.evolve_system accepts one initial condition (scalar or vector) or several (columns of a matrix) together with time values and, for controlled systems, one control per initial condition; it returns one series per initial condition under the given IDs (default 0, 1, 2, ...), and the series of column j at time t is the state of the selected system started in column j and driven by control j, whatever the other columns are. A system matrix overwritten by P times the modes returns P times the states. All other shapes, a missing or non-positive time_delta of a flowmap, and a control of the wrong shape are rejected.", "quantifier": "every system matrix, control matrix, eigenvalues, number and dimension of initial conditions, every control, every list of distinct time values, every IDs, every configuration of the system", "why_tests_cant": "tests evolve a few small systems; the batching, the pairing of columns and controls and the rejection of all other shapes have to hold for every size and value", "anchors": ["datafold/dynfold/dynsystem.py:LinearDynamicalSystem.evolve_system", "datafold/dynfold/dynsystem.py:LinearDynamicalSystem._set_and_check_system_params", "datafold/dynfold/dynsystem.py:LinearDynamicalSystem._check_control_input", "datafold/dynfold/dynsystem.py:SystemSolveStrategy"]}
{"id": "C99", "title": "The benchmark systems are the systems they are named after", "statement": "LimitCycle: the analytical solution solves r' = r (1 - r^2), alpha' = 1/eps from the given initial state and approaches the unit circle at rate exp(-2t), and the finite difference scheme never leaves the disc. HopfSystem: solutions turn with velocity one, the squared radius s satisfies s' = 2 s (mu - s), and the polar columns describe the same state. Pendulum: it stays on its circle, and its energy is never gained and is conserved without friction. InvertedPendulum and InvertedPendulum2: cart and pendulum satisfy the equation of a pendulum on an accelerated support, and the trigonometric columns can be converted back. Burger1DPeriodicBoundary: the boundary is periodic and without control the total is conserved. ThreeStablePoints: there are exactly three equilibria.", "quantifier": "every initial state, time, step size, parameter and control input, every solution of the equations, every number of nodes and every state of the Burger equation", "why_tests_cant": "tests integrate a few trajectories and look at plots; that a conserved quantity is conserved, a limit is approached, or a boundary is periodic is a statement about all solutions and grids", "anchors": ["datafold/utils/_systems.py:LimitCycle", "datafold/utils/_systems.py:HopfSystem", "datafold/utils/_systems.py:Pendulum", "datafold/utils/_systems.py:InvertedPendulum", "datafold/utils/_systems.py:InvertedPendulum2", "datafold/utils/_systems.py:Burger1DPeriodicBoundary", "datafold/utils/_systems.py:ThreeStablePoints"]}
{"id": "C100", "title": "Radial kernels are the documented functions of the distance and positive", "statement": "Calling a Gaussian, multiquadric, inverse multiquadric, inverse quadratic, thin plate, cubic or quintic kernel returns one row per query point and one column per reference point with the documented function of their Euclidean distance; with a cut-off the pairs below the cut-off, the diagonal included, are stored with the same values and nothing else. The Gaussian and both inverse kernels are positive and decreasing, their matrices are positive semidefinite and, for distinct points, positive definite, so that the eigenvalues of the normalised kernel are in [0, 1]; the multiquadric matrix is conditionally negative definite, and with all four kernels interpolation at distinct points is unique. The metric and a non-positive bandwidth are checked, and an evaluation depends on the kernel and the data only.", "quantifier": "every point cloud, dimension, number of query points, cut-off, bandwidth, coefficient vector and eigenpair, every sequence of evaluations of one kernel object", "why_tests_cant": "tests compare kernel values and eigenvalues of a few clouds; definiteness is a statement about all clouds and all coefficients, and the effect of earlier evaluations needs histories", "anchors": ["datafold/pcfold/kernels.py:RadialBasisKernel", "datafold/pcfold/kernels.py:GaussianKernel.evaluate", "datafold/pcfold/kernels.py:MultiquadricKernel.evaluate", "datafold/pcfold/kernels.py:InverseMultiquadricKernel.evaluate", "datafold/pcfold/kernels.py:InverseQuadraticKernel.evaluate", "datafold/pcfold/kernels.py:ThinplateKernel.evaluate", "datafold/pcfold/kernels.py:_apply_kernel_function_numexpr"]}
{"id": "C101", "title": "The pseudospectrum is the minimal residual over all observables", "statement": "After a fit with compute_pseudospectrum and a residual filter (or a rank), DMDStandard.pseudospectrum returns for every grid point z the square root of the minimum, over all linear observables, of the weighted squared residual of the pair divided by the weighted squared size of the observable on the snapshots, the regularisation parameter times the norm of the Gram matrix being added to the latter. This number is unique, equal at conjugate points, changes by at most the distance between grid points, and for data of a linear system is zero exactly at its eigenvalues. Without the required fit the call raises.", "quantifier": "every set of real snapshots, weights, regularisation, grid, matrix dimension and every eigensolver that meets its documentation", "why_tests_cant": "tests plot the pseudospectrum of one example; minimality quantifies over all complex observables, and the Lipschitz bound over all pairs of grid points", "anchors": ["datafold/dynfold/dmd.py:DMDStandard.pseudospectrum", "datafold/dynfold/dmd.py:DMDStandard.fit", "datafold/dynfold/dmd.py:DMDStandard.spectral_measure"]}
{"id": "C102", "title": "Generated control signals belong to the given state and reference, whatever was computed before", "statement": "AffineKgMPC.generate_control_signal runs the search against the objective of the lifted given initial state and the given reference (whose first time is replaced with the initial state) and returns the final input by time and input, the last time dropped; earlier calls and their cached lifted state do not influence the result, exceptions in earlier calls included. The arguments of the caller are not changed, mis-shaped arguments raise, and a search that keeps its bounds yields a signal within the (max, min) rows given to the constructor.", "quantifier": "every sequence of created objects, in-place changes and calls on one controller, every search strategy, objective, number of states, inputs and time steps", "why_tests_cant": "the cached lifted state makes the result depend on histories, which tests of single calls do not see; the search may ask for any sequence of inputs", "anchors": ["datafold/appfold/mpc.py:AffineKgMPC.generate_control_signal", "datafold/appfold/mpc.py:AffineKgMPC._predict", "datafold/appfold/mpc.py:AffineKgMPC.__init__"]}
{"id": "C103", "title": "The chosen distance algorithm returns the distances that were asked for", "statement": "compute_distance_matrix with a positive cut-off returns for the default and the tree backends exactly the pairs within the cut-off, with at least k nearest points per row if k is given; without cut-off the default backend returns all values of the metric. A nearest neighbour object stores exactly k nearest points per row. A backend is found exactly if it is named by its class or name and gets all further options. (Refuted parts: k for brute force and for other metrics, the sklearn.knn backend, options of the default backend, the list of symmetric backends before the first use.)", "quantifier": "every point cloud, query, metric, cut-off, k, backend argument, option list and earlier use of the default backend", "why_tests_cant": "tests compare a few backends on a few clouds; the arguments that are silently removed show only for combinations of backend, metric and options", "anchors": ["datafold/pcfold/distance.py:init_distance_algorithm", "datafold/pcfold/distance.py:compute_distance_matrix", "datafold/pcfold/distance.py:get_backend_distance_algorithm", "datafold/pcfold/distance.py:SklearnKNN", "datafold/pcfold/distance.py:GuessOptimalDist"]}
{"id": "C104", "title": "Jointly smooth functions are the smoothest functions of all, with unique eigenvalues", "statement": "The functions that JointlySmoothFunctions computes are orthonormal, and each one maximises, over all functions on the training points orthogonal to the earlier ones, the sum over the data splits of the squared projection on the kernel eigenvectors of the split. The maxima are determined by the splits (in any order) and agree between the algorithm for two splits and the one for more; they equal the number of splits exactly for functions in the span of every split. The kernel eigenvectors used are exactly those with eigenvalues above the cut-off. (Refuted part: the threshold for three and more splits is not computed from shuffled data.)", "quantifier": "every number of samples, splits, eigenvectors and requested functions, every set of orthonormal kernel eigenvectors, every decomposition routine that meets its documentation", "why_tests_cant": "maximality quantifies over all functions on the samples, and uniqueness over all possible outputs of the numerical routines", "anchors": ["datafold/dynfold/jsf.py:JointlySmoothFunctions.fit", "datafold/dynfold/jsf.py:JointlySmoothFunctions._compute_jointly_smooth_vectors", "datafold/dynfold/jsf.py:JointlySmoothFunctions._compute_kernel_eigenpairs", "datafold/dynfold/jsf.py:JointlySmoothFunctions.compute_E0"]}
{"id": "C105", "title": "Generators identified from sampled time series", "statement": "gDMDFull.fit on collections with a constant sampling interval returns a least squares generator over exactly the pairs of state and finite difference stored under the same ID and time, none across series; it is defined exactly if every series is longer than the stencil. Without parameters the central scheme of accuracy 2 is used; another order than one is a ValueError. Polynomial solutions of x' = A x of a degree the scheme differentiates exactly give A. Samples of any invertible system x(t+d) = M x(t) give the finite difference of the trajectories, for the default scheme (M - M^-1)/2h with eigenvalues (mu - 1/mu)/2h. gDMDAffine identifies x' = A x + sum_c u_c B_c x exactly for sorted IDs and common times. (Refuted parts: datetime indices; a shifted index multiplies the generator with M^-1; gDMDAffine fails for series with different time ranges and silently pairs wrong rows if the IDs are not stored in increasing order.)", "quantifier": "every collection (number, length and time ranges of series, order of IDs), dimension, system matrix, control input, scheme, accuracy and least squares routine that solves consistent systems", "why_tests_cant": "tests fit a few simulated trajectories of equal time ranges with sorted IDs up to a tolerance; the pairing of rows must hold for every collection and the bias of the identified generator for every system", "anchors": ["datafold/dynfold/dmd.py:gDMDFull.fit", "datafold/dynfold/dmd.py:gDMDFull._generate_fd_kwargs", "datafold/dynfold/dmd.py:gDMDAffine", "datafold/pcfold/timeseries/accessor.py:TSCAccessor.time_derivative"]}
{"id": "C106", "title": "The Mahalanobis kernel", "statement": "MahalanobisKernel gives every pair of points with stored distances the Gaussian of the squared Mahalanobis distance (the mean of the two quadratic forms of the difference), pairs without stored distance zero; the matrix is symmetric with values in [0, 1], one exactly for Mahalanobis distance zero; with unit matrices it is the Gaussian kernel; with inverse covariance matrices the values do not depend on the linear coordinates. It is defined exactly for square distance matrices with at most as many rows as points and matrices. (Refuted parts: invariance with the covariance matrices that the documentation asks for; diagonal and duplicates in the dense case are zero; query points are ignored or fail; a sparse distance matrix of the caller is overwritten.)", "quantifier": "every number and dimension of points, all matrices, bandwidths, distance matrices (dense, sparse with any stored pattern), coordinate changes and every monotone exponential", "why_tests_cant": "the class has no unit tests; invariance and symmetry must hold for every cloud and pattern of stored distances", "anchors": ["datafold/pcfold/kernels.py:MahalanobisKernel.__call__", "datafold/pcfold/kernels.py:MahalanobisKernel.evaluate"]}
{"id": "C107", "title": "Feature scaling is an exact, row-wise and invertible change of units", "statement": "TSCFeaturePreprocess.from_name accepts exactly 'center', 'min-max' and 'standard'. After a fit on a frame or time series collection with string labels, transform keeps type, rows and labels, inverse_transform(transform(X)) and transform(inverse_transform(X)) return X, every row is transformed on its own, every feature strictly increasingly, and the order of the training rows does not matter. On the training data 'center' and 'standard' give average zero, 'standard' mean squared deviation one for features that are not constant up to precision, 'min-max' values in [0, 1] with both ends attained; constant features become zero. fit_transform equals fit followed by transform. Refuted for the code: arrays (and pandas frames with numbers as labels) can be transformed but inverse_transform raises an AttributeError; inverse_transform ignores labels, so exchanged columns are scaled with the wrong parameters and relabelled; a second fit on data with other labels succeeds but the object rejects its own training data; a failing fit destroys the earlier fit.", "quantifier": "all training and query tables (any number of rows and features, any type and labels), the three scalers, all selections and orders of rows", "why_tests_cant": "values, shapes, labels and histories of calls are unbounded; tests scale one fixed collection", "anchors": ["datafold/dynfold/transform.py:TSCFeaturePreprocess", "datafold/dynfold/base.py:TSCTransformerMixin._setup_feature_attrs_fit", "datafold/dynfold/base.py:TSCTransformerMixin._same_type_X"]}
{"id": "C108", "title": "Principal components: best affine subspace, exact projection and round trips", "statement": "After fitting TSCPrincipalComponent on a pandas frame or time series collection with string labels, inverse_transform(transform(Z)) is, for all later data, the orthogonal projection to an affine subspace through the average of the training data (so data in the subspace returns exactly), transform(inverse_transform(T)) returns T, and type, rows and labels are kept; reduced data has the labels pca0, pca1, ... The subspace is optimal: no affine subspace of the same or smaller dimension has a smaller squared error on the training data; the error is the sum of the squares of the dropped singular values, and with all components the training data is reconstructed exactly. fit_transform equals fit followed by transform; the reduced training data has average zero and orthogonal columns of energy sv^2 (or n - 1 with whiten). More components than min(rows, features) give a ValueError. A second fit with the same number of components gives the same object as a single fit. Refuted for the code: after a fit on an array (or a pandas frame with numbers as labels) inverse_transform always raises an AttributeError; after a second fit with another number of components, inverse_transform rejects the object's own output.", "quantifier": "all training and query tables, all numbers of components, with and without whiten, all singular value decompositions LAPACK may return", "why_tests_cant": "values, shapes and the competing subspaces are unbounded; tests compare with scikit-learn on one collection", "anchors": ["datafold/dynfold/transform.py:TSCPrincipalComponent", "datafold/dynfold/base.py:TSCTransformerMixin._setup_feature_attrs_fit", "datafold/dynfold/base.py:TSCTransformerMixin._validate_feature_input"]}
{"id": "C109", "title": "The finite difference transformation is causal, per series and checks its data", "statement": "TSCFiniteDifference with spacing='dt' fits exactly the collections in which all series have one common sampling interval (TSCException otherwise). Afterwards transform accepts exactly the collections with the same string labels and the same interval in which every series has more samples than the stencil is wide (other intervals: TSCException, other labels: ValueError); the result has one row for every sample at which the whole stencil lies in the series, stored at the latest time that is used, and labels x_dot<order>. The transformation is causal: the row at time t depends only on samples of the same series up to t, for all schemes. A second fit on the same labels gives the object of a single fit; partial_fit is fit at first and ignores all later data. Refuted for the code: a number as spacing can never be fitted (TypeError, an argument is missing); get_feature_names_out never returns the names of the result (x_dot vs. x_dot1); after a second fit on other labels transform refuses the training data; labels that are numbers are not compared.", "quantifier": "all collections with integer times (any number of series, lengths, features), schemes, orders and accuracies, all pairs of collections with a common past", "why_tests_cant": "futures, series, sizes and call histories are unbounded; tests differentiate a few fixed functions", "anchors": ["datafold/dynfold/transform.py:TSCFiniteDifference", "datafold/pcfold/timeseries/accessor.py:TSCAccessor.time_derivative"]}
{"id": "C110", "title": "Prediction and score of the geometric harmonics interpolator", "statement": "After fit, GeometricHarmonicsInterpolator.predict gives for every point and target the sum of kernel values times coefficients, whatever other points are in the call; the array has the documented shape (points, targets) exactly if there are at least two of both, axes of length one are dropped. With at least two points the raw score of a target is minus the root of its mean squared error: never positive, zero exactly if all target values are met; a single target gives a number. The uniform score is minus the root of the average error: at most the average of the raw scores, with equality exactly if all targets have the same error. gradient evaluates for columns 0..q-1; other columns are a ValueError, except q itself, which passes the check and is an IndexError. Refuted for the code: the documented negative mean squared error is only returned if the error is 0 or 1; the weights of samples have no effect; a single point cannot be scored (TypeError for one target, ValueError for several).", "quantifier": "all kernels, coefficients, numbers of training points, features, targets and points, all data, all sample weights, all column numbers", "why_tests_cant": "sizes and values are unbounded; tests score a few data sets and never use weights or a single point", "anchors": ["datafold/dynfold/outofsample.py:GeometricHarmonicsInterpolator.predict", "datafold/dynfold/outofsample.py:GeometricHarmonicsInterpolator.score", "datafold/dynfold/outofsample.py:GeometricHarmonicsInterpolator.gradient"]}
{"id": "C111", "title": "Kernel objects: what is remembered and which calls are accepted", "statement": "Whatever calls were made before (also failing ones), a DmapKernelFixed object accepts exactly one successful pairwise call kernel(X) (AttributeError afterwards); kernel(X', Y) needs it (AttributeError before) and depends on nothing but its own points and that call. For positive kernels with density correction its rows are the transition probabilities with the densities at the points of the pairwise call as weights: positive, sum one, each row independent of the other query points; another number of reference points is a ValueError. At the training points the component-wise matrix is the pairwise one, or similar to it with the stored positive basis change if the pairwise one is made symmetric. A RoselandKernel with alpha=0 is trained by its first call with query points; all later calls scale their rows with the landmark weights of that call. Refuted for the code: reference points of a component-wise call are not compared with the training points (with other points of the same number the old densities give other probabilities); with alpha > 0 no call of a RoselandKernel ever succeeds.", "quantifier": "all histories of calls, all internal kernels (positive for the values), all point clouds and sizes, all settings of the kernel", "why_tests_cant": "histories, clouds and sizes are unbounded; tests evaluate a kernel object twice and never use Roseland with alpha > 0", "anchors": ["datafold/pcfold/kernels.py:DmapKernelFixed.__call__", "datafold/pcfold/kernels.py:BaseManifoldKernel._required_attrs", "datafold/pcfold/kernels.py:RoselandKernel.__call__"]}
{"id": "C112", "title": "A column transformer joins its parts by series and time", "statement": "TSCColumnTransformer gives exactly one row for every series and time at which all its parts have a row without NaN, with the values of the parts side by side in the order of the transformers; the result is a valid time series collection if it is not empty. Names are unique and prefixed if asked for. Only the columns of transformers that are not dropped matter, whatever their places; a missing one is an error. If the parts have the same rows their order is kept, otherwise the rows are sorted, so the order of the series can change (refuted: order kept). n_features_out_ is the sum over the transformers; with dropped or passed columns it fails (refuted).", "quantifier": "all numbers of transformers, all (valid) frames they return with any lost rows, all columns, names and predicates for NaN", "why_tests_cant": "The parts can lose any rows; tests join a few parts of sorted series.", "anchors": ["datafold/dynfold/compose.py:TSCColumnTransformer"]}
{"id": "C113", "title": "Slices of an EDMD model are parts of its dictionary", "statement": "edmd[start:stop] with any bounds (missing, negative or beyond the ends) is the model itself if it covers all steps, a ValueError if it ends with the DMD model but does not cover all steps, an IndexError if it is empty, and otherwise the pipeline of exactly the transformers at these positions in order; another stride is a ValueError. edmd[:k] followed by edmd[k:-1] transforms like edmd[:-1]. A number is a step (negative from the end, IndexError outside) and a name is the step of that name (KeyError without one).", "quantifier": "all dictionaries of any length, all bounds and strides, all numbers and names, all data", "why_tests_cant": "Bounds are any integers; tests slice one model at a few places.", "anchors": ["datafold/appfold/edmd.py:EDMD.__getitem__", "datafold/appfold/edmd.py:EDMD.__init__"]}
{"id": "C114", "title": "New values under the indices of another collection", "statement": "TSCDataFrame.from_same_indices_as gives the values as they are under the series, times and columns of the other collection, or under the given index or columns, and works exactly if not both are given, the shape fits and the result is a valid collection with unique columns. A transformation with one row per row and unique new column names thus always keeps the series and times. Both exceptions and a wrong shape are a ValueError, another type a TypeError. A table given as values is not aligned by its labels (refuted: a value keeps its label).", "quantifier": "all collections, values, indices and columns of any size", "why_tests_cant": "Nearly every transformation builds its result this way; the result has to be right for every shape and label.", "anchors": ["datafold/pcfold/timeseries/collection.py:TSCDataFrame.from_same_indices_as", "datafold/utils/general.py:df_type_and_indices_from"]}
