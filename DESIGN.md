# Formal model of TheiaSfM in Rocq (Coq 8.16.1)

## 1. What this is

`rocq/theories` contains a Gallina model of selected parts of `/repo`
(sweeneychris/TheiaSfM), function by function, and machine-checked theorems about it.
`properties.jsonl` lists the properties, `MANIFEST.json` maps each one to theorem names,
`seeded/LOG.jsonl` records the wrong programs the theorems were tested against.

Per component there are (up to) four kinds of files:

| file            | contents                                                                    |
|-----------------|-----------------------------------------------------------------------------|
| `X_Model.v`     | definitions only; every definition cites the C++ file and lines it models   |
| `X_Spec.v`      | the small independent specification used in the statements                  |
| `X_Proofs.v` (and other names without `_Props`) | lemmas                                      |
| `X_Props.v`     | the property theorems, non-vacuity `Example`s, `Print Assumptions`          |

`Base.v` has the shared `outcome` monad and the iteration orders.  To review a property, read its
line in `properties.jsonl`, the theorem in `X_Props.v`, `X_Spec.v`, and then `X_Model.v` against the C++.

A property that is false of the code is not dropped: a theorem with the suffix `_refuted` shows a concrete
run of the model that contradicts it, and a theorem with the suffix `_partial` proves it under the weakest
guard found, or characterises what the code does instead.

## 2. Modelling conventions (trusted)

* **Containers.** `std::unordered_map/set` become std++ `gmap`/`gset`.  Where the C++ walks over such
  a container and the order can matter, the model takes the visiting order as an extra argument
  (`Base.order`, any function that permutes its input), and the theorem quantifies over all of them.
* **Failure.** `outcome A = Ok a | CheckFail | UB | Hang`.  `CheckFail` models a glog CHECK failure or an
  uncaught exception (process abort), `UB` models undefined behaviour of C++ (out-of-range access, null
  dereference, read of an uninitialised variable, signed overflow where it is modelled), `Hang` is running out
  of the fuel of a loop.  A theorem that says `= Ok _` therefore also says that none of these happens.
* **Integers.** 32-bit id counters are `N` with explicit reduction modulo 2^32; `int` arithmetic that can wrap is
  explicit.  Sizes that are bounded by memory are unbounded `nat`/`N`/`Z`; this is said where it is done.
* **Doubles.** By component: real numbers `R` (polynomials, Gauss-Jordan, camera geometry, RANSAC confidence),
  Coquelicot's complex numbers (closed-form solvers), exact rationals `Q`/`Qc` (quality measures, RANSAC,
  histogram, pyramid, outliers, track selection and estimation), integers (spanning tree weights; only sums and
  comparisons are used), Flocq's IEEE 754 binary32/binary64 bit for bit (SIFT files).  Except for the last,
  rounding is outside the model.  A division by zero is never given Coq's default meaning: it is excluded by a
  hypothesis of the theorem or is `None`/`UB` in the model.
* **Randomness.** A generator is an arbitrary stream of numbers; theorems quantify over all streams, and the
  uniformity theorems count streams.
* **Threads.** Concurrent code is a transition system, or a runner over an arbitrary schedule, whose steps are the
  critical sections and the single writes (mutex semantics assumed, sequential consistency); theorems
  quantify over all executions.
* **External code** is represented by its contract, as a record or a hypothesis of the theorem, never by an
  axiom, and an instance is constructed to show that the contract can be met:
  heap algorithms (`heap_alg`), `std::partial_sort`, `std::sort`, `std::nth_element`, `std::upper_bound`, the logarithm
  quotient of RANSAC (`log_ratio`), samplers and estimators (records of functions), complex roots (`complex_roots`),
  the polynomial root finder (`find_roots`), projection/triangulation/bundle adjustment in the track
  estimator (`geometry`), rotation matrix to angle-axis (`aa_conv`), Householder QR (`qr_contract`), nearest rotation
  (`keeps_rotations`).

## 3. Trusted base

* Coq's kernel (and `coqchk`), Coq 8.16.1, with `vm_compute` on small closed terms.
* The claim that the model files describe the C++ (by inspection, with line citations), under the conventions above.
* The axioms that `Print Assumptions` prints under every theorem, listed per theorem in section 6.  They are the
  standard library's only: `ClassicalDedekindReals.sig_forall_dec`, `ClassicalDedekindReals.sig_not_dec`,
  `FunctionalExtensionality.functional_extensionality_dep` (the real numbers) and `Classical_Prop.classic`.  There are
  no axioms of our own, no `Admitted`, no functors and no module types.

## 4. What is modelled and what is not

| component | modelled (in `src/theia`) | not modelled |
|----|----|----|
| `ConnectedComponents` | `math/graph/connected_components.h`, all of it | |
| `ViewGraph` | `sfm/view_graph/view_graph.cc`, `remove_disconnected_view_pairs.cc`, `ReadFromDisk/WriteToDisk` not | contents of `TwoViewInfo` (arbitrary type) |
| `Reconstruction` | `sfm/reconstruction.cc`, `view.cc`, `track.cc`: all calls that change views, tracks, names, groups; sub-reconstruction; cereal members | `Normalize`; the bytes of the archive |
| `TrackBuilder` | `sfm/track_builder.cc` | log output |
| `LRUCache`, `Mutex` | `util/lru_cache.h`; locking as a transition system | |
| `PriorityQueue` | `util/mutable_priority_queue.h` | |
| `ThreadPool` | `util/threadpool.{h,cc}` | return values of tasks (`std::future`) |
| `FeatureMatcher` | `matching/feature_matcher.cc`: pair lists, chunks, pool | geometric verification (arbitrary function) |
| `Matching` | `matching/feature_matcher_utils.cc`, `brute_force_feature_matcher.cc`, `feature_correspondence.h` | descriptors as floats (distances are an arbitrary function) |
| `FeatureDb` | `matching/in_memory_features_and_matches_database.cc` | the bytes of the archive |
| `MinSpanningTree` | `math/graph/minimum_spanning_tree.h` | rounding of weights |
| `TripletExtractor` | `math/graph/triplet_extractor.h` | |
| `Sampling`, `Quality`, `Ransac` | `solvers/`: random, exhaustive and PROSAC samplers; inlier support, MLE, LMed quality; `sample_consensus_estimator.h`, `lmed.h`, `exhaustive_ransac.h` | evsac, the concrete estimators |
| `Histogram`, `VisibilityPyramid`, `Reservoir` | `math/histogram.h`, `sfm/visibility_pyramid.cc`, `math/reservoir_sampler.h` | |
| `Polynomial`, `ClosedForm`, `GaussJordan` | `math/polynomial.cc`, `math/closed_form_polynomial_solver.cc`, `math/matrix/gauss_jordan.h` | rounding |
| `SfmQueries`, `TrackSelection`, `TrackEstimator` | `sfm/find_common_tracks_in_views.cc`, `find_common_views_by_name.cc`, `set_outlier_tracks_to_unestimated.cc`, parts of `reconstruction_estimator_utils.cc`, `select_good_tracks_for_bundle_adjustment.cc`, `estimate_track.cc` | projection, triangulation, bundle adjustment (arbitrary functions) |
| `SiftFile` | `io/sift_binary_file.cc` | the file system |
| `Camera` | `sfm/camera/camera.cc` (projection, rays, projection matrices), the five lens models, `projection_matrix_utils.cc`, `math/matrix/rq_decomposition.h`, `sfm/transformation/transform_reconstruction.cc` | rounding; the conversions of ceres and Eigen (contracts) |
| `RotationGraph` | `math/rotation.cc` (MultiplyRotations), `sfm/twoview_info.{h,cc}`, `filter_view_pairs_from_orientation.cc`, `filter_view_graph_cycles_by_rotation.cc`, `view_graph/orientations_from_maximum_spanning_tree.cc` | rounding; the conversion to angle-axis (contract) |
| `Alignment` | `sfm/transformation/align_point_clouds.cc`, `align_reconstructions.cc` (AlignReconstructions) | Eigen::JacobiSVD (contract, shown satisfiable), AlignReconstructionsRobust, rounding |
| `Epipolar` | `sfm/pose/util.cc`, `essential_matrix_utils.cc`, `fundamental_matrix_util.cc` (without SharedFocalLengthsFromFundamentalMatrix), `sfm/triangulation/triangulation.cc` (IsTriangulatedPointInFrontOfCameras) | Eigen::JacobiSVD (contract, shown satisfiable), rounding |
| `LeastSquares` | Eigen's LLT solver as used by `sfm/triangulation/triangulation.cc`; contracts of JacobiSVD and SelfAdjointEigenSolver for the smallest vector, shown satisfiable (existence of minimizers proved) | rounding |
| `Triangulation` | `sfm/triangulation/triangulation.cc` (all functions; IsTriangulatedPointInFrontOfCameras in `Epipolar`) | rounding |
| `TranslationFilter` | `sfm/filter_view_pairs_from_relative_translation.cc` | the random choice of the axes (arbitrary vectors), rounding |
| `Localize` | `sfm/localize_view_to_reconstruction.{h,cc}`, `reconstruction_estimator_utils.cc` ComputeResolutionScaledThreshold | the robust estimators and Ceres (contracts), distortion models (an argument) |
| `Priors` | `camera/*_camera_model.cc` constructors, SetFromCameraIntrinsicsPriors, CameraIntrinsicsPriorFromIntrinsics; `camera/camera.cc` 78-139; `camera_intrinsics_model_type.h`; `set_camera_intrinsics_from_priors.cc` | priors for extrinsics and GPS, serialization of priors; objects without owner stay in the heap |
| `Incremental`, `IncrementalCases` | `incremental_reconstruction_estimator.cc`; `reconstruction_estimator_utils.h` 121-147; `reconstruction_estimator_utils.cc` 345-355 | timers, log output, solver options that do not choose the parameters; a second call of Estimate on one estimator |
| `GeometricVerification`, `GeometricVerificationCases` | `estimate_twoview_info.cc`; `two_view_match_geometric_verification.{h,cc}`; contract of `bundle_adjust_two_views.cc` 112-191 | descriptors and match distances; the RANSAC options other than the threshold; a second call of VerifyMatches on one object (theorems only) |
| `GuidedMatcher`, `GuidedMatcherCases` | `guided_epipolar_matcher.{h,cc}` | epipolar line of a keypoint and nearest neighbor search (arguments); rounding of doubles |
| `ReconstructionBuilder` (`_Calls`) | `reconstruction_builder.{h,cc}` | feature extraction and matching (the contents of the database are an argument), the estimators (arguments with a contract), masks, logging |
| `GlobalReconstruction` (`_Graph`, `_Rounds`, `Cases`) | `global_reconstruction_estimator.cc`, the view selection in `extract_maximally_parallel_rigid_subgraph.cc`, `least_unsquared_deviation_position_estimator.cc` and `nonlinear_position_estimator.cc` | the numerical solvers for rotations, positions, relative translations and the rigid component (arguments with contracts), timers, logging |
| `FeatureExtraction` (`_Tasks`, `_Run`, `_Select`, `_Top`) | `feature_extractor_and_matcher.cc` with the accesses to `in_memory_features_and_matches_database.cc` | the detector, the EXIF reader, image files and the global descriptors (arguments), logging |
| `Calibration` (`_Numbers`, `_Text`, `_Parse`) | `write_calibration.cc`, `read_calibration.cc`, the fields of `camera_intrinsics_prior.h` | the JSON parser (argument, with one that is modelled), errors of the file system, infinite doubles and NaN, logging |
| `Colorize` | `colorize_reconstruction.cc`, `GetXY` of `image.cc` | reading of image files (argument), rounding of floats, logging |
| `RocksDb` | `rocksdb_features_and_matches_database.cc` | RocksDB itself (column families as logs, atomic durable writes, status of listing and opening), cereal (codec argument), options, leaked iterators, machine failures |
| `Hybrid` | `hybrid_reconstruction_estimator.cc` (with the functions it has in common with the incremental estimator) | the rotation estimators and the maximum spanning tree (arguments), the angle of a pair and the relative position of a pair (arguments), timings, a second call of Estimate |
| `PlyFile` | `write_ply_file.cc` | printing of numbers (arguments), what happens inside of a line when a write fails |
| `NvmFile` | `write_nvm_file.cc` | characters of the file, failed writes, camera parameters (arguments), bounds of `int` indices |
| `ColmapFile` | `write_colmap_files.cc` | characters of the files, failed writes, camera parameters and poses (arguments) |
| `BundlerFile` | `write_bundler_files.cc` | characters of the files, failed writes, camera parameters (arguments), bounds of `int` indices |
| `ImageSizes` | `populate_image_sizes.cc` | paths, the file system and the reading of images (arguments), files that change during the call |
| `NvmImport` | `import_nvm_file.cc` | parsing of the file (external library), camera parameters (one value), negative indices |
| `BundleAdjust` | `sfm/bundle_adjustment/bundle_adjuster.{h,cc}`, `bundle_adjustment.{h,cc}`; GetSubsetFromOptimizeIntrinsicsType of the five camera models | ceres::Solve (contract), solver options, elimination ordering, timing |

Not modelled at all: image processing, feature extraction, the minimal pose solvers, bundle adjustment, the global and
incremental reconstruction pipelines, the remaining file formats, the applications.

## 5. Plan per property

| id | property | how it is modelled and proved |
|----|----|----|
| C01 | Connected components equal graph reachability | `ConnectedComponents_Model`: node -> (root, size), find with path compression (fuelled; running out is proved impossible). Refinement to an abstract partition, reachability by induction on the history |
| C02 | Capped connected components never exceed the cap and stay a connected partition | same model with the cap; invariant over histories |
| C03 | Queries on connected components have no observable side effects | same model; queries interleaved with edges leave the abstract partition unchanged |
| C04 | ViewGraph is a faithful undirected simple graph | `ViewGraph_Model`; refinement of the two tables to a labelled graph over all histories |
| C05 | ExtractSubgraph returns the induced subgraph | exact result of the model function, for all iteration orders |
| C06 | GetLargestConnectedComponentIds returns a largest component | through C01: the classes of the union-find are the components; maximality by the loop invariant |
| C07 | RemoveDisconnectedViewPairs keeps exactly one largest component | through C06; exact set of removed views |
| C08 | View/track incidence of a Reconstruction is always symmetric | `Reconstruction_Model`; invariant by induction over all operations |
| C09 | View names and ids are in bijection and ids are not reused | same invariant, with the counters |
| C10 | RemoveView and RemoveTrack have exactly their documented effect | exact post-state, frame included |
| C11 | AddTrack(observations) is all-or-nothing | exact post-state or no change |
| C12 | Camera intrinsics groups partition the views; AddView without a group creates a private group | invariant for the partition; a three-call witness refutes the private group; proved for callers that only use numbers they were given |
| C13 | GetSubReconstruction is the induced reconstruction | exact result of GetSubReconstruction, and equal behaviour of later calls |
| C14 | Saving and loading a Reconstruction preserves its behaviour | bisimulation between the original and the loaded object, except for the counter that is not saved (witness) |
| C15 | TrackBuilder emits valid, disjoint, correspondence-connected tracks | `TrackBuilder_Model` on top of C02 and C11; invariant over correspondences |
| C16 | TrackBuilder honours the minimum track length | witness with a repeated view; proved when no view repeats |
| C17 | LRUCache returns the right value and evicts the least recently used entry | `LRUCache_Model`; refinement to a recency list |
| C18 | LRUCache is linearizable under concurrent use | `Mutex_Model`: linearisation at the critical section, for all schedules |
| C19 | mutable_priority_queue always pops an extremal element | heap algorithms by contract; invariant of the two tables; witness for a repeated insertion |
| C20 | ThreadPool runs every accepted task exactly once, and its destructor waits for all of them | `ThreadPool_Model` transition system; invariants over all traces, progress, termination measure |
| C21 | FeatureMatcher matches every requested pair exactly once | arithmetic partition lemma for the chunks; pool through C20 |
| C22 | MinimumSpanningTree returns a spanning tree of minimum weight | `MinSpanningTree_Model`; Kruskal by exchange argument, all orders of equal weights |
| C23 | TripletExtractor finds every triangle exactly once | `TripletExtractor_Model`; invariant over processed edges, any sort |
| C24 | IntersectMatches keeps exactly the mutual matches | `Matching_Model`; list reasoning |
| C25 | Brute-force matching returns true nearest neighbours that pass the requested tests | partial_sort by contract; exact set of accepted matches; witness for fewer than two descriptors |
| C26 | RANSAC returns the best hypothesis it evaluated and the exact inlier set | `Ransac_Model`; loop invariant for every sampler, estimator and quality measure |
| C27 | RANSAC success implies that a model was found | witness without hypotheses; proved otherwise |
| C28 | RandomSampler yields distinct in-range indices | `Sampling_Model`; swap loop invariant over all streams |
| C29 | ExhaustiveSampler enumerates every pair exactly once per round | enumeration of pairs by induction; witness after reinitialisation |
| C30 | ProsacSampler yields distinct in-range indices | invariant over all streams; witness for the index one past the end |
| C31 | Least-median cost is the median of squared residuals | nth_element by contract; exact cost for both parities |
| C32 | Inlier-support and MLE costs rank models as documented | `Quality_Model`; sums over lists, permutation invariance, monotonicity |
| C33 | Polynomial arithmetic is correct | `Polynomial_Model` over R; agreement with evaluation at every point, Coquelicot derivative |
| C34 | DividePolynomial satisfies the division identity | loop invariant; witnesses for constants and leading zeros |
| C35 | Quadratic root finding is sound and complete | real algebra, completeness by the factor argument |
| C36 | SolveCubic returns roots of the cubic | `ClosedForm_Model` over complex numbers with principal roots; sign analysis of the two cube roots |
| C37 | Gauss-Jordan elimination preserves the solution set and reduces the matrix | `GaussJordan_Model`; row operations preserve solutions, pivot invariant |
| C38 | Histogram counts every value in exactly one correct bin | `Histogram_Model`; invariant over histories; witness for integers |
| C39 | VisibilityPyramid score is an order-independent weighted count of occupied cells | `VisibilityPyramid_Model`; the grids are determined by the multiset of points; overflow bound |
| C40 | ReservoirSampler keeps a uniform sample | `Reservoir_Model`; counting of random streams |
| C41 | Track selection for bundle adjustment covers every view | `TrackSelection_Model`; set reasoning; two-call witness for the static variable |
| C42 | Long tracks with small error are preferred | exact choice; witness |
| C43 | Outlier track removal is exact and monotone | `SfmQueries_Model`; exact post-state, idempotence |
| C44 | FindCommonTracksInViews returns exactly the tracks seen in all views | set_intersection of sorted lists |
| C45 | In-memory features-and-matches database: last write wins and file round trip | `FeatureDb_Model`; map reasoning, witness for foreign names |
| C46 | SIFT binary key files round trip | `SiftFile_Model` with Flocq; byte round trip, rounding of d*255 and b/255 checked for all 256 bytes by computation inside the proof |
| C47 | Similarity transformations of a reconstruction preserve all reprojections | `Camera_Model` over R; matrix algebra; fisheye witness |
| C48 | Pinhole camera projection and back-projection are inverse | same; inverse functions |
| C49 | Without an explicit pair list, MatchImages matches all pairs of the images added | witness of two calls; proved for the first call |
| C50 | RandomSampler is uniform over ordered samples | counting of random streams |
| C51 | RANSAC stops early only when the failure probability is reached | real analysis of the stopping criterion; witness for the rounding |
| C52 | Estimate always returns a result for valid parameters | totality of the loop for every interface instance |
| C53 | The printed histogram is the histogram | exact printed lines; witness without boundaries |
| C54 | MinimizePolynomial returns a minimum of the polynomial on the interval | extreme values on an interval (Coquelicot), critical points found by the contract of the root finder |
| C55 | SolveQuartic returns the roots of the quartic | field identities for Ferrari; witness x^4 - 1 |
| C56 | SolveQuadratic returns the roots; the real variants return all real roots | real and complex algebra |
| C57 | FindCommonViewsByName returns exactly the names in both reconstructions | list and map reasoning |
| C58 | Underconstrained views and tracks are recognised exactly | loop invariants, exact post-state |
| C59 | Estimated poses are transferred to exactly the views that have both parts | loop invariant over any order |
| C60 | Parallel track estimation is deterministic and exact | schedules as lists of task numbers; each task only writes its own tracks, so every complete schedule gives the specified state |
| C61 | Undistortion inverts distortion for the closed-form lens models | real analysis (atan/tan, square roots) |
| C62 | The iterative undistortion of the pinhole model converges to the undistorted point | contraction of the iteration on a ball |
| C63 | Projection matrices represent the camera and decompose uniquely | uniqueness of RQ with positive diagonal; Givens QR as instance of the contract |
| C64 | Orientations chained along a maximum spanning tree | invariant of the chaining loop: the used edges number one less than the views reached, so at the end they are the whole tree; optimality from the spanning tree theorem, with a heap contract |
| C65 | The orientation filter removes exactly the view pairs that disagree | fold over the edges; the norm of the canonical angle-axis vector is the angle given by the trace |
| C66 | The cycle filter keeps exactly the view pairs on a consistent triangle | fold over the triplets of the extractor theorem; the trace is cyclic and invariant under transposition, so the error does not depend on the starting edge |
| C67 | Relative poses of two cameras compose, invert and relate their frames | matrix identities for rotations |
| C68 | Bundle adjustment changes only what it was asked to change | invariant of the problem (parameter blocks, flags, residuals) over AddView and AddTrack; a lemma for passes that set flags; the contract of the solver gives the frame; conversely a solver is constructed for every admissible change |
| C69 | Bundle adjustment minimizes over exactly the observations of the chosen views and tracks | the same invariant: residuals are exactly the selected observations, without repetition |
| C70 | Bundle adjustment of existing views and tracks returns | the same invariant gives the exact conditions for the parameter blocks to exist; refuted on a reconstruction with an isolated view and an isolated track |
| C71 | The intrinsics parameters kept constant are those not requested | bit-wise characterisation of the mask per camera model |
| C72 | Point-cloud alignment is optimal and recovers exact similarities | the misfit splits into a centroid part and a part in scale and rotation; the trace of an orthogonal matrix times the singular values is bounded by entries at most one, and for determinant -1 by the trace of a rotation; completing the square gives the scale. Recovery: a similarity is determined by three points not on a line. The singular value decomposition of every 3x3 matrix is constructed (cubic root by the intermediate value theorem, eigenvector, 2x2 rotation) |
| C73 | Point-cloud alignment is defined for all clouds of equal size | case analysis of the model; refuted by the empty clouds and by one pair of points |
| C74 | AlignReconstructions brings the common cameras closest | composition of the common-names theorem (C57), the optimality theorem (C72) and the frame of TransformReconstruction (C47); refuted by a pair of reconstructions with an unestimated common view |
| C75 | The squared Sampson distance is the first-order distance to the epipolar constraint | Lagrange/Cauchy-Schwarz: the minimum of a quadratic form under one linear constraint; the minimizer is given explicitly |
| C76 | NormalizeImagePoints centers the points with average distance sqrt(2) | algebra of sums; the average distance is refuted by three points |
| C77 | ProjectToRotationMatrix returns the closest rotation | the trace bound on rotations from the singular value decomposition (C72); farthest for negative determinant by the same bound with the sign reversed |
| C78 | DecomposeEssentialMatrix finds the motion | the singular values of an essential matrix are s, s, 0; the third left singular vector is the translation up to sign; uniqueness of the remaining freedom |
| C79 | GetBestPoseFromEssentialMatrix returns the pose with most points in front | closest points of two rays by Gram determinants; exclusion of the other three candidates for every exact correspondence; the maximum of four counts |
| C80 | EssentialMatrixFromTwoProjectionMatrices relates the images of every point | the fundamental matrix of calibrated cameras is minus the essential matrix of the relative motion |
| C81 | Conversions between fundamental, essential and projection matrices agree | polynomial identities and the null vector from the singular value decomposition |
| C82 | FocalLengthsFromFundamentalMatrix recovers the focal lengths | in rotated coordinates the matrix has a 2x2 core with four numbers; orthogonality of its rows and columns after removing the focal lengths is equivalent to being essential; both directions are proved |
| C83 | IsTriangulatedPointInFrontOfCameras tests the depths of the closest points of the rays | Gram determinants: the solution of the normal equations is the unique closest pair |
| C84 | TriangulateDLT minimizes its error and recovers exact points | the error as sum of squares of the rows; kernel of two views is the point (same ray twice, off the baseline) |
| C85 | TriangulateNView minimizes the algebraic error and recovers exact points | quadratic form of the accumulated matrix is the sum over the views of the squared distance from the ray; partial minimization over the ray parameters |
| C86 | TriangulateMidpoint returns the point nearest to the rays | normal equations; positive definite iff the rays are not parallel; Cholesky solver proved correct by induction on the size |
| C87 | Triangulate corrects the image points so that the rays meet | exact images: c = 0 and b > 0, so the correction is the identity; counterexample computed exactly |
| C88 | TriangulateNViewSVD recovers exact points | rows of the design matrix with memory as argument; induction over the views; memory contents that move the kernel |
| C89 | SufficientTriangulationAngle compares the largest angle of two rays | monotonicity of the cosine; induction on the list of directions |
| C90 | FilterViewPairsFromRelativeTranslation keeps consistent translations | invariant of the feedback arc set loop (degrees and neighbors of the remaining views); the projections of the positions are a potential, so every chosen view is a source |
| C91 | FilterViewPairsFromRelativeTranslation removes exactly the edges against an ordering | the weights as sums over the axes, invariant under permutations of the additions; ViewGraph refinement for the removals |
| C92 | FilterViewPairsFromRelativeTranslation breaks contradictory cycles | a strict ranking cannot increase around a closed walk; pigeonhole over axes and steps |
| C93 | A localized view has a pose with enough inliers | case analysis of the call; inliers are distinct correspondences, these are distinct tracks; the frame and cost theorems of the bundle adjustment model |
| C94 | Localization changes only the view that is localized | same case analysis: every branch writes only the view and its intrinsics object |
| C95 | A failed localization changes nothing | false, two concrete runs; proved for too few tracks and failing estimators |
| C96 | Shared intrinsics that were estimated are used for localization | false, a concrete run changes the focal length of an estimated view; the exact test is proved |
| C97 | Localization with a known orientation falls back to P3P | false, a concrete run; proved that the result does not depend on the other estimators |
| C98 | A prior made from intrinsics restores them | the five models parameter by parameter; the prior determines every parameter, so the result is unique |
| C99 | A prior determines exactly the parameters it sets | every parameter by name and position; abort exactly for an unusable prior |
| C100 | Setting intrinsics from priors keeps groups together | invariant of the loop over the groups, for all iteration orders of groups and views |
| C101 | Estimated intrinsics are the starting point for their group | false, a concrete run for every iteration order; guarded version from C98 and C100 |
| C102 | Copies of a camera share intrinsics, deep copies do not | heap of intrinsics objects with identities |
| C103 | Incremental reconstruction changes only what it estimates | one safety lemma per step (outcome and invariant), composed along the run; environment as a stream, with contracts for estimators and solver |
| C104 | Incremental reconstruction has no undefined behaviour | the same lemmas with undefined behaviour excluded; two concrete runs refute the general statement |
| C105 | The initial pair is well supported | invariant of the loop over the candidates, from the frames of triangulation and bundle adjustment |
| C106 | Candidates are tried best first | sortedness and permutation of merge sort, exact score from C39 |
| C107 | Underconstrained views and tracks are removed | termination and invariant of the loop; concrete runs refute the rest |
| C108 | Each round of incremental reconstruction localizes one view | per-round relation, induction over rounds with the size of the set of views to localize as measure |
| C109 | Estimating the geometry of two views | loops as recursive functions, estimators as arguments with a contract, errors per normalized feature |
| C110 | Geometrically verified matches | exact description of the returned matches by two selections that keep the order; adjusted cameras and points as arguments with a contract |
| C111 | Geometric verification is total | totality of every step for indices in range |
| C112 | The minimum number of inlier matches | equivalence with the number of inliers; counterexample with exactly the minimum |
| C113 | The visibility score of two views | computed from the empty vector; counterexample |
| C114 | The number of homography inliers | image sizes of new cameras are 0; counterexample |
| C115 | Known focal lengths are kept by verification | constant intrinsics in the contract of the adjustment; counterexample with one focal length |
| C116 | The result of guided matching | induction over groups and features, with the nearest neighbor search as a contract; invariants of the grids and of the mean segments |
| C117 | Guided matching only uses features without a match | corollary of C116; counterexample with a random candidate that has a match |
| C118 | Guided matching is defined | totality of every step by bounds on coordinates; counterexamples with no unmatched feature and with one feature |
| C119 | Features near an epipolar line are considered | the four grids have centers at most half a cell away in both coordinates; counterexample with a feature at the end of the segment |
| C120 | Segments of epipolar lines | signs of the line at the corners; bits of the encoded numbers; counterexample with the diagonal |
| C121 | Reconstructions returned by the builder | invariant of the loop of BuildReconstruction over the refinement of the reconstruction; the estimator is an argument with a contract |
| C122 | Result and termination of BuildReconstruction | the same invariant; measure: the number of views; counterexamples with concrete estimators |
| C123 | Only calibrated views | invariant of the loop, contract of the estimator |
| C124 | What the matches of a builder become | invariant of the calls: accepted matches, state of the track builder and of the view graph; reuses the theorem about the track builder |
| C125 | Returned reconstructions do not change | heap of intrinsics objects, frame property of the loop; counterexample with one group of views |
| C126 | Calls of the builder are defined | case analysis; concrete sequences of calls |
| C127 | Images and priors of a builder | invariant of the calls: names, views and data against a log of the calls |
| C128 | Which edges and views global reconstruction uses | composition of the lemmas on each filter of the view graph, with relations between the graphs before and after a step |
| C129 | The view graph after the poses are estimated | each relation of C128 is followed backwards from the final graph to the input |
| C130 | What global reconstruction may change | safe-execution lemmas on the rounds of triangulation and bundle adjustment |
| C131 | Tracks after a successful global reconstruction | invariant of the rounds: the last step of a round is the removal of outliers |
| C132 | Failures of global reconstruction | case analysis on C128 |
| C133 | Global reconstruction is defined | safe-execution lemmas with an estimator that returns; refuted with an inconsistent triangle of rotations |
| C134 | What feature extraction stores | invariant over all schedules of the tasks; each task writes only the entries of its own image |
| C135 | Features of one image | induction over the loop of the mask, then a case analysis on the limit |
| C136 | Priors that the user gives are kept | corollary of C134; refuted with a prior without a focal length |
| C137 | Selection of image pairs by global descriptors | the rows of the score table as sorted lists; the neighbours of an image as a count of nearer images |
| C138 | Extracting and matching from end to end | C134, C137 and the matcher of C21 and C49 in sequence; refutations by running the model |
| C139 | Feature extraction has no data race | accesses of each phase of a task; two tasks in a reachable state with conflicting accesses, and none with one thread |
| C140 | Calibrations survive being written to a file and read again | the text as the text of a JSON document (an inductive grammar), the printed decimal within the error of six digits, reading the document back; the parser is an argument that has to understand the grammar |
| C141 | Calibration files lose nothing | two latitudes with the same text, a name with a quote, a forged name; equality of the maps when six digits are enough |
| C142 | What a calibration file says | a relation between the members of an entry and the calibration, and the last entry for a name |
| C143 | Files that are no calibration files are answered with false | every failing parse, an array as a document, wrong types by running the model; the cases that return false |
| C144 | Colors of the points | steps of the image tasks in any schedule; what is added and what is still to be added is constant for every track; permutation of views |
| C145 | Colorizing every reconstruction | concrete runs that end in undefined behaviour or abort; the checks before the tasks |
| C146 | A database directory stays usable | world = directory plus object; calls are lists of atomic steps, a death runs a prefix of them; invariant per column family by induction on the history; concrete runs for the windows |
| C147 | Priors and features outlive the process | per column family: newest entries = last writes of the history, by the same invariant |
| C148 | Matches of different pairs are kept apart | as C147, with injectivity of the composed key on names without slash; a concrete collision |
| C149 | Numbers of a database directory | log lengths against duplicate-free key lists; a concrete double write |
| C150 | Hybrid reconstruction: orientations from the rotation estimation | induction over the list of orientations; lookups after each step, permutation of the order |
| C151 | Hybrid reconstruction changes only what it estimates | the invariant of incremental reconstruction, kept by the initial pair, localization with two attempts and rounds over all candidates |
| C152 | Hybrid reconstruction has no undefined behaviour | the same induction with undefined behaviour excluded; a concrete edge to a missing view |
| C153 | Hybrid reconstruction keeps views that are already estimated | views outside of both lists and unestimated stay so through every round |
| C154 | Hybrid reconstruction: the initial pair | lists of scored edges, sorted; the loop over candidates keeps the flags |
| C155 | Hybrid reconstruction keeps the orientations of the rotation estimation | each step of the run is shown to keep the last three numbers of every pose, or to set them to those of a successful localization; the steps are composed with the invariants of C151, and bundle adjustment is covered by its frame theorem with constant orientations |
| C156 | A PLY file holds exactly the estimated points and cameras | the file as a list of lines; the loop of removals by induction with the consistency of the reconstruction as invariant |
| C157 | Writing a PLY file returns true only if the file is complete | the stream fails after any number of lines; false of the code, with the part that holds |
| C158 | An NVM file shows the reconstruction and its indices are right | the loops over views, tracks and observations by induction, with the maps of indices as invariants |
| C159 | COLMAP files show the estimated part and refer to each other correctly | the estimated part of the reconstruction by the refinement of C08, then one induction per loop; positions by the order of the map of features, which is the same in both files |
| C160 | COLMAP cameras have both distortion parameters | false of the code, with the part that holds |
| C161 | Bundler files show the estimated part and their indices are right | the estimated part of the reconstruction by the refinement of C08, then one induction per loop with the map of indices as an invariant |
| C162 | Setting image sizes from images changes all views or none | one induction per loop; the heap of intrinsics objects is followed pointer by pointer |
| C163 | Populated principal points are the centers of the images | false of the code, with the part that holds |
| C164 | An imported NVM file has the content of the file | both loops by induction over the abstract reconstruction of C08; false of the code for reconstructions that are not empty |

## 6. Axioms per theorem

As printed by `Print Assumptions`: F = `ClassicalDedekindReals.sig_forall_dec`, N = `ClassicalDedekindReals.sig_not_dec`,
E = `FunctionalExtensionality.functional_extensionality_dep`, C = `Classical_Prop.classic`, - = closed under the global context.

| id | status | theorem | module | axioms |
|----|----|----|----|----|
| C01 | proved | `cc_reachability` | `ConnectedComponents_Props` | - |
| C02 | proved | `cc_capped` | `ConnectedComponents_Props` | - |
| C03 | proved | `cc_query_transparent` | `ConnectedComponents_Props` | - |
| C04 | proved | `view_graph_refines` | `ViewGraph_Props` | - |
| C05 | proved | `extract_subgraph_induced` | `ViewGraph_Props` | - |
| C06 | proved | `largest_component_correct` | `ViewGraph_Props` | - |
| C07 | proved | `remove_disconnected_correct` | `ViewGraph_Props` | - |
|  |  | `remove_disconnected_no_edges` | `ViewGraph_Props` | - |
| C08 | proved | `incidence_symmetric` | `Reconstruction_Props` | - |
|  |  | `no_internal_abort` | `Reconstruction_Props` | - |
|  |  | `reconstruction_refines` | `Reconstruction_Props` | - |
| C09 | proved | `names_bijective` | `Reconstruction_Props` | - |
|  |  | `ids_never_reused` | `Reconstruction_Props` | - |
| C10 | proved | `remove_view_exact` | `Reconstruction_Props` | - |
|  |  | `remove_track_exact` | `Reconstruction_Props` | - |
| C11 | proved | `add_track_all_or_nothing` | `Reconstruction_Props` | - |
| C12 | partial | `groups_partition` | `Reconstruction_Props` | - |
|  |  | `private_group_partial` | `Reconstruction_Props` | - |
|  |  | `private_group_refuted` | `Reconstruction_Props` | - |
| C13 | proved | `sub_reconstruction_induced` | `Reconstruction_Props` | - |
|  |  | `sub_reconstruction_continues` | `Reconstruction_Props` | - |
| C14 | partial | `save_load_partial` | `Reconstruction_Props` | - |
|  |  | `save_load_refuted` | `Reconstruction_Props` | - |
| C15 | proved | `track_builder_exact` | `TrackBuilder_Props` | - |
|  |  | `track_builder_valid` | `TrackBuilder_Props` | - |
|  |  | `track_builder_complete` | `TrackBuilder_Props` | - |
| C16 | partial | `min_track_length_partial` | `TrackBuilder_Props` | - |
|  |  | `min_track_length_refuted` | `TrackBuilder_Props` | - |
|  |  | `min_one_aborts` | `TrackBuilder_Props` | - |
| C17 | proved | `lru_cache_correct` | `LRUCache_Props` | - |
|  |  | `lru_cache_capacity` | `LRUCache_Props` | - |
| C18 | proved | `lru_cache_linearizable` | `LRUCache_Props` | - |
|  |  | `lru_cache_no_deadlock` | `LRUCache_Props` | - |
| C19 | partial | `priority_queue_partial` | `PriorityQueue_Props` | - |
|  |  | `priority_queue_refuted` | `PriorityQueue_Props` | - |
| C20 | proved | `thread_pool_fifo_once` | `ThreadPool_Props` | - |
|  |  | `thread_pool_destructor` | `ThreadPool_Props` | - |
|  |  | `thread_pool_no_deadlock` | `ThreadPool_Props` | - |
|  |  | `thread_pool_terminates` | `ThreadPool_Props` | - |
|  |  | `thread_pool_threads` | `ThreadPool_Props` | - |
|  |  | `thread_pool_abort` | `ThreadPool_Props` | - |
| C21 | proved | `feature_matcher_chunks` | `FeatureMatcher_Props` | - |
|  |  | `feature_matcher_pool` | `FeatureMatcher_Props` | - |
|  |  | `match_images_requested` | `FeatureMatcher_Props` | - |
|  |  | `match_images_all` | `FeatureMatcher_Props` | - |
|  |  | `match_images_nothing` | `FeatureMatcher_Props` | - |
|  |  | `match_images_no_threads` | `FeatureMatcher_Props` | - |
| C22 | proved | `minimum_spanning_tree_optimal` | `MinSpanningTree_Props` | - |
|  |  | `minimum_spanning_tree_self_loop_refuted` | `MinSpanningTree_Props` | - |
|  |  | `minimum_spanning_tree_reused_output_refuted` | `MinSpanningTree_Props` | - |
| C23 | proved | `triplets_exact` | `TripletExtractor_Props` | - |
|  |  | `triplets_unordered_refuted` | `TripletExtractor_Props` | - |
| C24 | proved | `intersect_matches_exact` | `Matching_Props` | - |
|  |  | `intersect_matches_repeated` | `Matching_Props` | - |
| C25 | partial | `brute_force_partial` | `Matching_Props` | - |
|  |  | `brute_force_refuted` | `Matching_Props` | - |
| C26 | proved | `ransac_best` | `Ransac_Props` | - |
|  |  | `lmed_best` | `Ransac_Props` | - |
| C27 | partial | `ransac_success_partial` | `Ransac_Props` | - |
|  |  | `ransac_success_refuted` | `Ransac_Props` | - |
| C28 | proved | `random_sampler_distinct` | `Sampling_Props` | - |
|  |  | `random_sampler_too_few` | `Sampling_Props` | - |
| C29 | partial | `exhaustive_sampler_partial` | `Sampling_Props` | - |
|  |  | `exhaustive_sampler_refuted` | `Sampling_Props` | - |
| C30 | partial | `prosac_sampler_partial` | `Sampling_Props` | - |
|  |  | `prosac_sampler_terminates` | `Sampling_Props` | - |
|  |  | `prosac_sampler_refuted` | `Sampling_Props` | - |
| C31 | partial | `lmed_cost_partial` | `Quality_Props` | - |
|  |  | `lmed_inliers_exact` | `Quality_Props` | - |
|  |  | `lmed_cost_refuted` | `Quality_Props` | - |
| C32 | proved | `costs_exact` | `Quality_Props` | - |
|  |  | `costs_permutation` | `Quality_Props` | - |
|  |  | `costs_monotone` | `Quality_Props` | - |
| C33 | proved | `evaluate_polynomial` | `Polynomial_Props` | EF |
|  |  | `remove_leading_zeros_exact` | `Polynomial_Props` | EF |
|  |  | `add_polynomials` | `Polynomial_Props` | EF |
|  |  | `multiply_polynomials` | `Polynomial_Props` | EF |
|  |  | `differentiate_polynomial` | `Polynomial_Props` | EF |
| C34 | partial | `divide_polynomial_partial` | `Polynomial_Props` | EF |
|  |  | `divide_polynomial_refuted` | `Polynomial_Props` | EF |
| C35 | partial | `quadratic_roots_partial` | `Polynomial_Props` | EFN |
|  |  | `quadratic_roots_real_partial` | `Polynomial_Props` | EFN |
|  |  | `linear_roots_exact` | `Polynomial_Props` | EF |
|  |  | `quadratic_roots_refuted` | `Polynomial_Props` | EFN |
| C36 | partial | `solve_cubic_partial` | `ClosedForm_Props` | CEFN |
|  |  | `solve_cubic_triple` | `ClosedForm_Props` | CEFN |
|  |  | `solve_cubic_refuted` | `ClosedForm_Props` | CEFN |
|  |  | `solve_cubic_degenerate` | `ClosedForm_Props` | CEFN |
| C37 | partial | `gauss_jordan_solutions` | `GaussJordan_Props` | EF |
|  |  | `gauss_jordan_partial` | `GaussJordan_Props` | EF |
|  |  | `gauss_jordan_refuted` | `GaussJordan_Props` | EF |
|  |  | `gauss_jordan_one_row` | `GaussJordan_Props` | - |
| C38 | partial | `histogram_exact` | `Histogram_Props` | - |
|  |  | `histogram_int_partial` | `Histogram_Props` | - |
|  |  | `histogram_int_refuted` | `Histogram_Props` | - |
| C39 | partial | `visibility_pyramid_partial` | `VisibilityPyramid_Props` | - |
|  |  | `visibility_pyramid_in_range` | `VisibilityPyramid_Props` | - |
|  |  | `visibility_pyramid_order` | `VisibilityPyramid_Props` | - |
|  |  | `visibility_pyramid_monotone` | `VisibilityPyramid_Props` | - |
|  |  | `visibility_pyramid_refuted` | `VisibilityPyramid_Props` | - |
| C40 | proved | `reservoir_contents` | `Reservoir_Props` | - |
|  |  | `reservoir_uniform` | `Reservoir_Props` | - |
| C41 | partial | `selection_coverage_partial` | `TrackSelection_Props` | - |
|  |  | `selection_all_views_partial` | `TrackSelection_Props` | - |
|  |  | `selection_history_refuted` | `TrackSelection_Props` | - |
| C42 | partial | `cell_choice_partial` | `TrackSelection_Props` | - |
|  |  | `top_up_partial` | `TrackSelection_Props` | - |
|  |  | `long_tracks_preferred_refuted` | `TrackSelection_Props` | - |
| C43 | proved | `outlier_tracks_exact` | `SfmQueries_Props` | - |
|  |  | `outlier_tracks_all` | `SfmQueries_Props` | - |
|  |  | `outlier_tracks_idempotent` | `SfmQueries_Props` | - |
|  |  | `outlier_tracks_missing` | `SfmQueries_Props` | - |
|  |  | `reachable_consistent` | `SfmQueries_Props` | - |
| C44 | proved | `common_tracks_exact` | `SfmQueries_Props` | - |
|  |  | `common_tracks_few` | `SfmQueries_Props` | - |
|  |  | `common_tracks_missing` | `SfmQueries_Props` | - |
| C45 | partial | `feature_db_last_write` | `FeatureDb_Props` | - |
|  |  | `feature_db_roundtrip_partial` | `FeatureDb_Props` | - |
|  |  | `feature_db_merge_partial` | `FeatureDb_Props` | - |
|  |  | `feature_db_roundtrip_refuted` | `FeatureDb_Props` | - |
| C46 | proved | `sift_round_trip` | `SiftFile_Props` | CEFN |
|  |  | `sift_rewrite` | `SiftFile_Props` | CEFN |
|  |  | `sift_truncated` | `SiftFile_Props` | CEFN |
| C47 | proved | `transform_preserves_projections` | `Camera_Props` | CEFN |
|  |  | `transform_frame` | `Camera_Props` | EFN |
|  |  | `transform_order_independent` | `Camera_Props` | EFN |
|  |  | `transform_fisheye_refuted` | `Camera_Props` | CEFN |
| C48 | proved | `ray_of_projection` | `Camera_Props` | CEFN |
|  |  | `projection_of_ray` | `Camera_Props` | CEFN |
| C49 | partial | `match_images_again_refuted` | `FeatureMatcher_Props` | - |
|  |  | `match_images_again_partial` | `FeatureMatcher_Props` | - |
| C50 | proved | `random_sampler_uniform` | `Sampling_Props` | - |
| C51 | partial | `ransac_failure_probability_partial` | `Ransac_Confidence` | CEFN |
|  |  | `ransac_failure_probability_refuted` | `Ransac_Confidence` | CEFN |
| C52 | proved | `ransac_total` | `Ransac_Props` | - |
|  |  | `exhaustive_ransac_total` | `Ransac_Props` | - |
|  |  | `lmed_total` | `Ransac_Props` | - |
|  |  | `ransac_confidence_range` | `Ransac_Props` | - |
| C53 | partial | `histogram_print` | `Histogram_Props` | - |
|  |  | `histogram_print_refuted` | `Histogram_Props` | - |
| C54 | proved | `minimize_polynomial` | `Polynomial_Props` | CEFN |
| C55 | partial | `solve_quartic_partial` | `ClosedForm_Props` | EFN |
|  |  | `quartic_beta_meaning` | `ClosedForm_Props` | EF |
|  |  | `solve_quartic_refuted` | `ClosedForm_Props` | EFN |
| C56 | partial | `solve_quadratic_partial` | `ClosedForm_Props` | EFN |
|  |  | `solve_quadratic_linear` | `ClosedForm_Props` | EFN |
|  |  | `reals_within_tolerance` | `ClosedForm_Props` | EF |
|  |  | `solve_quadratic_reals_partial` | `ClosedForm_Props` | EFN |
|  |  | `solve_cubic_reals_partial` | `ClosedForm_Props` | CEFN |
|  |  | `solve_quadratic_refuted` | `ClosedForm_Props` | EFN |
| C57 | proved | `common_views_exact` | `SfmQueries_Props` | - |
| C58 | proved | `underconstrained_tracks_exact` | `SfmQueries_Props` | - |
|  |  | `underconstrained_views_exact` | `SfmQueries_Props` | - |
|  |  | `estimated_sets_exact` | `SfmQueries_Props` | - |
| C59 | proved | `estimated_poses_exact` | `SfmQueries_Props` | - |
|  |  | `estimated_poses_abort` | `SfmQueries_Props` | - |
| C60 | proved | `estimate_tracks_exact` | `TrackEstimator_Props` | - |
|  |  | `estimation_unique` | `TrackEstimator_Props` | - |
|  |  | `estimate_tracks_deterministic` | `TrackEstimator_Props` | - |
|  |  | `estimate_all_tracks_exact` | `TrackEstimator_Props` | - |
|  |  | `estimate_tracks_bad_options` | `TrackEstimator_Props` | - |
| C61 | proved | `division_round_trip` | `Camera_Props` | EFN |
|  |  | `division_round_trip_back` | `Camera_Props` | EFN |
|  |  | `fov_round_trip` | `Camera_Props` | CEFN |
|  |  | `fov_round_trip_back` | `Camera_Props` | CEFN |
|  |  | `division_round_trip_refuted` | `Camera_Props` | EFN |
|  |  | `fov_round_trip_refuted` | `Camera_Props` | CEFN |
| C62 | proved | `pinhole_undistort_accurate` | `Camera_Props` | EF |
|  |  | `pinhole_undistort_refuted` | `Camera_Props` | EF |
| C63 | partial | `projection_matrix_projects` | `Camera_Props` | CEFN |
|  |  | `decompose_projection_exact` | `Camera_Props` | EFN |
|  |  | `decompose_inverts_compose` | `Camera_Props` | EFN |
|  |  | `initialize_reproduces_matrix` | `Camera_Props` | EFN |
|  |  | `intrinsics_calibration_round_trip` | `Camera_Props` | EF |
|  |  | `initialize_singular_refuted` | `Camera_Props` | EFN |
| C64 | proved | `orientations_from_mst_exact` | `RotationGraph_Props` | EFN |
|  |  | `orientations_from_mst_ground_truth` | `RotationGraph_Props` | EFN |
|  |  | `orientations_from_mst_no_edges` | `RotationGraph_Props` | EFN |
|  |  | `orientations_from_mst_reused_output_refuted` | `RotationGraph_Props` | CEFN |
| C65 | proved | `orientation_filter_exact` | `RotationGraph_Props` | CEFN |
| C66 | proved | `cycle_filter_exact` | `RotationGraph_Props` | CEFN |
| C67 | proved | `multiply_rotations_composes` | `RotationGraph_Props` | EFN |
|  |  | `two_view_pose` | `RotationGraph_Props` | EFN |
|  |  | `swap_cameras_involution` | `RotationGraph_Props` | EFN |
|  |  | `swap_cameras_inverts` | `RotationGraph_Props` | EFN |
|  |  | `swap_cameras_zero_focal` | `RotationGraph_Props` | EFN |
| C68 | proved | `adjust_changes_only` | `BundleAdjust_Props` | CF |
|  |  | `adjust_view_changes_only` | `BundleAdjust_Props` | CF |
|  |  | `adjust_track_changes_only` | `BundleAdjust_Props` | CF |
|  |  | `adjust_reaches` | `BundleAdjust_Props` | CEF |
|  |  | `reachable_grouped` | `BundleAdjust_Props` | - |
| C69 | proved | `adjust_cost` | `BundleAdjust_Props` | CF |
|  |  | `adjust_all` | `BundleAdjust_Props` | CF |
| C70 | partial | `adjust_returns_partial` | `BundleAdjust_Props` | CF |
|  |  | `adjust_may_abort_refuted` | `BundleAdjust_Props` | CEF |
| C71 | proved | `kept_parameters_exact` | `BundleAdjust_Props` | - |
| C72 | proved | `alignment_optimal` | `Alignment_Props` | CEFN |
|  |  | `alignment_unweighted_optimal` | `Alignment_Props` | CEFN |
|  |  | `alignment_recovers` | `Alignment_Props` | CEFN |
|  |  | `svd_contract_met` | `Alignment_Props` | EFN |
| C73 | partial | `alignment_defined_partial` | `Alignment_Props` | CEFN |
|  |  | `alignment_undefined_refuted` | `Alignment_Props` | CEFN |
| C74 | partial | `align_reconstructions_optimal_partial` | `Alignment_Props` | CEFN |
|  |  | `align_reconstructions_exact_partial` | `Alignment_Props` | CEFN |
|  |  | `align_reconstructions_refuted` | `Alignment_Props` | CEFN |
| C75 | proved | `sampson_is_first_order_distance` | `Epipolar_Props` | EF |
|  |  | `sampson_invariant` | `Epipolar_Props` | EF |
| C76 | partial | `normalize_points_partial` | `Epipolar_Props` | CEFN |
|  |  | `normalize_average_refuted` | `Epipolar_Props` | CEFN |
|  |  | `normalize_degenerate` | `Epipolar_Props` | CEFN |
| C77 | partial | `project_to_rotation_partial` | `Epipolar_Props` | EF |
|  |  | `project_to_rotation_refuted` | `Epipolar_Props` | EF |
| C78 | proved | `decompose_essential_sound` | `Epipolar_Props` | EFN |
|  |  | `decompose_essential_recovers` | `Epipolar_Props` | EFN |
|  |  | `decompose_essential_candidates` | `Epipolar_Props` | EFN |
| C79 | proved | `best_pose_optimal` | `Epipolar_Props` | EFN |
|  |  | `best_pose_recovers` | `Epipolar_Props` | CEFN |
| C80 | proved | `essential_from_cameras` | `Epipolar_Props` | EFN |
| C81 | proved | `fundamental_from_cameras` | `Epipolar_Props` | EF |
|  |  | `projections_have_fundamental` | `Epipolar_Props` | EF |
|  |  | `compose_fundamental_inverse` | `Epipolar_Props` | EF |
| C82 | partial | `focal_lengths_right_partial` | `Epipolar_Props` | CEFN |
|  |  | `focal_lengths_found_partial` | `Epipolar_Props` | CEFN |
|  |  | `focal_lengths_sound` | `Epipolar_Props` | CEFN |
|  |  | `focal_lengths_refuted` | `Epipolar_Props` | CEFN |
|  |  | `focal_lengths_undefined_refuted` | `Epipolar_Props` | CEFN |
| C83 | proved | `in_front_of_cameras` | `Epipolar_Props` | EF |
|  |  | `in_front_of_true_cameras` | `Epipolar_Props` | EF |
| C84 | proved | `dlt_minimizes` | `Triangulation_Props` | EF |
|  |  | `dlt_recovers_point` | `Triangulation_Props` | EFN |
| C85 | proved | `nview_minimizes` | `Triangulation_Props` | EFN |
|  |  | `nview_recovers_point` | `Triangulation_Props` | EFN |
|  |  | `nview_aborts` | `Triangulation_Props` | EFN |
| C86 | proved | `midpoint_fails_iff_parallel` | `Triangulation_Props` | CEF |
|  |  | `midpoint_nearest` | `Triangulation_Props` | CEF |
|  |  | `midpoint_recovers_point` | `Triangulation_Props` | CEF |
|  |  | `midpoint_aborts` | `Triangulation_Props` | EF |
| C87 | partial | `triangulate_recovers_point_partial` | `Triangulation_Props` | EFN |
|  |  | `corrected_points_constraint_refuted` | `Triangulation_Props` | EFN |
| C88 | partial | `nview_svd_recovers_point_refuted` | `Triangulation_Props` | EFN |
|  |  | `nview_svd_recovers_point_partial` | `Triangulation_Props` | EFN |
|  |  | `nview_svd_minimizes_partial` | `Triangulation_Props` | EF |
| C89 | proved | `sufficient_angle_iff` | `Triangulation_Props` | CEFN |
| C90 | proved | `translation_filter_keeps_consistent` | `TranslationFilter_Props` | EFN |
| C91 | proved | `translation_filter_exact` | `TranslationFilter_Props` | CEFN |
|  |  | `translation_filter_short` | `TranslationFilter_Props` | EFN |
| C92 | proved | `translation_filter_breaks_cycle` | `TranslationFilter_Props` | CEFN |
| C93 | proved | `localize_success` | `Localize_Props` | CEF |
|  |  | `localize_threshold` | `Localize_Props` | EF |
| C94 | proved | `localize_changes_only` | `Localize_Props` | CEF |
| C95 | partial | `localize_failure_refuted` | `Localize_Props` | CEF |
|  |  | `localize_failure_partial` | `Localize_Props` | EF |
| C96 | partial | `localize_shared_intrinsics_refuted` | `Localize_Props` | EF |
|  |  | `localize_known_intrinsics_partial` | `Localize_Props` | - |
| C97 | partial | `localize_fallback_refuted` | `Localize_Props` | EF |
|  |  | `localize_known_orientation_partial` | `Localize_Props` | EF |
| C98 | proved | `prior_roundtrip` | `Priors_Props` | EF |
| C99 | proved | `prior_applied` | `Priors_Props` | CEF |
| C100 | proved | `priors_set_groups` | `Priors_Props` | EF |
| C101 | partial | `priors_keep_estimated_refuted` | `Priors_Props` | EF |
|  |  | `priors_keep_estimated_partial` | `Priors_Props` | EF |
| C102 | proved | `camera_copies` | `Priors_Props` | EF |
| C103 | proved | `incremental_frame` | `Incremental_Props` | CEF |
| C104 | partial | `incremental_no_undefined_partial` | `Incremental_Props` | CEF |
|  |  | `missing_views_undefined_refuted` | `IncrementalCases_Props` | EF |
|  |  | `resume_undefined_refuted` | `IncrementalCases_Props` | F |
| C105 | partial | `initial_pair` | `Incremental_Props` | CEF |
|  |  | `initial_cameras_partial` | `Incremental_Props` | EF |
|  |  | `initial_cameras_refuted` | `Incremental_Props` | CEF |
| C106 | proved | `initial_pair_order` | `Incremental_Props` | - |
|  |  | `next_views_order` | `Incremental_Props` | - |
| C107 | partial | `underconstrained_partial` | `Incremental_Props` | C |
|  |  | `underconstrained_views_refuted` | `IncrementalCases_Props` | F |
|  |  | `underconstrained_lost_refuted` | `IncrementalCases_Props` | F |
| C108 | partial | `round_bookkeeping` | `Incremental_Props` | CEF |
|  |  | `rounds_bounded_partial` | `Incremental_Props` | CEF |
|  |  | `growth_test_partial` | `Incremental_Props` | - |
|  |  | `growth_test_refuted` | `Incremental_Props` | - |
|  |  | `optimized_count_refuted` | `IncrementalCases_Props` | F |
| C109 | proved | `two_view_estimate` | `GeometricVerification_Props` | CEF |
|  |  | `two_view_estimate_total` | `GeometricVerification_Props` | EF |
| C110 | proved | `verification_result` | `GeometricVerification_Props` | CEFN |
|  |  | `verification_subset` | `GeometricVerification_Props` | CEFN |
| C111 | proved | `verification_no_undefined` | `GeometricVerification_Props` | CEFN |
| C112 | partial | `verification_limit_partial` | `GeometricVerification_Props` | CEFN |
|  |  | `verification_limit_refuted` | `GeometricVerificationCases_Props` | CEFN |
|  |  | `negative_limit` | `GeometricVerification_Props` | EFN |
| C113 | partial | `visibility_score_partial` | `GeometricVerification_Props` | CEF |
|  |  | `visibility_score_refuted` | `GeometricVerificationCases_Props` | CEF |
| C114 | partial | `homography_count_partial` | `GeometricVerification_Props` | CEFN |
|  |  | `homography_count_refuted` | `GeometricVerificationCases_Props` | CEFN |
| C115 | partial | `known_focal_partial` | `GeometricVerification_Props` | CEFN |
|  |  | `known_focal_refuted` | `GeometricVerificationCases_Props` | CEFN |
| C116 | proved | `guided_result` | `GuidedMatcher_Props` | - |
| C117 | partial | `guided_features_partial` | `GuidedMatcher_Props` | - |
|  |  | `guided_features_refuted` | `GuidedMatcherCases_Props` | - |
| C118 | partial | `guided_defined_partial` | `GuidedMatcherCases_Props` | - |
|  |  | `guided_defined_refuted` | `GuidedMatcherCases_Props` | - |
| C119 | partial | `guided_search_partial` | `GuidedMatcherCases_Props` | - |
|  |  | `guided_search_refuted` | `GuidedMatcherCases_Props` | - |
| C120 | partial | `line_segments_partial` | `GuidedMatcherCases_Props` | - |
|  |  | `line_segments_refuted` | `GuidedMatcherCases_Props` | - |
|  |  | `segment_number` | `GuidedMatcherCases_Props` | - |
|  |  | `segment_order` | `GuidedMatcherCases_Props` | - |
| C121 | proved | `build_parts` | `ReconstructionBuilder_Props` | - |
|  |  | `build_rounds` | `ReconstructionBuilder_Props` | - |
| C122 | partial | `build_result_partial` | `ReconstructionBuilder_Props` | - |
|  |  | `build_exhausts_refuted` | `ReconstructionBuilder_Props` | - |
|  |  | `build_result_refuted` | `ReconstructionBuilder_Props` | - |
|  |  | `build_returns_refuted` | `ReconstructionBuilder_Props` | - |
| C123 | proved | `build_only_calibrated` | `ReconstructionBuilder_Props` | - |
| C124 | proved | `build_inputs` | `ReconstructionBuilder_Props` | - |
|  |  | `given_inputs` | `ReconstructionBuilder_Props` | - |
| C125 | partial | `returned_intrinsics_stable_partial` | `ReconstructionBuilder_Props` | - |
|  |  | `returned_intrinsics_stable_refuted` | `ReconstructionBuilder_Props` | - |
| C126 | partial | `given_builder_calls_partial` | `ReconstructionBuilder_Props` | - |
|  |  | `builder_calls_refuted` | `ReconstructionBuilder_Props` | - |
| C127 | proved | `added_images` | `ReconstructionBuilder_Props` | - |
| C128 | proved | `global_poses_exact` | `GlobalReconstruction_Props` | CEFN |
| C129 | proved | `global_remaining_edges` | `GlobalReconstruction_Props` | CEFN |
| C130 | proved | `global_frame` | `GlobalReconstruction_Props` | CEFN |
|  |  | `global_stored_poses` | `GlobalPoses_Props` | EFN |
|  |  | `adjust_positions_keeps` | `GlobalPoses_Props` | CF |
| C131 | proved | `global_tracks` | `GlobalReconstruction_Props` | CEFN |
| C132 | proved | `global_too_few_matches` | `GlobalReconstruction_Props` | CEFN |
|  |  | `global_failed_poses` | `GlobalReconstruction_Props` | CEFN |
| C133 | partial | `global_no_undefined_partial` | `GlobalReconstruction_Props` | CEFN |
|  |  | `position_estimators_contract` | `GlobalReconstructionCases_Props` | - |
|  |  | `nonlinear_positions_total` | `GlobalReconstructionCases_Props` | - |
|  |  | `lud_positions_partial` | `GlobalReconstructionCases_Props` | - |
|  |  | `lud_positions_empty_refuted` | `GlobalReconstructionCases_Props` | - |
|  |  | `global_lud_emptied_refuted` | `GlobalReconstructionCases_Props` | CEFN |
| C134 | proved | `extraction_result` | `FeatureExtraction_Props` | EF |
|  |  | `extraction_no_images` | `FeatureExtraction_Props` | EF |
|  |  | `extraction_same_names_refuted` | `FeatureExtraction_Props` | EF |
| C135 | proved | `extract_features_result` | `FeatureExtraction_Props` | - |
|  |  | `extract_features_else` | `FeatureExtraction_Props` | - |
|  |  | `extract_features_negative_refuted` | `FeatureExtraction_Props` | - |
| C136 | partial | `given_prior_partial` | `FeatureExtraction_Props` | EF |
|  |  | `given_prior_refuted` | `FeatureExtraction_Props` | EF |
| C137 | proved | `select_pairs_result` | `FeatureExtraction_Props` | - |
|  |  | `select_pairs_deterministic` | `FeatureExtraction_Props` | - |
|  |  | `select_pairs_negative` | `FeatureExtraction_Props` | - |
|  |  | `query_expansion_refuted` | `FeatureExtraction_Props` | - |
| C138 | partial | `extract_and_match_partial` | `FeatureExtraction_Props` | EF |
|  |  | `match_without_global_refuted` | `FeatureExtraction_Props` | EF |
|  |  | `requested_pairs_refuted` | `FeatureExtraction_Props` | EF |
|  |  | `only_calibrated_refuted` | `FeatureExtraction_Props` | EF |
|  |  | `no_neighbors_refuted` | `FeatureExtraction_Props` | EF |
| C139 | partial | `extraction_race_refuted` | `FeatureExtraction_Props` | EF |
|  |  | `extraction_race_partial` | `FeatureExtraction_Props` | EF |
| C140 | proved | `calibration_round_trip` | `Calibration_Props` | - |
|  |  | `json_parser_exists` | `Calibration_Props` | - |
| C141 | partial | `calibration_exact_partial` | `Calibration_Props` | - |
|  |  | `calibration_exact_refuted` | `Calibration_Props` | - |
|  |  | `calibration_name_refuted` | `Calibration_Props` | - |
| C142 | proved | `calibration_file_says` | `Calibration_Props` | - |
| C143 | partial | `calibration_bad_file_partial` | `Calibration_Props` | - |
|  |  | `calibration_bad_file_refuted` | `Calibration_Props` | - |
| C144 | proved | `colorize_mean` | `Colorize_Props` | - |
| C145 | partial | `colorize_checks_partial` | `Colorize_Props` | - |
|  |  | `colorize_gray_refuted` | `Colorize_Props` | - |
|  |  | `colorize_empty_track_refuted` | `Colorize_Props` | - |
|  |  | `colorize_directory_refuted` | `Colorize_Props` | - |
| C146 | partial | `rocksdb_usable_partial` | `RocksDb_Props` | - |
|  |  | `rocksdb_interrupted_constructor_refuted` | `RocksDb_Props` | - |
|  |  | `rocksdb_interrupted_removal_refuted` | `RocksDb_Props` | - |
|  |  | `rocksdb_creation_failure_refuted` | `RocksDb_Props` | - |
| C147 | proved | `rocksdb_last_write` | `RocksDb_Props` | - |
| C148 | partial | `rocksdb_matches_partial` | `RocksDb_Props` | - |
|  |  | `rocksdb_slash_refuted` | `RocksDb_Props` | - |
| C149 | partial | `rocksdb_counts_partial` | `RocksDb_Props` | - |
|  |  | `rocksdb_counts_refuted` | `RocksDb_Props` | - |
| C150 | proved | `hybrid_orientations` | `Hybrid_Props` | - |
| C151 | proved | `hybrid_frame` | `Hybrid_Props` | CEF |
| C152 | partial | `hybrid_no_undefined_partial` | `Hybrid_Props` | CEF |
|  |  | `hybrid_missing_view_refuted` | `Hybrid_Props` | EF |
| C153 | partial | `hybrid_estimated_views_partial` | `Hybrid_Props` | EF |
|  |  | `hybrid_estimated_views_refuted` | `Hybrid_Props` | CEF |
| C154 | proved | `hybrid_initial_pair` | `Hybrid_Props` | CEF |
|  |  | `hybrid_pair_order` | `Hybrid_Props` | F |
| C155 | proved | `hybrid_keeps_orientations` | `HybridOrient_Props` | CEF |
|  |  | `hybrid_exact_orientations` | `HybridOrient_Props` | CEF |
|  |  | `hybrid_initial_orientations` | `HybridOrient_Props` | CEF |
| C156 | proved | `ply_contents` | `PlyFile_Props` | - |
| C157 | partial | `ply_result_partial` | `PlyFile_Props` | - |
|  |  | `ply_result_refuted` | `PlyFile_Props` | - |
| C158 | proved | `nvm_contents` | `NvmFile_Props` | - |
|  |  | `nvm_other_model` | `NvmFile_Props` | - |
| C159 | proved | `colmap_contents` | `ColmapFile_Props` | - |
|  |  | `colmap_other_model` | `ColmapFile_Props` | - |
|  |  | `colmap_unopened` | `ColmapFile_Props` | - |
| C160 | partial | `colmap_distortion_partial` | `ColmapFile_Props` | - |
|  |  | `colmap_distortion_refuted` | `ColmapFile_Props` | - |
| C161 | proved | `bundler_contents` | `BundlerFile_Props` | - |
|  |  | `bundler_other_model` | `BundlerFile_Props` | - |
| C162 | proved | `sizes_missing` | `ImageSizes_Props` | - |
|  |  | `sizes_set` | `ImageSizes_Props` | - |
| C163 | partial | `sizes_center_partial` | `ImageSizes_Props` | - |
|  |  | `sizes_center_refuted` | `ImageSizes_Props` | - |
| C164 | partial | `import_content_partial` | `NvmImport_Props` | - |
|  |  | `import_content_refuted` | `NvmImport_Props` | - |

## 7. Wrong programs

`seeded/LOG.jsonl` has one line per edited model: the definition, the edit, the claim it breaks, the lemmas that no
longer build.  Survivors led to tighter theorems (field `tightened`).
