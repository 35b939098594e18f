{"id": "C01", "title": "Connected components equal graph reachability", "statement": "After any sequence of AddEdge calls with the default (unlimited) maximum size, NodesInSameConnectedComponent(a,b) is true exactly when a and b have both been mentioned in an edge and are joined by a path of added edges, and Extract returns exactly the reachability classes, every mentioned node in exactly one of them.", "quantifier": "all sequences of AddEdge / NodesInSameConnectedComponent / Extract calls, all node pairs", "why_tests_cant": "The union-find structure depends on the whole history of unions and path compressions; tests try a handful of graphs.", "anchors": ["src/theia/math/graph/connected_components.h: ConnectedComponents::AddEdge, Extract, NodesInSameConnectedComponent, FindRoot"]}
{"id": "C02", "title": "Capped connected components never exceed the cap and stay a connected partition", "statement": "With maximum component size k, at every moment the extracted components are pairwise disjoint, cover exactly the nodes ever mentioned, are each connected through edges that were actually added, and each contain at most k nodes; an edge merges two distinct components exactly when their sizes sum to at most k.", "quantifier": "all k > 0, all sequences of edges and interleaved queries", "why_tests_cant": "Size bookkeeping lives in copied root records and can go stale only after particular histories.", "anchors": ["src/theia/math/graph/connected_components.h: ConnectedComponents::AddEdge, FindRoot, Extract"]}
{"id": "C03", "title": "Queries on connected components have no observable side effects", "statement": "Calling NodesInSameConnectedComponent or Extract (which compress paths and therefore write to the structure) never changes the answer of any later query, edge insertion or extraction.", "quantifier": "all histories, any placement of queries in them", "why_tests_cant": "Interleavings of queries and updates are unbounded.", "anchors": ["src/theia/math/graph/connected_components.h: FindRoot, NodesInSameConnectedComponent, Extract"]}
{"id": "C04", "title": "ViewGraph is a faithful undirected simple graph", "statement": "After any sequence of AddEdge, RemoveEdge and RemoveView calls the graph answers HasView, HasEdge, GetEdge, GetNeighborIdsForView, NumViews and NumEdges like the mathematical undirected simple graph with labelled edges built by the same calls: edges are symmetric, self edges are never stored, re-adding overwrites the label, removing a view removes exactly its incident edges.", "quantifier": "all operation sequences and all view id pairs", "why_tests_cant": "Two redundant tables (neighbor sets and an edge table keyed by ordered pairs) must agree after every history.", "anchors": ["src/theia/sfm/view_graph/view_graph.cc: ViewGraph::AddEdge, RemoveEdge, RemoveView, HasEdge, GetEdge, GetNeighborIdsForView"]}
{"id": "C05", "title": "ExtractSubgraph returns the induced subgraph", "statement": "ExtractSubgraph into an empty graph yields exactly the edges (with their labels) whose two endpoints are in the requested set, never aborts, and leaves the source graph unchanged; views of the set without a neighbour inside the set do not appear in it.", "quantifier": "all reachable view graphs, all subsets of view ids", "why_tests_cant": "Must hold for every graph and every subset, including ids that are not in the graph.", "anchors": ["src/theia/sfm/view_graph/view_graph.cc: ViewGraph::ExtractSubgraph"]}
{"id": "C06", "title": "GetLargestConnectedComponentIds returns a largest component", "statement": "On a view graph with at least one edge the returned set is a connected component of the graph and no component has more views, whatever the hash-table iteration order; on a graph without edges the call aborts.", "quantifier": "all reachable view graphs, all iteration orders of the hash tables", "why_tests_cant": "Iteration order is implementation defined; the maximum must be right for every order.", "anchors": ["src/theia/sfm/view_graph/view_graph.cc: ViewGraph::GetLargestConnectedComponentIds"]}
{"id": "C07", "title": "RemoveDisconnectedViewPairs keeps exactly one largest component", "statement": "After the call the edges of the view graph are exactly the former edges inside one largest connected component, the returned set contains exactly the views that were removed, and all surviving views that have an edge are mutually connected.", "quantifier": "all reachable view graphs, all iteration orders", "why_tests_cant": "Property over all graphs; needs the interplay of union-find, largest component choice and view removal.", "anchors": ["src/theia/sfm/view_graph/remove_disconnected_view_pairs.cc: RemoveDisconnectedViewPairs"]}
{"id": "C08", "title": "View/track incidence of a Reconstruction is always symmetric", "statement": "In every reconstruction reached by public calls, a track lists a view exactly when that view exists and holds a feature for that track, and the track exists; consequently none of the CHECKs of the accessors used internally can fire.", "quantifier": "all sequences of AddView, RemoveView, AddTrack, AddObservation, RemoveTrack", "why_tests_cant": "Two-way references must agree after every history of additions and removals.", "anchors": ["src/theia/sfm/reconstruction.cc: Reconstruction::AddView, RemoveView, AddTrack, AddObservation, RemoveTrack"]}
{"id": "C09", "title": "View names and ids are in bijection and ids are not reused", "statement": "ViewIdFromName(name) returns the id of the unique existing view of that name (invalid when none); ids handed out by AddView and AddTrack have never been handed out before as long as fewer than 2^32-1 were, also after removals.", "quantifier": "all operation sequences", "why_tests_cant": "History property: depends on removals and re-additions in any order.", "anchors": ["src/theia/sfm/reconstruction.cc: Reconstruction::AddView, ViewIdFromName, RemoveView, AddTrack"]}
{"id": "C10", "title": "RemoveView and RemoveTrack have exactly their documented effect", "statement": "RemoveView of an existing view returns true, deletes the view, its name, its group membership and its observations, deletes exactly the tracks that are left with no view, and changes nothing else; RemoveTrack deletes exactly the track and its features. On a missing id they return false and change nothing.", "quantifier": "all reachable reconstructions, all ids", "why_tests_cant": "Frame conditions over every state; a removal loop that mutates the containers it walks over.", "anchors": ["src/theia/sfm/reconstruction.cc: Reconstruction::RemoveView, RemoveTrack"]}
{"id": "C11", "title": "AddTrack(observations) is all-or-nothing", "statement": "AddTrack with a list of observations succeeds exactly when the list has at least two entries in pairwise distinct views; it then creates one new track seen by exactly those views with those features; otherwise it returns the invalid id and changes nothing.", "quantifier": "all reachable reconstructions and observation lists over existing views", "why_tests_cant": "Every list shape including duplicates at any position.", "anchors": ["src/theia/sfm/reconstruction.cc: Reconstruction::AddTrack(const std::vector<std::pair<ViewId, Feature>>&)"]}
{"id": "C12", "title": "Camera intrinsics groups partition the views; AddView without a group creates a private group", "statement": "Every view belongs to exactly one non-empty group, group membership in both directions agrees, and a view added without naming a group shares its camera intrinsics with no other view.", "quantifier": "all operation sequences", "why_tests_cant": "The automatic group counter and user chosen group ids interact over the history.", "anchors": ["src/theia/sfm/reconstruction.cc: Reconstruction::AddView, RemoveView, CameraIntrinsicsGroupIdFromViewId, GetViewsInCameraIntrinsicGroup"]}
{"id": "C13", "title": "GetSubReconstruction is the induced reconstruction", "statement": "The sub-reconstruction on a set of views is a consistent reconstruction containing exactly the requested views that exist, with their names, groups and features, and exactly the tracks seen by one of them restricted to them; the original is unchanged.", "quantifier": "all reachable reconstructions, all subsets", "why_tests_cant": "Cross-references must be restricted consistently for every subset.", "anchors": ["src/theia/sfm/reconstruction.cc: Reconstruction::GetSubReconstruction"]}
{"id": "C14", "title": "Saving and loading a Reconstruction preserves its behaviour", "statement": "Writing a reconstruction saves exactly its estimated part (the estimated views, the estimated tracks seen by at least two of them, and the observations between them), and the reconstruction read back behaves identically to that part under every further sequence of calls.", "quantifier": "all reachable reconstructions, all continuations", "why_tests_cant": "Equality of behaviour over all continuations; a field that is not saved only shows after further calls.", "anchors": ["src/theia/sfm/reconstruction.h: Reconstruction::serialize", "src/theia/io/reconstruction_reader.cc", "src/theia/io/reconstruction_writer.cc"]}
{"id": "C15", "title": "TrackBuilder emits valid, disjoint, correspondence-connected tracks", "statement": "For every set of two-view correspondences and every hash iteration order, BuildTracks never aborts when the minimum track length is at least 2; every emitted track observes each view at most once, no feature occurs in two tracks, all features of a track are linked by correspondences, and no track exceeds the maximum length.", "quantifier": "all correspondence sequences, all length bounds with min >= 2, all iteration orders", "why_tests_cant": "Combines capped union-find with duplicate-view filtering over arbitrary inputs.", "anchors": ["src/theia/sfm/track_builder.cc: TrackBuilder::AddFeatureCorrespondence, BuildTracks"]}
{"id": "C16", "title": "TrackBuilder honours the minimum track length", "statement": "Every track emitted by BuildTracks has at least min_track_length observations.", "quantifier": "all correspondence sequences, all length bounds", "why_tests_cant": "Duplicate-view filtering happens after the length test, so only adversarial inputs show it.", "anchors": ["src/theia/sfm/track_builder.cc: TrackBuilder::BuildTracks"]}
{"id": "C17", "title": "LRUCache returns the right value and evicts the least recently used entry", "statement": "For any sequence of Fetch and Insert calls the cache holds at most max entries, holds exactly the most recently used keys, Fetch returns the inserted value or the value produced by the fetch function for that key, and hits + misses equals the number of Fetch calls.", "quantifier": "all capacities > 0, all call sequences, all (deterministic) fetch functions", "why_tests_cant": "Recency order depends on the entire history.", "anchors": ["src/theia/util/lru_cache.h: LRUCache::Fetch, Insert, EvictOldestElement"]}
{"id": "C18", "title": "LRUCache is linearizable under concurrent use", "statement": "Every concurrent execution of Fetch/Insert calls from any number of threads returns the values of some sequential order of the same calls that respects real-time order.", "quantifier": "all thread counts and schedules", "why_tests_cant": "All interleavings cannot be enumerated by tests.", "anchors": ["src/theia/util/lru_cache.h: LRUCache::Fetch, Insert, InsertIntoCache"]}
{"id": "C19", "title": "mutable_priority_queue always pops an extremal element", "statement": "After any sequence of insert, update, erase and pop calls, contains/find reflect exactly the live keys with their latest values, top returns a live key with extremal value, and size counts live keys.", "quantifier": "all operation sequences", "why_tests_cant": "Heap/index agreement after every history, in particular re-insertion of a live key.", "anchors": ["src/theia/util/mutable_priority_queue.h: mutable_priority_queue::insert, pop, erase, update, top"]}
{"id": "C20", "title": "ThreadPool runs every accepted task exactly once, and its destructor waits for all of them", "statement": "For every number of workers and every schedule, each task added before destruction begins is executed exactly once, tasks are started in FIFO order, the destructor returns only after all of them finished, and no reachable state is stuck.", "quantifier": "all schedules, all worker counts >= 1, all task sequences", "why_tests_cant": "Scheduling nondeterminism.", "anchors": ["src/theia/util/threadpool.cc: ThreadPool::ThreadPool, ~ThreadPool, Add", "src/theia/util/threadpool.h: ThreadPool::Add"]}
{"id": "C21", "title": "FeatureMatcher matches every requested pair exactly once", "statement": "For any number of requested pairs (at least one) and any positive thread count, the work is split into index ranges that cover every pair exactly once, whatever order the ranges are executed in; with no pairs (or fewer than two images) the call aborts.", "quantifier": "all numbers of pairs and threads, all execution orders of the chunks", "why_tests_cant": "Arithmetic over all n and thread counts.", "anchors": ["src/theia/matching/feature_matcher.cc: FeatureMatcher::MatchImages, MatchAndVerifyImagePairs, SelectAllPairs"]}
{"id": "C22", "title": "MinimumSpanningTree returns a spanning tree of minimum weight", "statement": "For every graph without self loops, Extract returns true exactly when the graph is non-empty and connected, and then the output is a spanning tree whose total weight is minimal among all spanning trees.", "quantifier": "all edge lists and weights", "why_tests_cant": "Optimality among exponentially many trees.", "anchors": ["src/theia/math/graph/minimum_spanning_tree.h: MinimumSpanningTree::AddEdge, Extract"]}
{"id": "C23", "title": "TripletExtractor finds every triangle exactly once", "statement": "For every set of edges given as pairs (a,b) with a<b, every 3-cycle of the graph appears exactly once, sorted, in exactly one output group; two triplets are in the same group exactly when they are linked by a chain of triplets sharing an edge; groups are ordered by decreasing size.", "quantifier": "all edge sets, all iteration orders", "why_tests_cant": "The edge-deletion trick must not lose or duplicate triangles on any graph.", "anchors": ["src/theia/math/graph/triplet_extractor.h: TripletExtractor::ExtractTriplets, FindTriplets, StoreTriplet"]}
{"id": "C24", "title": "IntersectMatches keeps exactly the mutual matches", "statement": "IntersectMatches leaves exactly those forward matches (i,j) for which the backward matches contain (j,i), in their original order, provided no feature is the source of two backward matches.", "quantifier": "all forward and backward match lists", "why_tests_cant": "All list contents.", "anchors": ["src/theia/matching/feature_matcher_utils.cc: IntersectMatches"]}
{"id": "C25", "title": "Brute-force matching returns true nearest neighbours that pass the requested tests", "statement": "Each returned match links a descriptor to a descriptor of minimal distance in the other image, satisfies the ratio test when Lowe's ratio is on, is mutual when symmetric matching is on, and every descriptor pair satisfying these conditions is returned; the call is well defined for every pair of descriptor sets.", "quantifier": "all descriptor sets and options", "why_tests_cant": "All inputs including images with zero or one descriptor.", "anchors": ["src/theia/matching/brute_force_feature_matcher.cc: BruteForceFeatureMatcher::MatchImagePair"]}
{"id": "C26", "title": "RANSAC returns the best hypothesis it evaluated and the exact inlier set", "statement": "For every estimator, sampler and residual function the model returned has a cost no larger than any model hypothesised during the run, the reported inliers are exactly the data within the threshold of that model, and the number of iterations lies between the effective minimum and the maximum.", "quantifier": "all estimators, samplers, data and parameter values", "why_tests_cant": "Randomised loop with early termination; all executions.", "anchors": ["src/theia/solvers/sample_consensus_estimator.h: SampleConsensusEstimator::Estimate, ComputeMaxIterations"]}
{"id": "C27", "title": "RANSAC success implies that a model was found", "statement": "When Estimate returns true the output model is one that the estimator actually produced.", "quantifier": "all estimators and data", "why_tests_cant": "Failure of every hypothesis happens only for particular data.", "anchors": ["src/theia/solvers/sample_consensus_estimator.h: SampleConsensusEstimator::Estimate"]}
{"id": "C28", "title": "RandomSampler yields distinct in-range indices", "statement": "Every sample consists of exactly m pairwise distinct indices below the number of data points, for every history of previous samples and every random stream.", "quantifier": "all random streams, all histories, all n >= m", "why_tests_cant": "State (the permuted index vector) is carried across calls.", "anchors": ["src/theia/solvers/random_sampler.cc: RandomSampler::Initialize, Sample"]}
{"id": "C29", "title": "ExhaustiveSampler enumerates every pair exactly once per round", "statement": "After Initialize(n), any n(n-1)/2 consecutive samples contain every unordered pair of distinct indices below n exactly once; samples are always in range.", "quantifier": "all n >= 2, any starting point", "why_tests_cant": "All n and offsets; re-initialisation histories.", "anchors": ["src/theia/solvers/exhaustive_sampler.cc: ExhaustiveSampler::Initialize, Sample"]}
{"id": "C30", "title": "ProsacSampler yields distinct in-range indices", "statement": "Every sample consists of m pairwise distinct indices below the number of data points.", "quantifier": "all random streams, all numbers of data points, all iteration counts", "why_tests_cant": "The failing configuration needs the growth schedule to reach the full set.", "anchors": ["src/theia/solvers/prosac_sampler.cc: ProsacSampler::Sample"]}
{"id": "C31", "title": "Least-median cost is the median of squared residuals", "statement": "ComputeCost returns the median squared residual (average of the two middle values for even sizes) and is well defined for every non-empty residual vector.", "quantifier": "all residual vectors", "why_tests_cant": "Parity and boundary cases for all sizes.", "anchors": ["src/theia/solvers/lmed_quality_measurement.h: LmedQualityMeasurement::ComputeCost"]}
{"id": "C32", "title": "Inlier-support and MLE costs rank models as documented", "statement": "The inlier-support cost of a model is the number of data outside the threshold, the MLE cost is the sum of residuals truncated at the threshold, both report exactly the inliers, are invariant (up to inlier order) under permutation of the data, and lowering a residual never increases either cost.", "quantifier": "all residual vectors and thresholds", "why_tests_cant": "Universally quantified over residual vectors.", "anchors": ["src/theia/solvers/inlier_support.h", "src/theia/solvers/mle_quality_measurement.h"]}
{"id": "C33", "title": "Polynomial arithmetic is correct", "statement": "MultiplyPolynomials, AddPolynomials, DifferentiatePolynomial and RemoveLeadingZeros compute the product, sum, derivative and an equal polynomial as functions, for all coefficient vectors.", "quantifier": "all coefficient vectors and evaluation points", "why_tests_cant": "Identities of polynomials of every degree.", "anchors": ["src/theia/math/polynomial.cc: MultiplyPolynomials, AddPolynomials, DifferentiatePolynomial, RemoveLeadingZeros", "src/theia/math/polynomial.h: EvaluatePolynomial"]}
{"id": "C34", "title": "DividePolynomial satisfies the division identity", "statement": "For every polynomial and every divisor with non-zero leading coefficient, DividePolynomial terminates with polynomial = quotient * divisor + remainder and degree(remainder) < degree(divisor).", "quantifier": "all coefficient vectors", "why_tests_cant": "All degrees; termination.", "anchors": ["src/theia/math/polynomial.cc: DividePolynomial"]}
{"id": "C35", "title": "Quadratic root finding is sound and complete", "statement": "FindQuadraticPolynomialRoots returns exactly the (complex) roots of the quadratic, with the conjugate pairs in matching slots, for every quadratic with non-zero leading coefficient.", "quantifier": "all real coefficients", "why_tests_cant": "All coefficients including degenerate ones.", "anchors": ["src/theia/math/polynomial.cc: FindQuadraticPolynomialRoots", "src/theia/math/closed_form_polynomial_solver.cc: SolveQuadratic"]}
{"id": "C36", "title": "SolveCubic returns roots of the cubic", "statement": "Every value returned by the closed-form cubic solver is a root of the given cubic.", "quantifier": "all real coefficients", "why_tests_cant": "All coefficients; cube-root branch choices.", "anchors": ["src/theia/math/closed_form_polynomial_solver.cc: SolveCubic, SolveDepressedCubic"]}
{"id": "C37", "title": "Gauss-Jordan elimination preserves the solution set and reduces the matrix", "statement": "GaussJordan performs only invertible row operations, so the solution set of the linear system is unchanged, and for a matrix with invertible left block it produces the identity there.", "quantifier": "all matrices", "why_tests_cant": "All sizes and entries.", "anchors": ["src/theia/math/matrix/gauss_jordan.h: GaussJordan"]}
{"id": "C38", "title": "Histogram counts every value in exactly one correct bin", "statement": "After any sequence of Add calls each bin's count is the number of added values in its half-open interval and the counts sum to the number of calls.", "quantifier": "all boundary lists and value sequences", "why_tests_cant": "All sequences and boundary values.", "anchors": ["src/theia/math/histogram.h: Histogram::Add"]}
{"id": "C39", "title": "VisibilityPyramid score is an order-independent weighted count of occupied cells", "statement": "The score equals the sum over levels of the number of occupied cells times the cells of that level, does not depend on the order of AddPoint calls, never decreases when points are added, and never indexes outside the grid.", "quantifier": "all image sizes, level counts, point sequences", "why_tests_cant": "All sequences of points, including points outside the image.", "anchors": ["src/theia/sfm/visibility_pyramid.cc: VisibilityPyramid::AddPoint, ComputeScore"]}
{"id": "C40", "title": "ReservoirSampler keeps a uniform sample", "statement": "After N additions to a reservoir of K slots, the reservoir holds min(N,K) of the added elements and, over all equally likely random streams, every element is contained in the reservoir with the same probability K/N.", "quantifier": "all N, K and all random streams", "why_tests_cant": "A probability over the whole stream space, for every N.", "anchors": ["src/theia/math/reservoir_sampler.h: ReservoirSampler::AddElementToSampler"]}
{"id": "C41", "title": "Track selection for bundle adjustment covers every view", "statement": "After SelectGoodTracksForBundleAdjustment each estimated view observes at least min(minimum, number of its estimated tracks) selected tracks, every occupied grid cell of every view contributes at least one selected track, only estimated tracks are selected, and the outcome does not depend on earlier calls with other parameters.", "quantifier": "all reconstructions and parameters, all call histories", "why_tests_cant": "Hidden static state and all reconstructions.", "anchors": ["src/theia/sfm/select_good_tracks_for_bundle_adjustment.cc: SelectGoodTracksForBundleAdjustment"]}
{"id": "C42", "title": "Long tracks with small error are preferred", "statement": "Among the tracks of a grid cell the selected one has the longest (truncated) track length and, among those, the smallest mean reprojection error; additional tracks are taken in that ranking.", "quantifier": "all reconstructions", "why_tests_cant": "Comparator direction and key order matter on all inputs.", "anchors": ["src/theia/sfm/select_good_tracks_for_bundle_adjustment.cc: SelectBestTracksFromEachGridCell, SelectTopRankedTracksInView, CompareGridCellElements"]}
{"id": "C43", "title": "Outlier track removal is exact and monotone", "statement": "SetOutlierTracksToUnestimated only ever clears estimated flags, clears exactly the estimated tracks in the given set whose mean squared reprojection error exceeds the squared threshold, which lie behind an estimated camera that observes them, or whose viewing angles are all too small, and returns how many were cleared. A second call clears nothing.", "quantifier": "all reconstructions, track sets and thresholds", "why_tests_cant": "All reconstructions.", "anchors": ["src/theia/sfm/set_outlier_tracks_to_unestimated.cc: SetOutlierTracksToUnestimated"]}
{"id": "C44", "title": "FindCommonTracksInViews returns exactly the tracks seen in all views", "statement": "For two or more existing views the result is the duplicate-free list of tracks observed by every one of them; with fewer than two views the call aborts, and so it does at the first missing view, unless the views before it have no common track: then the result is empty.", "quantifier": "all reconstructions and view lists, all iteration orders", "why_tests_cant": "All inputs.", "anchors": ["src/theia/sfm/find_common_tracks_in_views.cc: FindCommonTracksInViews"]}
{"id": "C45", "title": "In-memory features-and-matches database: last write wins and file round trip", "statement": "Get returns the value of the most recent Put for that key; writing to a file and reading into an empty database reproduces all intrinsics priors and matches.", "quantifier": "all Put/Get histories", "why_tests_cant": "History property; keys re-derived on load.", "anchors": ["src/theia/matching/in_memory_features_and_matches_database.cc: PutFeatures, GetFeatures, PutImagePairMatch, GetImagePairMatch, ReadFromFile, SaveMatchesAndGeometry"]}
{"id": "C46", "title": "SIFT binary key files round trip", "statement": "Keypoints and descriptors written with WriteSiftKeyBinaryFile and read back have identical positions, scales and orientations up to the single-precision format, and descriptors with 128 entries between 0 and 1 quantised to 8 bits; what was read from such a file is written back byte for byte. A file that was cut off is not detected.", "quantifier": "all keypoint and descriptor lists", "why_tests_cant": "All 8-bit values and list lengths.", "anchors": ["src/theia/io/sift_binary_file.cc: ReadSiftKeyBinaryFile, WriteSiftKeyBinaryFile"]}
{"id": "C47", "title": "Similarity transformations of a reconstruction preserve all reprojections", "statement": "TransformReconstruction by any rotation, translation and positive scale leaves the projection of every estimated finite point in every estimated camera whose principal plane does not contain it unchanged, and multiplies its depth by the scale, for every lens model (for fisheye lenses: points further than 1e-4 from the optical axis before and after). Nothing else in the reconstruction changes, and the iteration order does not matter.", "quantifier": "all reconstructions, all similarity transformations", "why_tests_cant": "Real-algebraic identity over all inputs.", "anchors": ["src/theia/sfm/transformation/transform_reconstruction.cc: TransformReconstruction", "src/theia/sfm/camera/camera.cc: Camera::ProjectPoint"]}
{"id": "C48", "title": "Pinhole camera projection and back-projection are inverse", "statement": "For a pinhole camera without radial distortion, the ray PixelToUnitDepthRay of the projection of a point passes through the point, and points along the pixel ray at positive depth project to the pixel.", "quantifier": "all intrinsics with non-zero focal length and aspect ratio, all poses, all points in front of the camera", "why_tests_cant": "Identity over the reals.", "anchors": ["src/theia/sfm/camera/pinhole_camera_model.h", "src/theia/sfm/camera/camera.cc: ProjectPoint, PixelToUnitDepthRay"]}
{"id": "C49", "title": "Without an explicit pair list, MatchImages matches all pairs of the images added", "statement": "If SetImagePairsToMatch has not been called, every call of MatchImages matches every pair of the images added so far.", "quantifier": "all histories of AddImage and MatchImages calls", "why_tests_cant": "Depends on the history of earlier MatchImages calls.", "anchors": ["src/theia/matching/feature_matcher.cc: FeatureMatcher::MatchImages, SelectAllPairs", "src/theia/matching/feature_matcher.h: SetImagePairsToMatch"]}
{"id": "C50", "title": "RandomSampler is uniform over ordered samples", "statement": "From any state of the sampler, each ordered selection of m distinct indices is produced by exactly one sequence of m random draws, so that unbiased draws give unbiased samples.", "quantifier": "all numbers of data points n, all sample sizes m <= n, all histories of previous samples", "why_tests_cant": "Uniformity is a statement about all draws, not about a finite number of runs.", "anchors": ["src/theia/solvers/random_sampler.cc: RandomSampler::Sample"]}
{"id": "C51", "title": "RANSAC stops early only when the failure probability is reached", "statement": "When Estimate with the inlier count as cost stops before max_iterations, the probability that none of the samples drawn was free of outliers, for the inlier ratio of the returned model, is at most failure_probability.", "quantifier": "all estimators, samplers, data and parameters with an assumed inlier ratio not above the actual one", "why_tests_cant": "A probability bound over the reals for all runs.", "anchors": ["src/theia/solvers/sample_consensus_estimator.h: SampleConsensusEstimator::Estimate, ComputeMaxIterations; RansacParameters::failure_probability"]}
{"id": "C52", "title": "Estimate always returns a result for valid parameters", "statement": "With parameters accepted by the constructor and at least as many data as a sample needs, RANSAC, exhaustive RANSAC and LMed return: no abort, no access out of range, no endless loop; the reported confidence is between 0 and 1.", "quantifier": "all estimators, data, random streams and accepted parameters", "why_tests_cant": "All runs of a randomised loop.", "anchors": ["src/theia/solvers/sample_consensus_estimator.h: SampleConsensusEstimator::Estimate", "src/theia/solvers/lmed.h", "src/theia/solvers/exhaustive_ransac.h"]}
{"id": "C53", "title": "The printed histogram is the histogram", "statement": "PrintString prints one line per interval between consecutive boundaries with its count, preceded by the number of values below the first boundary and followed by the number from the last boundary on, each omitted when zero; the printed counts add up to the number of values.", "quantifier": "all sorted boundary lists and value sequences", "why_tests_cant": "All boundary lists, including degenerate ones.", "anchors": ["src/theia/math/histogram.h: Histogram::PrintString"]}
{"id": "C54", "title": "MinimizePolynomial returns a minimum of the polynomial on the interval", "statement": "Given a root finder that returns all real roots of the derivative, MinimizePolynomial returns a point of [x_min, x_max] and the value there, and no point of the interval has a smaller value.", "quantifier": "all coefficient vectors, all intervals", "why_tests_cant": "A claim about all points of an interval.", "anchors": ["src/theia/math/polynomial.cc: MinimizePolynomial"]}
{"id": "C55", "title": "SolveQuartic returns the roots of the quartic", "statement": "For every quartic with non-zero leading coefficient the closed-form solver returns its four complex roots with multiplicities.", "quantifier": "all real coefficients", "why_tests_cant": "All coefficients; choices of branches of square and cube roots; divisions by zero.", "anchors": ["src/theia/math/closed_form_polynomial_solver.cc: SolveQuartic"]}
{"id": "C56", "title": "SolveQuadratic returns the roots; the real variants return all real roots", "statement": "SolveQuadratic returns both complex roots of a quadratic and the root of a linear equation. SolveQuadraticReals and SolveCubicReals with a tolerance return the real parts of exactly those roots whose imaginary part is smaller, so no real root is lost.", "quantifier": "all real coefficients and tolerances", "why_tests_cant": "All coefficients including degenerate ones.", "anchors": ["src/theia/math/closed_form_polynomial_solver.cc: SolveQuadratic, SolveQuadraticReals, SolveCubicReals"]}
{"id": "C57", "title": "FindCommonViewsByName returns exactly the names in both reconstructions", "statement": "The result lists each name that a view of the first and a view of the second reconstruction have, once, whatever the iteration order.", "quantifier": "all pairs of reconstructions built through the interface, all iteration orders", "why_tests_cant": "All reconstructions and orders.", "anchors": ["src/theia/sfm/find_common_views_by_name.cc: FindCommonViewsByName"]}
{"id": "C58", "title": "Underconstrained views and tracks are recognised exactly", "statement": "SetUnderconstrainedTracksToUnestimated clears exactly the estimated tracks with fewer than two estimated views, SetUnderconstrainedViewsToUnestimated exactly the estimated views with fewer than three estimated tracks; both return the number cleared and change nothing else. GetEstimatedViewsFromReconstruction and GetEstimatedTracksFromReconstruction return exactly the estimated ones.", "quantifier": "all reconstructions, all iteration orders", "why_tests_cant": "All reconstructions.", "anchors": ["src/theia/sfm/reconstruction_estimator_utils.cc: SetUnderconstrainedTracksToUnestimated, SetUnderconstrainedViewsToUnestimated", "src/theia/sfm/reconstruction_estimator_utils.cc: GetEstimatedViewsFromReconstruction, GetEstimatedTracksFromReconstruction"]}
{"id": "C59", "title": "Estimated poses are transferred to exactly the views that have both parts", "statement": "SetReconstructionFromEstimatedPoses sets position and orientation of exactly the existing views that have both, marks them estimated and changes nothing else; a position for a view that is estimated already aborts the call.", "quantifier": "all reconstructions, all maps of positions and orientations, all iteration orders", "why_tests_cant": "All maps, including partial overlap.", "anchors": ["src/theia/sfm/reconstruction_estimator_utils.cc: SetReconstructionFromEstimatedPoses"]}
{"id": "C60", "title": "Parallel track estimation is deterministic and exact", "statement": "TrackEstimator::EstimateTracks attempts every given track that is not estimated exactly once, whatever the number of threads, the step size and the schedule; a track becomes estimated exactly if it has two estimated views with a wide enough angle, is triangulated (and adjusted) successfully, lies in front of all its estimated cameras and has a small mean error. The summary contains exactly these tracks. Tracks that were estimated stay so, views do not change, and the result does not depend on the schedule.", "quantifier": "all reconstructions, track sets, options with at least one thread and positive step size, all interleavings", "why_tests_cant": "All interleavings of the workers and all partitions of the tracks.", "anchors": ["src/theia/sfm/estimate_track.cc: TrackEstimator::EstimateTracks, EstimateAllTracks, EstimateTrackSet, EstimateTrack", "src/theia/sfm/estimate_track.h"]}
{"id": "C61", "title": "Undistortion inverts distortion for the closed-form lens models", "statement": "For the division model, undistorting a distorted point gives back the point (to a relative error of DBL_EPSILON) wherever the lens equation has a solution, and distorting an undistorted point gives back the point before the fold of the lens. For the field-of-view model both round trips are exact outside the regions where the code uses a Taylor series.", "quantifier": "all parameters and points in these domains", "why_tests_cant": "Identities over the reals for all parameters.", "anchors": ["src/theia/sfm/camera/division_undistortion_camera_model.h: DistortPoint, UndistortPoint", "src/theia/sfm/camera/fov_camera_model.h: DistortPoint, UndistortPoint"]}
{"id": "C62", "title": "The iterative undistortion of the pinhole model converges to the undistorted point", "statement": "For every pinhole lens and every point at which the distortion is at most ten percent, UndistortPoint of the distorted point is within 1.3e-10 (plus a relative error below 1e-26) of the point.", "quantifier": "all radial distortion parameters and points with |k1| r^2 + |k2| r^4 <= 1/10", "why_tests_cant": "A convergence statement over all inputs and all iterations.", "anchors": ["src/theia/sfm/camera/pinhole_camera_model.h: DistortPoint, UndistortPoint"]}
{"id": "C63", "title": "Projection matrices represent the camera and decompose uniquely", "statement": "The matrix of GetProjectionMatrix maps a point to the pixel of ProjectPoint. DecomposeProjectionMatrix fails exactly on matrices with singular left block, otherwise returns an upper triangular calibration matrix with positive diagonal, a rotation and a position that compose to the matrix up to sign, and recovers them from any non-zero multiple of a composed matrix. InitializeFromProjectionMatrix builds a camera with the given matrix up to scale, and returns false if there is none.", "quantifier": "all 3x4 matrices, all undistorted pinhole cameras and poses", "why_tests_cant": "Identities over all real matrices, relative to the contracts of the linear algebra library.", "anchors": ["src/theia/sfm/camera/projection_matrix_utils.cc: ComposeProjectionMatrix, DecomposeProjectionMatrix, IntrinsicsToCalibrationMatrix, CalibrationMatrixToIntrinsics", "src/theia/math/matrix/rq_decomposition.h: RQDecomposition", "src/theia/sfm/camera/camera.cc: InitializeFromProjectionMatrix, GetProjectionMatrix"]}
{"id": "C64", "title": "Orientations chained along a maximum spanning tree", "statement": "OrientationsFromMaximumSpanningTree on a view graph with an edge returns true and gives an orientation to exactly the views of the largest connected component (entries of other views are left alone). There is a spanning tree of the component with the largest total number of verified matches such that R_j = R_ij R_i on each of its edges. If the relative rotations are those of some orientations, the result equals these up to one common rotation. A view graph without edges aborts the call. The output map must not have entries for views of the component.", "quantifier": "all histories of a view graph with valid ids, all match counts and rotations, all iteration orders and heap implementations", "why_tests_cant": "All graphs, ties and iteration orders; optimality over all spanning trees.", "anchors": ["src/theia/sfm/view_graph/orientations_from_maximum_spanning_tree.cc: OrientationsFromMaximumSpanningTree, ComputeOrientation, AddEdgesToHeap", "src/theia/math/graph/minimum_spanning_tree.h"]}
{"id": "C65", "title": "The orientation filter removes exactly the view pairs that disagree", "statement": "FilterViewPairsFromOrientation keeps exactly the edges for which both views have an orientation and the relative rotation differs from R_j R_i^T by at most the given angle; it changes neither the remaining edges nor the set of views. A negative threshold aborts.", "quantifier": "all histories of a view graph, all orientations, rotations and thresholds, all iteration orders", "why_tests_cant": "All graphs and real values.", "anchors": ["src/theia/sfm/filter_view_pairs_from_orientation.cc: FilterViewPairsFromOrientation, AngularDifferenceIsAcceptable"]}
{"id": "C66", "title": "The cycle filter keeps exactly the view pairs on a consistent triangle", "statement": "FilterViewGraphCyclesByRotation keeps exactly the edges that belong to a triangle of the view graph whose chained rotations turn by less than the threshold, whatever the starting edge or direction; the remaining edges and the set of views do not change.", "quantifier": "all histories of a view graph with less than 2^32 triangles, all rotations and thresholds, all iteration orders", "why_tests_cant": "All graphs and real values.", "anchors": ["src/theia/sfm/filter_view_graph_cycles_by_rotation.cc: FilterViewGraphCyclesByRotation, ComputeLoopRotationError", "src/theia/math/graph/triplet_extractor.h"]}
{"id": "C67", "title": "Relative poses of two cameras compose, invert and relate their frames", "statement": "MultiplyRotations composes rotations. TwoViewInfoFromTwoCameras gives a relative pose that takes every point from the frame of the first camera to that of the second, up to the scale of the baseline when it is normalized to length one. SwapCameras is an involution and gives the relative pose of the cameras in the other order; it aborts on a zero focal length.", "quantifier": "all poses, points and focal lengths", "why_tests_cant": "Identities over all real inputs.", "anchors": ["src/theia/sfm/twoview_info.cc: SwapCameras", "src/theia/sfm/twoview_info.h: TwoViewInfoFromTwoCameras", "src/theia/math/rotation.cc: MultiplyRotations"]}
{"id": "C68", "title": "Bundle adjustment changes only what it was asked to change", "statement": "BundleAdjustPartialReconstruction changes nothing but the extrinsics of the estimated views among the chosen ones (keeping positions or orientations that are declared constant), the requested parameters of camera intrinsics used by such a view, and the points of the estimated tracks among the chosen ones. Names, features, flags, groups, other views, intrinsics and tracks stay as they are. BundleAdjustView changes no point, BundleAdjustTrack no camera. If the summary reports failure nothing changes. Nothing more is held fixed: every such change that does not increase the error is a possible result.", "quantifier": "all reconstructions reached through the interface, all sets of views and tracks, all options, all iteration orders, all results of a solver that meets the contract of ceres::Solve", "why_tests_cant": "Every sharing pattern of intrinsics and every selection; the flags are set in several passes over different containers.", "anchors": ["src/theia/sfm/bundle_adjustment/bundle_adjuster.cc: AddView, AddTrack, Optimize, SetCameraExtrinsicsParameterization, SetCameraIntrinsicsParameterization", "src/theia/sfm/bundle_adjustment/bundle_adjustment.cc: BundleAdjustPartialReconstruction, BundleAdjustView, BundleAdjustTrack"]}
{"id": "C69", "title": "Bundle adjustment minimizes over exactly the observations of the chosen views and tracks", "statement": "The cost that BundleAdjustPartialReconstruction hands to the solver is the sum of the errors of the observations of estimated tracks in estimated views of which the view or the track was chosen, each counted exactly once. On success the reported initial and final costs are this sum before and after, and it does not increase. BundleAdjustReconstruction does so over all observations between estimated views and tracks.", "quantifier": "all reconstructions reached through the interface, all sets of views and tracks, all options and iteration orders, all results of a solver that meets its contract", "why_tests_cant": "All selections and incidence patterns; an observation could be missed or counted twice.", "anchors": ["src/theia/sfm/bundle_adjustment/bundle_adjuster.cc: AddView, AddTrack, AddReprojectionErrorResidual", "src/theia/sfm/bundle_adjustment/bundle_adjustment.cc"]}
{"id": "C70", "title": "Bundle adjustment of existing views and tracks returns", "statement": "BundleAdjustView, BundleAdjustTrack, BundleAdjustPartialReconstruction and BundleAdjustReconstruction return a summary for all existing views and tracks.", "quantifier": "all reconstructions reached through the interface, all sets of existing views and tracks, all options", "why_tests_cant": "Quantifies over all reconstructions; the abort needs an estimated view or track without estimated counterpart.", "anchors": ["src/theia/sfm/bundle_adjustment/bundle_adjuster.cc: SetTrackVariable, SetCameraIntrinsicsParameterization, SetCameraOrientationConstant"]}
{"id": "C71", "title": "The intrinsics parameters kept constant are those not requested", "statement": "For every camera model and every combination of OptimizeIntrinsicsType flags, GetSubsetFromOptimizeIntrinsicsType lists exactly the indices of the parameters whose kind is not requested, without repetition and below NumParameters.", "quantifier": "all camera models, all flag words, all parameter indices", "why_tests_cant": "Every flag word and model at once.", "anchors": ["src/theia/sfm/camera/pinhole_camera_model.cc: GetSubsetFromOptimizeIntrinsicsType", "src/theia/sfm/camera/pinhole_radial_tangential_camera_model.cc", "src/theia/sfm/camera/fisheye_camera_model.cc", "src/theia/sfm/camera/fov_camera_model.cc", "src/theia/sfm/camera/division_undistortion_camera_model.cc"]}
{"id": "C72", "title": "Point-cloud alignment is optimal and recovers exact similarities", "statement": "AlignPointCloudsUmeyama(WithWeights) returns a proper rotation, a non-negative scale and a translation whose weighted sum of squared distances between the right points and the moved left points is at most that of every other similarity, mirror images included; if the right points are the left points moved by a similarity and three points with positive weight are not on a line, exactly that similarity is returned.", "quantifier": "all clouds with at least two different left points of positive weight, all non-negative weights, all similarities", "why_tests_cant": "Optimality compares with infinitely many similarities; reflections and degenerate clouds are measure-zero cases.", "anchors": ["src/theia/sfm/transformation/align_point_clouds.cc: AlignPointCloudsUmeyama, AlignPointCloudsUmeyamaWithWeights"]}
{"id": "C73", "title": "Point-cloud alignment is defined for all clouds of equal size", "statement": "AlignPointCloudsUmeyama(WithWeights) returns a finite similarity for all clouds of equal size and non-negative weights.", "quantifier": "all clouds and weights", "why_tests_cant": "All degenerate configurations.", "anchors": ["src/theia/sfm/transformation/align_point_clouds.cc: AlignPointCloudsUmeyama, AlignPointCloudsUmeyamaWithWeights"]}
{"id": "C74", "title": "AlignReconstructions brings the common cameras closest", "statement": "AlignReconstructions moves the second reconstruction by one similarity such that no similarity brings its estimated common views closer, in the sum of squared distances, to those of the first; if the common cameras differ only by a similarity they coincide afterwards.", "quantifier": "all pairs of reconstructions reached through the interface, all iteration orders", "why_tests_cant": "All configurations of shared, missing and unestimated views.", "anchors": ["src/theia/sfm/transformation/align_reconstructions.cc: AlignReconstructions", "src/theia/sfm/find_common_views_by_name.cc: FindCommonViewsByName", "src/theia/sfm/transformation/transform_reconstruction.cc: TransformReconstruction"]}
{"id": "C75", "title": "The squared Sampson distance is the first-order distance to the epipolar constraint", "statement": "SquaredSampsonDistance(F, x, y) is the smallest sum of squared offsets of the two points for which y^T F x = 0 holds to first order, and such offsets exist; it is 0 exactly for points that satisfy the constraint. Transposing F with the points exchanged, or scaling F, does not change it. It is not a number only if no offset changes the constraint to first order.", "quantifier": "all 3x3 matrices and all pairs of points", "why_tests_cant": "A minimum over all offsets for all matrices.", "anchors": ["src/theia/sfm/pose/util.cc: SquaredSampsonDistance"]}
{"id": "C76", "title": "NormalizeImagePoints centers the points with average distance sqrt(2)", "statement": "NormalizeImagePoints returns a translation and uniform scaling and the points moved by it, such that their centroid is the origin and their average distance from it is sqrt(2).", "quantifier": "all lists of image points", "why_tests_cant": "All point sets, degenerate ones included.", "anchors": ["src/theia/sfm/pose/util.cc: NormalizeImagePoints"]}
{"id": "C77", "title": "ProjectToRotationMatrix returns the closest rotation", "statement": "ProjectToRotationMatrix returns a rotation matrix, keeps rotation matrices, and no rotation matrix is closer to its argument in the Frobenius norm.", "quantifier": "all 3x3 matrices, all rotations", "why_tests_cant": "Optimality among infinitely many rotations; fails on an open set that tests near rotations do not reach.", "anchors": ["src/theia/sfm/pose/util.cc: ProjectToRotationMatrix"]}
{"id": "C78", "title": "DecomposeEssentialMatrix finds the motion", "statement": "DecomposeEssentialMatrix always gives two rotations and a unit vector. For any non-zero multiple of the essential matrix of a motion, one of the rotations is that of the motion, the other differs from it by a half turn about the translation, the vector is the direction of the translation up to the sign, and the four combinations have that essential matrix up to a factor.", "quantifier": "all motions with non-zero translation, all factors, all singular value decompositions", "why_tests_cant": "A decomposition is unique only up to signs; all of them must work.", "anchors": ["src/theia/sfm/pose/essential_matrix_utils.cc: DecomposeEssentialMatrix"]}
{"id": "C79", "title": "GetBestPoseFromEssentialMatrix returns the pose with most points in front", "statement": "GetBestPoseFromEssentialMatrix returns one of the four poses, with the largest number of correspondences in front of both cameras, and that number. If more than half of the correspondences are images of points in front of both cameras and the matrix is the essential matrix of the cameras up to a factor, the pose is the true one, with the position scaled to length 1, whatever the remaining correspondences.", "quantifier": "all poses, all factors, all correspondence lists", "why_tests_cant": "All mixtures of correct and wrong correspondences and all decompositions.", "anchors": ["src/theia/sfm/pose/essential_matrix_utils.cc: GetBestPoseFromEssentialMatrix", "src/theia/sfm/triangulation/triangulation.cc: IsTriangulatedPointInFrontOfCameras"]}
{"id": "C80", "title": "EssentialMatrixFromTwoProjectionMatrices relates the images of every point", "statement": "For two projection matrices [R|t] with different centers the matrix E is the essential matrix of a motion with translation of length 1, x1^T E x2 = 0 for the images of every point, and E is a multiple of FundamentalMatrixFromProjectionMatrices of the same cameras.", "quantifier": "all pairs of calibrated cameras with different centers, all points", "why_tests_cant": "All cameras and points.", "anchors": ["src/theia/sfm/pose/essential_matrix_utils.cc: EssentialMatrixFromTwoProjectionMatrices", "src/theia/sfm/pose/fundamental_matrix_util.cc: FundamentalMatrixFromProjectionMatrices"]}
{"id": "C81", "title": "Conversions between fundamental, essential and projection matrices agree", "statement": "FundamentalMatrixFromProjectionMatrices satisfies point1^T F point2 = 0 for all points; exchanging the cameras transposes it. ProjectionMatricesFromFundamentalMatrix gives cameras, the first [I|0], whose fundamental matrix is exactly F. EssentialMatrixFromFundamentalMatrix undoes ComposeFundamentalMatrix, whose matrix satisfies the constraint for the pixels of every point.", "quantifier": "all projection matrices, all singular 3x3 matrices, all motions, focal lengths and points", "why_tests_cant": "Identities for all matrices and points.", "anchors": ["src/theia/sfm/pose/fundamental_matrix_util.cc: FundamentalMatrixFromProjectionMatrices, ProjectionMatricesFromFundamentalMatrix, EssentialMatrixFromFundamentalMatrix, ComposeFundamentalMatrix"]}
{"id": "C82", "title": "FocalLengthsFromFundamentalMatrix recovers the focal lengths", "statement": "For the fundamental matrix of two cameras with focal lengths f1 and f2 FocalLengthsFromFundamentalMatrix succeeds and returns f1 and f2. If it succeeds, the matrix is an essential matrix after removing the returned focal lengths.", "quantifier": "all motions, all positive focal lengths, all matrices of determinant 0", "why_tests_cant": "All motions; the failures are at special positions of the epipoles.", "anchors": ["src/theia/sfm/pose/fundamental_matrix_util.cc: FocalLengthsFromFundamentalMatrix"]}
{"id": "C83", "title": "IsTriangulatedPointInFrontOfCameras tests the depths of the closest points of the rays", "statement": "IsTriangulatedPointInFrontOfCameras returns true exactly if the two rays are not parallel and the points of the rays closest to each other have positive depth in both cameras. It is true for the images of every point in front of both cameras that is not on their baseline, at any distance of the cameras, and false if the second camera is moved to the opposite side.", "quantifier": "all pairs of features, all rotations and positions", "why_tests_cant": "All ray configurations.", "anchors": ["src/theia/sfm/triangulation/triangulation.cc: IsTriangulatedPointInFrontOfCameras"]}
{"id": "C84", "title": "TriangulateDLT minimizes its error and recovers exact points", "statement": "TriangulateDLT returns a homogeneous point of length 1 for which no other point of length 1 has a smaller sum of squares of x Z - X and y Z - Y over both images. For the exact images of a point that is not on the line through the two different camera centers it returns this point.", "quantifier": "all pairs of projection matrices, all image points, all points off the baseline", "why_tests_cant": "All cameras and points.", "anchors": ["src/theia/sfm/triangulation/triangulation.cc: TriangulateDLT"]}
{"id": "C85", "title": "TriangulateNView minimizes the algebraic error and recovers exact points", "statement": "TriangulateNView returns a homogeneous point of length 1 whose projections have the smallest possible sum of squared distances from the rays of the image points. If all image points are exact images of a point and two of the cameras have different centers not on a line with the point, it returns this point. It aborts if the number of poses and points differ.", "quantifier": "all numbers of views, all projection matrices, all image points", "why_tests_cant": "Any number of views; a minimum over all points and ray parameters.", "anchors": ["src/theia/sfm/triangulation/triangulation.cc: TriangulateNView"]}
{"id": "C86", "title": "TriangulateMidpoint returns the point nearest to the rays", "statement": "For at least two rays with directions of length 1 TriangulateMidpoint returns false exactly if all rays are parallel; otherwise it returns the point (p, 1) for which the sum of squared distances to the lines of the rays is smaller than for every other point. Rays that meet give their common point. It aborts for fewer than two rays or different numbers of origins and directions.", "quantifier": "all lists of rays", "why_tests_cant": "Any number of rays; uniqueness over all points.", "anchors": ["src/theia/sfm/triangulation/triangulation.cc: TriangulateMidpoint"]}
{"id": "C87", "title": "Triangulate corrects the image points so that the rays meet", "statement": "Triangulate moves the two image points so that they satisfy the epipolar constraint, and returns the point in which their rays meet. Exact images of a point are not moved and give this point.", "quantifier": "all pairs of calibrated cameras, all image points", "why_tests_cant": "All cameras and image points, also noisy ones.", "anchors": ["src/theia/sfm/triangulation/triangulation.cc: Triangulate, FindOptimalImagePoints"]}
{"id": "C88", "title": "TriangulateNViewSVD recovers exact points", "statement": "If all image points are exact images of a point and two of the cameras have different centers not on a line with the point, TriangulateNViewSVD returns a multiple of this point; in general its result minimizes the distances of the projections from the rays. The result does not depend on anything but the arguments.", "quantifier": "all numbers of views, all projection matrices, all image points, all contents of uninitialized memory", "why_tests_cant": "Any number of views and any content of memory.", "anchors": ["src/theia/sfm/triangulation/triangulation.cc: TriangulateNViewSVD"]}
{"id": "C89", "title": "SufficientTriangulationAngle compares the largest angle of two rays", "statement": "For directions of length 1 and a threshold from 0 to 180 degrees SufficientTriangulationAngle returns true exactly if some two of the directions include an angle larger than the threshold.", "quantifier": "all lists of directions, all thresholds", "why_tests_cant": "All lists of any length.", "anchors": ["src/theia/sfm/triangulation/triangulation.cc: SufficientTriangulationAngle", "src/theia/math/util.h: DegToRad"]}
{"id": "C90", "title": "FilterViewPairsFromRelativeTranslation keeps consistent translations", "statement": "If there are positions of the views such that every relative translation, rotated to the world frame by the given orientations, is a positive multiple of the difference of the positions, FilterViewPairsFromRelativeTranslation removes no edge, for a non-negative tolerance and number of iterations.", "quantifier": "all histories of the view graph, all orientations and positions, all random axes, all iteration orders of the hash maps, all schedules of the threads", "why_tests_cant": "Random axes, thread schedules and arbitrary graphs.", "anchors": ["src/theia/sfm/filter_view_pairs_from_relative_translation.cc: FilterViewPairsFromRelativeTranslation, TranslationFilteringIteration, OrderTranslationsFromProjections, FindNextViewInOrder"]}
{"id": "C91", "title": "FilterViewPairsFromRelativeTranslation removes exactly the edges against an ordering", "statement": "FilterViewPairsFromRelativeTranslation aborts exactly if an edge has no orientation of its first view. Otherwise there is a strict ranking of the views for every axis, and exactly the edges stay for which the projections against the rankings sum up to at most the tolerance times the number of iterations. No view is removed, the values on the edges do not change, and the schedule of the threads has no influence. With axes of length 1 an edge whose translation is not longer than the tolerance stays.", "quantifier": "all histories of the view graph, all orientations, axes, iteration orders and schedules", "why_tests_cant": "Thread schedules and arbitrary graphs; includes what must not change.", "anchors": ["src/theia/sfm/filter_view_pairs_from_relative_translation.cc: FilterViewPairsFromRelativeTranslation, RotateRelativeTranslationsToGlobalFrame, ProjectTranslationsOntoAxis"]}
{"id": "C92", "title": "FilterViewPairsFromRelativeTranslation breaks contradictory cycles", "statement": "If for every random axis the steps of a closed walk in the view graph all go forward along the axis, or all backward, by more than the tolerance times the number of steps, FilterViewPairsFromRelativeTranslation removes an edge of the walk.", "quantifier": "all histories of the view graph, all closed walks, orientations, axes, iteration orders and schedules", "why_tests_cant": "Walks of any length, all graphs and random axes.", "anchors": ["src/theia/sfm/filter_view_pairs_from_relative_translation.cc: FilterViewPairsFromRelativeTranslation, OrderTranslationsFromProjections"]}
{"id": "C93", "title": "A localized view has a pose with enough inliers", "statement": "If LocalizeViewToReconstruction returns true, the view is estimated and its pose was supported by at least min_num_inliers different estimated tracks of the view (by more with a known orientation, which is kept) with an error below the threshold scaled to the image size. Without bundle adjustment the result is this pose; with it the result comes from it by an adjustment of this view alone that keeps all points and does not increase the sum of the errors.", "quantifier": "all reconstructions, intrinsics, options, views, iteration orders, results of the robust estimators and of the solver within their contracts", "why_tests_cant": "Random estimators and arbitrary reconstructions.", "anchors": ["src/theia/sfm/localize_view_to_reconstruction.cc: LocalizeViewToReconstruction, EstimateCameraPose", "src/theia/sfm/localize_view_to_reconstruction.cc: GetNormalized2D3DMatches, GetIntrinsicsNormalized2D3DMatches"]}
{"id": "C94", "title": "Localization changes only the view that is localized", "statement": "LocalizeViewToReconstruction of an existing view returns and changes, whatever the result, only the pose and the estimated flag of this view and its intrinsics: of these the focal length if the intrinsics are not known, and parameters that were to be optimized if bundle adjustment is used. All other views, all tracks, features, groups and other intrinsics stay.", "quantifier": "all reconstructions, intrinsics, options, views, iteration orders, estimators and solvers within their contracts", "why_tests_cant": "What must not change, for every input and every random result.", "anchors": ["src/theia/sfm/localize_view_to_reconstruction.cc: LocalizeViewToReconstruction, EstimateCameraPose"]}
{"id": "C95", "title": "A failed localization changes nothing", "statement": "If LocalizeViewToReconstruction returns false, the reconstruction is as before.", "quantifier": "all reconstructions, options, views, estimators and solvers", "why_tests_cant": "Every kind of failure.", "anchors": ["src/theia/sfm/localize_view_to_reconstruction.cc: LocalizeViewToReconstruction, EstimateCameraPose"]}
{"id": "C96", "title": "Shared intrinsics that were estimated are used for localization", "statement": "The intrinsics of a view are taken as known, and not changed without bundle adjustment, if the view has a focal length prior or another view with the same intrinsics has been estimated.", "quantifier": "all reconstructions and views", "why_tests_cant": "All groups of intrinsics.", "anchors": ["src/theia/sfm/localize_view_to_reconstruction.cc: DoesViewHaveKnownIntrinsics"]}
{"id": "C97", "title": "Localization with a known orientation falls back to P3P", "statement": "With assume_known_orientation, if the simplified solver is not successful, the pose is estimated with standard P3P.", "quantifier": "all reconstructions, options, views and estimators", "why_tests_cant": "Every outcome of the estimators.", "anchors": ["src/theia/sfm/localize_view_to_reconstruction.h: LocalizeViewToReconstructionOptions::assume_known_orientation", "src/theia/sfm/localize_view_to_reconstruction.cc: LocalizeViewToReconstruction, EstimateCameraPose"]}
{"id": "C98", "title": "A prior made from intrinsics restores them", "statement": "CameraIntrinsicsPriorFromIntrinsics of a camera with a positive focal length, followed by SetFromCameraIntrinsicsPriors of any other camera, gives the other camera the same model, the same parameters and the same image size, for all five camera models; the pose of the other camera, the first camera and all other intrinsics objects stay, and the object of the other camera is reused if the model is the same.", "quantifier": "all cameras, parameter values, image sizes and previous intrinsics", "why_tests_cant": "All parameter values of all models and all previous contents.", "anchors": ["src/theia/sfm/camera/camera.cc: Camera::SetFromCameraIntrinsicsPriors, Camera::CameraIntrinsicsPriorFromIntrinsics", "src/theia/sfm/camera/pinhole_camera_model.cc: SetFromCameraIntrinsicsPriors, CameraIntrinsicsPriorFromIntrinsics", "src/theia/sfm/camera/pinhole_radial_tangential_camera_model.cc: SetFromCameraIntrinsicsPriors, CameraIntrinsicsPriorFromIntrinsics", "src/theia/sfm/camera/fisheye_camera_model.cc: SetFromCameraIntrinsicsPriors, CameraIntrinsicsPriorFromIntrinsics", "src/theia/sfm/camera/fov_camera_model.cc: SetFromCameraIntrinsicsPriors, CameraIntrinsicsPriorFromIntrinsics", "src/theia/sfm/camera/division_undistortion_camera_model.cc: SetFromCameraIntrinsicsPriors, CameraIntrinsicsPriorFromIntrinsics"]}
{"id": "C99", "title": "A prior determines exactly the parameters it sets", "statement": "After SetFromCameraIntrinsicsPriors the camera has the model that the prior names and every parameter that the prior sets. Without a prior the focal length is 1.2 (fisheye: 0.4) times the larger image dimension and the principal point the image center, if the image size is known; the single distortion parameter of the FOV and division models is reset to its default; all other parameters keep their values (the defaults for a new model). Other intrinsics objects do not change. A prior with an unknown model or a focal length that is not positive aborts.", "quantifier": "all priors, cameras and intrinsics", "why_tests_cant": "Every combination of set and unset values for five models.", "anchors": ["src/theia/sfm/camera/camera.cc: Camera::SetFromCameraIntrinsicsPriors", "src/theia/sfm/camera/camera_intrinsics_model_type.h: StringToCameraIntrinsicsModelType", "src/theia/sfm/camera/pinhole_camera_model.cc: SetFromCameraIntrinsicsPriors, CameraIntrinsicsPriorFromIntrinsics", "src/theia/sfm/camera/pinhole_radial_tangential_camera_model.cc: SetFromCameraIntrinsicsPriors, CameraIntrinsicsPriorFromIntrinsics", "src/theia/sfm/camera/fisheye_camera_model.cc: SetFromCameraIntrinsicsPriors, CameraIntrinsicsPriorFromIntrinsics", "src/theia/sfm/camera/fov_camera_model.cc: SetFromCameraIntrinsicsPriors, CameraIntrinsicsPriorFromIntrinsics", "src/theia/sfm/camera/division_undistortion_camera_model.cc: SetFromCameraIntrinsicsPriors, CameraIntrinsicsPriorFromIntrinsics"]}
{"id": "C100", "title": "Setting intrinsics from priors keeps groups together", "statement": "SetCameraIntrinsicsFromPriors gives all views of an intrinsics group one intrinsics object and one image size, made from the prior of one view of the group, an estimated one if there is any; different groups do not share intrinsics; poses, flags, features, tracks, groups and unused intrinsics do not change.", "quantifier": "all reconstructions, groups, priors that name a model and have a positive focal length, and iteration orders", "why_tests_cant": "All groups and iteration orders of hash sets.", "anchors": ["src/theia/sfm/set_camera_intrinsics_from_priors.cc: SetCameraIntrinsicsFromPriors, InitializeRepresentativeCameraInGroup"]}
{"id": "C101", "title": "Estimated intrinsics are the starting point for their group", "statement": "If a view of a group is already estimated, SetCameraIntrinsicsFromPriors uses its intrinsics as the initialization of the intrinsics of the group.", "quantifier": "all reconstructions, groups and priors", "why_tests_cant": "All reconstructions and iteration orders.", "anchors": ["src/theia/sfm/set_camera_intrinsics_from_priors.cc: InitializeRepresentativeCameraInGroup, SetCameraIntrinsicsFromPriors"]}
{"id": "C102", "title": "Copies of a camera share intrinsics, deep copies do not", "statement": "A Camera made by copy or assignment has the same pose and image size and sees every later change of the intrinsics of the original, and vice versa. DeepCopy makes a camera with the same pose, image size and intrinsics; later changes of its intrinsics are not seen by the original or any other camera, and vice versa.", "quantifier": "all cameras and later changes", "why_tests_cant": "Every later history of changes.", "anchors": ["src/theia/sfm/camera/camera.cc: Camera::Camera(const Camera&), Camera::operator=, Camera::DeepCopy"]}
{"id": "C103", "title": "Incremental reconstruction changes only what it estimates", "statement": "A run of IncrementalReconstructionEstimator::Estimate that returns leaves views, names, features, tracks and intrinsics groups of the reconstruction as they were. Views estimated afterwards are views of the view graph or were estimated before. On success the summary lists exactly the estimated views and tracks, otherwise it lists none.", "quantifier": "all reconstructions, view graphs, options, results of the robust estimators and of the nonlinear solver, thread schedules and iteration orders", "why_tests_cant": "All runs of a loop of unbounded length over random and concurrent steps.", "anchors": ["src/theia/sfm/incremental_reconstruction_estimator.cc: Estimate, ChooseInitialViewPair, FindViewsToLocalize, EstimateStructure, FullBundleAdjustment, PartialBundleAdjustment, SetUnderconstrainedAsUnestimated"]}
{"id": "C104", "title": "Incremental reconstruction has no undefined behaviour", "statement": "Estimate never dereferences a missing view, track or match and never erases a view that is not in its list.", "quantifier": "all reconstructions made by the interface, all view graphs, all options, and all random, concurrent and numerical steps", "why_tests_cant": "All graphs, resumed reconstructions and schedules.", "anchors": ["src/theia/sfm/incremental_reconstruction_estimator.cc: Estimate, InitializeCamerasFromTwoViewInfo, SetUnderconstrainedAsUnestimated"]}
{"id": "C105", "title": "The initial pair is well supported", "statement": "If an initial view pair is found, it is an edge of the view graph with more than 100 verified matches, exactly its two views are estimated, more than 100 tracks are estimated, and every estimated track is seen by both views. The first camera is at the origin with identity rotation, the second has the relative pose of the edge.", "quantifier": "all reconstructions, view graphs, and numerical steps", "why_tests_cant": "All sequences of rejected candidates.", "anchors": ["src/theia/sfm/incremental_reconstruction_estimator.cc: ChooseInitialViewPair, InitializeCamerasFromTwoViewInfo"]}
{"id": "C106", "title": "Candidates are tried best first", "statement": "The candidates for the initial pair are exactly the edges with more verified matches than the limit, each once, ordered by fewer homography inliers, then more verified matches, then smaller ids. The views to localize next are exactly the views not yet localized that see at least 30 estimated tracks, each once, ordered by decreasing visibility score of these tracks and then decreasing id. Neither depends on the iteration order of hash tables.", "quantifier": "all view graphs, reconstructions and iteration orders", "why_tests_cant": "All iteration orders of hash tables.", "anchors": ["src/theia/sfm/incremental_reconstruction_estimator.cc: OrderViewPairsByInitializationCriterion, FindViewsToLocalize"]}
{"id": "C107", "title": "Underconstrained views and tracks are removed", "statement": "SetUnderconstrainedAsUnestimated only clears estimated flags. Afterwards every estimated view sees at least three estimated tracks, and every estimated track is seen by at least two estimated views. A part of the scene that is well constrained by itself is kept. Views that were cleared are put back to the views to localize.", "quantifier": "all states of the estimator and iteration orders", "why_tests_cant": "All cascades of removals.", "anchors": ["src/theia/sfm/incremental_reconstruction_estimator.cc: SetUnderconstrainedAsUnestimated", "src/theia/sfm/reconstruction_estimator_utils.cc: SetUnderconstrainedViewsToUnestimated, SetUnderconstrainedTracksToUnestimated"]}
{"id": "C108", "title": "Each round of incremental reconstruction localizes one view", "statement": "A round that localizes a view takes exactly this view from the views to localize and appends it to the reconstructed views; views may then be put back. The two collections stay disjoint, and the number of optimized views is between 0 and the number of reconstructed views. The number of rounds is bounded. Partial bundle adjustment is used as long as the number of views has grown by less than the given percentage since the last full one.", "quantifier": "all states, options and numerical steps", "why_tests_cant": "All histories of rounds.", "anchors": ["src/theia/sfm/incremental_reconstruction_estimator.cc: Estimate, LocalizeView, UnoptimizedGrowthPercentage"]}
{"id": "C109", "title": "Estimating the geometry of two views", "statement": "EstimateTwoViewInfo uses the focal lengths of the priors exactly if both images have one, and estimates them otherwise. Every returned inlier is a different correspondence whose error, for the returned pose and focal lengths and the features normalized by the priors, is below the threshold scaled by the image sizes (and divided by the focal lengths if these are known). If it returns false, nothing was changed. It does not abort for valid priors.", "quantifier": "all priors, correspondences and results of the robust estimators that satisfy their contract", "why_tests_cant": "All images, thresholds and outcomes of random sampling.", "anchors": ["src/theia/sfm/estimate_twoview_info.cc: EstimateTwoViewInfo"]}
{"id": "C110", "title": "Geometrically verified matches", "statement": "When VerifyMatches succeeds, the two-view geometry was estimated from the candidates, and the returned matches are the keypoints of those candidates that are inliers of it (in their order, plus what guided matching adds) and that, with bundle adjustment, have a sufficient triangulation angle, a first point within the triangulation error and an adjusted point in front of both cameras within the final error in both images; no such match is left out. Their number exceeds the limit and is recorded. The first camera stays at the origin, and after bundle adjustment the recorded pose is that of the second camera with a baseline of length one.", "quantifier": "all keypoints, candidates, priors, options and results of the numerical steps that satisfy their contracts", "why_tests_cant": "All outcomes of random sampling and optimization.", "anchors": ["src/theia/sfm/two_view_match_geometric_verification.cc: VerifyMatches, TriangulatePoints, BundleAdjustRelativePose"]}
{"id": "C111", "title": "Geometric verification is total", "statement": "For candidates that refer to existing keypoints and for valid priors VerifyMatches (without guided matching) returns: it neither aborts nor accesses anything out of range.", "quantifier": "all keypoints, candidates, priors, options and results of the numerical steps that satisfy their contracts", "why_tests_cant": "All outcomes of random sampling and optimization.", "anchors": ["src/theia/sfm/two_view_match_geometric_verification.cc: VerifyMatches"]}
{"id": "C112", "title": "The minimum number of inlier matches", "statement": "VerifyMatches returns true exactly if at least min_num_inlier_matches matches were verified.", "quantifier": "all inputs and limits", "why_tests_cant": "All limits and numbers of inliers.", "anchors": ["src/theia/sfm/two_view_match_geometric_verification.cc: VerifyMatches", "src/theia/sfm/two_view_match_geometric_verification.h: Options::min_num_inlier_matches"]}
{"id": "C113", "title": "The visibility score of two views", "statement": "The recorded visibility score is the sum of the scores of the inliers in the two images.", "quantifier": "all priors, correspondences and inliers", "why_tests_cant": "All configurations of inliers.", "anchors": ["src/theia/sfm/estimate_twoview_info.cc: ComputeVisibilityScoreOfInliers, EstimateTwoViewInfoCalibrated, EstimateTwoViewInfoUncalibrated", "src/theia/sfm/twoview_info.h: visibility_score"]}
{"id": "C114", "title": "The number of homography inliers", "statement": "The recorded number of homography inliers is the one for the error threshold scaled by the image sizes.", "quantifier": "all inputs", "why_tests_cant": "All image sizes.", "anchors": ["src/theia/sfm/two_view_match_geometric_verification.cc: CountHomographyInliers, VerifyMatches"]}
{"id": "C115", "title": "Known focal lengths are kept by verification", "statement": "The focal length of an image for which a prior is given is recorded unchanged in the two-view geometry, also after bundle adjustment.", "quantifier": "all priors and results of the numerical steps that satisfy their contracts", "why_tests_cant": "All outcomes of the optimization.", "anchors": ["src/theia/sfm/two_view_match_geometric_verification.cc: VerifyMatches, BundleAdjustRelativePose", "src/theia/sfm/estimate_twoview_info.cc: EstimateTwoViewInfo"]}
{"id": "C116", "title": "The result of guided matching", "statement": "GetMatches only appends matches. Every feature of the first image without a match whose epipolar line meets the bounding box of the unmatched features of the second image (and avoids its corners) is compared with the candidates of its group of lines, and gets exactly one match if and only if its nearest candidate passes the ratio test among these candidates.", "quantifier": "all features, matches, epipolar lines, random numbers and results of the nearest neighbor search", "why_tests_cant": "All sets of features and all groupings of lines.", "anchors": ["src/theia/matching/guided_epipolar_matcher.cc: GetMatches, GroupEpipolarLines, FindFeaturesNearEpipolarLines, FindKNearestNeighbors"]}
{"id": "C117", "title": "Guided matching only uses features without a match", "statement": "A match added by guided matching joins two features that had no match before.", "quantifier": "all features, matches and random numbers", "why_tests_cant": "The random candidates depend on the generator.", "anchors": ["src/theia/matching/guided_epipolar_matcher.cc: GetMatches, FindFeaturesNearEpipolarLines"]}
{"id": "C118", "title": "Guided matching is defined", "statement": "GetMatches has no undefined behavior.", "quantifier": "all features in images and all matches", "why_tests_cant": "It depends on the number of features left without a match and on the random numbers.", "anchors": ["src/theia/matching/guided_epipolar_matcher.cc: Initialize, GetMatches, FindKNearestNeighbors, EncodeLineEndpoints"]}
{"id": "C119", "title": "Features near an epipolar line are considered", "statement": "All features that are closer than guided_matching_max_distance_pixels to the epipolar line are considered for matching.", "quantifier": "all features, epipolar lines and distances", "why_tests_cant": "All positions of features and lines relative to the grids.", "anchors": ["src/theia/matching/guided_epipolar_matcher.cc: FindFeaturesNearEpipolarLines, FindClosestCellAndKeypoints, ImageGrid", "src/theia/matching/guided_epipolar_matcher.h: Options::guided_matching_max_distance_pixels"]}
{"id": "C120", "title": "Segments of epipolar lines", "statement": "The segment of an epipolar line joins the two points where it crosses the border of the bounding box. Its 64-bit number gives back these points, rounded down, and segments are ordered by it lexicographically.", "quantifier": "all boxes, lines and points of images with at most 65535 pixels", "why_tests_cant": "All lines and boxes.", "anchors": ["src/theia/matching/guided_epipolar_matcher.cc: FindEpipolarLineIntersection, EncodeLineEndpoints, DecodeLineEndpoints"]}
{"id": "C121", "title": "Reconstructions returned by the builder", "statement": "Every reconstruction that BuildReconstruction appends is the estimated part of one successful estimate. No view and no track is in two of them, and together with the views that remain unestimated they have exactly the views that take part (all views, or the calibrated ones), under their names.", "quantifier": "all builders, estimators (that only write estimates), iteration orders and vectors of the caller", "why_tests_cant": "All sequences of calls and all estimators.", "anchors": ["src/theia/sfm/reconstruction_builder.cc: BuildReconstruction, CreateEstimatedSubreconstruction, RemoveEstimatedViewsAndTracks, RemoveUncalibratedViews"]}
{"id": "C122", "title": "Result and termination of BuildReconstruction", "statement": "BuildReconstruction repeats until no more views can be successfully estimated, returns, and its result says whether a reconstruction was made.", "quantifier": "all builders, estimators and vectors of the caller", "why_tests_cant": "Any number of rounds and all estimators.", "anchors": ["src/theia/sfm/reconstruction_builder.cc: BuildReconstruction", "src/theia/sfm/reconstruction_builder.h: BuildReconstruction"]}
{"id": "C123", "title": "Only calibrated views", "statement": "With only_calibrated_views, every view of a reconstruction that BuildReconstruction appends had a focal length prior when it was called.", "quantifier": "all builders, estimators and iteration orders", "why_tests_cant": "All sequences of calls.", "anchors": ["src/theia/sfm/reconstruction_builder.cc: BuildReconstruction, RemoveUncalibratedViews, AddTwoViewMatch"]}
{"id": "C124", "title": "What the matches of a builder become", "statement": "The matches between different (calibrated, if wanted) images become the view graph and the tracks of the first estimate: one edge for each matched pair, with the information of the last match, from the smaller to the larger view id, and the tracks of all correspondences. Without any such match BuildReconstruction aborts.", "quantifier": "all sequences of AddImage, AddTwoViewMatch and ExtractAndMatchFeatures, databases and iteration orders", "why_tests_cant": "All orders of calls, all contents of the database.", "anchors": ["src/theia/sfm/reconstruction_builder.cc: AddImage, AddTwoViewMatch, ExtractAndMatchFeatures, AddMatchToViewGraph, AddTracksForMatch, BuildReconstruction"]}
{"id": "C125", "title": "Returned reconstructions do not change", "statement": "A reconstruction that BuildReconstruction has appended keeps the camera intrinsics it was estimated with while the next reconstructions are estimated.", "quantifier": "all builders, estimators and groups of shared intrinsics", "why_tests_cant": "All partitions into groups and all estimates.", "anchors": ["src/theia/sfm/reconstruction_builder.cc: BuildReconstruction, CreateEstimatedSubreconstruction", "src/theia/sfm/camera/camera.cc: Camera::Camera(const Camera&)"]}
{"id": "C126", "title": "Calls of the builder are defined", "statement": "Every sequence of calls of the interface of a ReconstructionBuilder, made by either constructor, is defined and does not abort.", "quantifier": "all reconstructions, view graphs and calls", "why_tests_cant": "All sequences of calls.", "anchors": ["src/theia/sfm/reconstruction_builder.cc: ReconstructionBuilder, AddImage, AddTwoViewMatch, ExtractAndMatchFeatures, BuildReconstruction"]}
{"id": "C127", "title": "Images and priors of a builder", "statement": "AddImage (with or without a prior) succeeds exactly if no image with that file name was added before; a failed call changes no view. The views are those of the added images, and the intrinsics prior of each is the one given with its image, followed by those that ExtractAndMatchFeatures reads from the database.", "quantifier": "all sequences of AddImage, AddTwoViewMatch and ExtractAndMatchFeatures and contents of the database", "why_tests_cant": "All orders of calls, all names and all contents of the database.", "anchors": ["src/theia/sfm/reconstruction_builder.cc: AddImage, AddImageWithCameraIntrinsicsPrior, AddViewToReconstruction, ExtractAndMatchFeatures"]}
{"id": "C128", "title": "Which edges and views global reconstruction uses", "statement": "GlobalReconstructionEstimator::Estimate first drops the view pairs with fewer matches than min_num_two_view_inliers and all but a largest connected component. If a pair is left, it estimates the rotations (from orientations chained along a maximum spanning tree, unless the linear estimator is used), drops the pairs whose relative rotation is off by more than the threshold, optionally replaces the relative translations, keeps the rigid part and drops pairs with inconsistent translations, keeping a largest component again; exactly what is left is given to the position estimator. None of these steps aborts.", "quantifier": "all view graphs built through the interface, options, iteration orders and solvers that keep their contracts", "why_tests_cant": "All graphs, thresholds and iteration orders.", "anchors": ["src/theia/sfm/global_reconstruction_estimator.cc: Estimate, FilterInitialViewGraph, EstimateGlobalRotations, FilterRotations, OptimizePairwiseTranslations, FilterRelativeTranslation", "src/theia/sfm/extract_maximally_parallel_rigid_subgraph.cc: ExtractMaximallyParallelRigidSubgraph"]}
{"id": "C129", "title": "The view graph after the poses are estimated", "statement": "When global reconstruction has estimated poses, every view pair left in the view graph is one of the input with the same relative rotation and at least the required number of matches, agrees with the estimated orientations up to the threshold, and all views with a pair are connected. Only views with a pair and an orientation get a position.", "quantifier": "all view graphs, options, iteration orders and solvers", "why_tests_cant": "All graphs and rotations.", "anchors": ["src/theia/sfm/global_reconstruction_estimator.cc: Estimate, FilterRotations, FilterRelativeTranslation"]}
{"id": "C130", "title": "What global reconstruction may change", "statement": "Global reconstruction adds and removes no view, track or observation and keeps the reconstruction consistent. A view that becomes estimated has a pair in the final view graph and an orientation. The summary of a success lists exactly the estimated views and tracks; that of a failure is empty.", "quantifier": "all reconstructions, view graphs, options and solvers", "why_tests_cant": "All inputs and all results of the solvers.", "anchors": ["src/theia/sfm/global_reconstruction_estimator.cc: Estimate", "src/theia/sfm/reconstruction_estimator_utils.cc: SetReconstructionFromEstimatedPoses"]}
{"id": "C131", "title": "Tracks after a successful global reconstruction", "statement": "After a success every estimated track passes the outlier test (in front of the cameras, mean reprojection error and triangulation angle within the thresholds) and is seen by at least two estimated views.", "quantifier": "all reconstructions, view graphs, options with at least one round, and solvers", "why_tests_cant": "All scenes and all results of bundle adjustment.", "anchors": ["src/theia/sfm/global_reconstruction_estimator.cc: Estimate, EstimateStructure, BundleAdjustment", "src/theia/sfm/reconstruction_estimator_utils.cc: SetOutlierTracksToUnestimated"]}
{"id": "C132", "title": "Failures of global reconstruction", "statement": "If no view pair has enough matches, Estimate fails and the reconstruction is unchanged. If the rotation or position estimator fails, Estimate fails and at most the camera intrinsics have changed.", "quantifier": "all reconstructions, view graphs and options", "why_tests_cant": "All inputs for which a step fails.", "anchors": ["src/theia/sfm/global_reconstruction_estimator.cc: Estimate"]}
{"id": "C133", "title": "Global reconstruction is defined", "statement": "Global reconstruction with the position estimators of the library has no undefined behaviour if the views of the view graph are in the reconstruction: the estimators return on every view graph that the earlier steps leave, place exactly the views with a pair, and fail on a graph without pairs.", "quantifier": "all reconstructions, view graphs and options", "why_tests_cant": "All graphs that the filters can leave, including one without pairs.", "anchors": ["src/theia/sfm/global_reconstruction_estimator.cc: Estimate", "src/theia/sfm/global_pose_estimation/least_unsquared_deviation_position_estimator.cc: EstimatePositions", "src/theia/sfm/global_pose_estimation/nonlinear_position_estimator.cc: EstimatePositions"]}
{"id": "C134", "title": "What feature extraction stores", "statement": "For every interleaving of the worker threads, extraction leaves exactly the features and priors of the images whose files exist in the database: stored features stay, images without a usable prior or without features are left out, no other entry changes, each image goes to the matcher at most once, and the training features are those of these images. From every state all tasks can return.", "quantifier": "all lists of images with distinct names, databases, options, masks, detectors and schedules", "why_tests_cant": "All interleavings of the threads.", "anchors": ["src/theia/sfm/feature_extractor_and_matcher.cc: ExtractAndMatchFeatures, ProcessImage"]}
{"id": "C135", "title": "Features of one image", "statement": "The features of an image are the detected ones in the white part of its mask, in the order of detection, each with its own descriptor, and no more than the limit.", "quantifier": "all images, masks, limits and results of the detector", "why_tests_cant": "All detector outputs, masks and limits, including negative ones.", "anchors": ["src/theia/sfm/feature_extractor_and_matcher.cc: ExtractFeatures"]}
{"id": "C136", "title": "Priors that the user gives are kept", "statement": "A camera intrinsics prior that the user puts in the database before extraction is not changed by it.", "quantifier": "all databases, images, options and schedules", "why_tests_cant": "All priors, including those without a focal length.", "anchors": ["src/theia/sfm/feature_extractor_and_matcher.cc: ProcessImage"]}
{"id": "C137", "title": "Selection of image pairs by global descriptors", "statement": "Each selected pair is listed once; the selected pairs are those of an image and one of its nearest neighbours, and those added by query expansion; iteration orders of the containers do not matter.", "quantifier": "all databases, distances, numbers of neighbours and iteration orders", "why_tests_cant": "All sets of descriptors, ties and iteration orders.", "anchors": ["src/theia/sfm/feature_extractor_and_matcher.cc: SelectImagePairsWithGlobalDescriptorMatching"]}
{"id": "C138", "title": "Extracting and matching from end to end", "statement": "After extraction the matcher matches the selected pairs of the extracted images, or those that the user has asked for; the results are stored and no other match changes.", "quantifier": "all images, options, descriptors, requested pairs and schedules", "why_tests_cant": "All combinations of options, databases and schedules.", "anchors": ["src/theia/sfm/feature_extractor_and_matcher.cc: ExtractAndMatchFeatures, SetPairsToMatch, SelectImagePairsWithGlobalDescriptorMatching"]}
{"id": "C139", "title": "Feature extraction has no data race", "statement": "The threads of feature extraction never use the same data at the same time without a lock if one of them writes.", "quantifier": "all images, options, numbers of threads and schedules", "why_tests_cant": "All interleavings of the threads.", "anchors": ["src/theia/sfm/feature_extractor_and_matcher.cc: ProcessImage", "src/theia/matching/in_memory_features_and_matches_database.cc"]}
{"id": "C140", "title": "Calibrations survive being written to a file and read again", "statement": "After WriteCalibration, ReadCalibration gives every image its calibration back: image size, camera type, which fields are set, and each number within five millionths of its value, exactly if six digits are enough. Other entries of the map that is read into are kept. Nothing is written for an empty map.", "quantifier": "all maps of calibrations whose names have no quotes, backslashes or control characters, all iteration orders, all contents of the map read into, all parsers that understand JSON", "why_tests_cant": "All numbers, fields and names; the text goes through printing with six digits and a JSON parser.", "anchors": ["src/theia/io/write_calibration.cc:WriteCalibration", "src/theia/io/read_calibration.cc:ReadCalibration"]}
{"id": "C141", "title": "Calibration files lose nothing", "statement": "A map of calibrations that is written and read again is the same map, whatever the names and numbers in it.", "quantifier": "all maps of calibrations", "why_tests_cant": "All names and all doubles.", "anchors": ["src/theia/io/write_calibration.cc:WriteCalibration", "src/theia/io/read_calibration.cc:ReadCalibration"]}
{"id": "C142", "title": "What a calibration file says", "statement": "Every named entry of a calibration file gives its image the fields that the entry has; fields that are absent or have another type are not set; the size is twice the principal point if it is not given; the last entry for a name counts; entries without a name are skipped; other images keep what they had.", "quantifier": "all files with a priors array, all members and types in the entries", "why_tests_cant": "All combinations of members, types, lengths of arrays and repeated names.", "anchors": ["src/theia/io/read_calibration.cc:ReadCalibration, ExtractCameraIntrinsicPriorsFromJson"]}
{"id": "C143", "title": "Files that are no calibration files are answered with false", "statement": "ReadCalibration returns false for a file that is missing or cannot be understood, and leaves the map alone.", "quantifier": "all files", "why_tests_cant": "All texts, well-formed or not.", "anchors": ["src/theia/io/read_calibration.cc:ReadCalibration, ExtractCameraIntrinsicPriorsFromJson"]}
{"id": "C144", "title": "Colors of the points", "statement": "After ColorizeReconstruction every track has the mean color of the pixels that its features lie in, each channel as a number from 0 to 255 without its fraction. Points, views, observations and flags stay as they were. The result does not depend on the schedule of the threads or on iteration orders.", "quantifier": "all reconstructions built by the API, all color images that contain their features, all numbers of threads and schedules, all iteration orders", "why_tests_cant": "All interleavings of the image tasks and all images.", "anchors": ["src/theia/sfm/colorize_reconstruction.cc:ColorizeReconstruction, ExtractColorsFromImage"]}
{"id": "C145", "title": "Colorizing every reconstruction", "statement": "With RGB or grayscale images in the directory, ColorizeReconstruction colors every reconstruction; with missing images it ends the program with a message.", "quantifier": "all reconstructions, directories and RGB or grayscale images", "why_tests_cant": "All histories of the reconstruction, including tracks without views, and all kinds of images.", "anchors": ["src/theia/sfm/colorize_reconstruction.cc:ColorizeReconstruction, ExtractColorsFromImage", "src/theia/image/image.cc:GetXY"]}
{"id": "C146", "title": "A database directory stays usable", "statement": "Whatever a program does with a database of features and matches in a directory, and whenever it is killed, the directory can be opened again and every later call is well defined.", "quantifier": "all histories of constructions, calls, closings, process deaths at every point of every call, failures to create a column family, and compactions", "why_tests_cant": "All crash points in all histories; a test dies at a few of them.", "anchors": ["src/theia/matching/rocksdb_features_and_matches_database.cc:InitializeRocksDB, CreateColumnFamily, RemoveAllMatches"]}
{"id": "C147", "title": "Priors and features outlive the process", "statement": "Get returns the value that was last written under the name, in this process or an earlier one; Contains and the lists of names say exactly which names were written.", "quantifier": "all histories of writes, closings, process deaths in the middle of any later call, reopenings and compactions of a database that was made without interruption", "why_tests_cant": "All histories over all processes that used the directory.", "anchors": ["src/theia/matching/rocksdb_features_and_matches_database.cc:GetFeatures, PutFeatures, GetCameraIntrinsicsPrior, PutCameraIntrinsicsPrior, ContainsFeatures, ImageNamesOfFeatures"]}
{"id": "C148", "title": "Matches of different pairs are kept apart", "statement": "GetImagePairMatch returns the match that was last written for exactly this pair of names since the last RemoveAllMatches, in this process or an earlier one; ImageNamesOfMatches gives exactly these pairs.", "quantifier": "all histories as above, all names", "why_tests_cant": "All pairs of strings as names and all histories.", "anchors": ["src/theia/matching/rocksdb_features_and_matches_database.cc:ComposeImageNamePair, DecomposeImageNamePair, GetImagePairMatch, PutImagePairMatch, ImageNamesOfMatches"]}
{"id": "C149", "title": "Numbers of a database directory", "statement": "NumImages, NumCameraIntrinsicsPrior and NumMatches are the lengths of the lists of names.", "quantifier": "all histories as above", "why_tests_cant": "Depends on overwritten entries and on when the background compaction runs.", "anchors": ["src/theia/matching/rocksdb_features_and_matches_database.cc:NumImages, NumCameraIntrinsicsPrior, NumMatches"]}
{"id": "C150", "title": "Hybrid reconstruction: orientations from the rotation estimation", "statement": "Before positions are estimated, hybrid reconstruction sets the orientations found by the global rotation estimation: exactly the views of the reconstruction that are not estimated and have an orientation get it, their positions stay, and no other view, track, feature or group of intrinsics is changed.  The order of the hash map does not matter.", "quantifier": "all maps of orientations, also with ids that are not in the reconstruction, all reconstructions and all iteration orders", "why_tests_cant": "a test has one map in one order", "anchors": ["src/theia/sfm/hybrid_reconstruction_estimator.cc:EstimateCameraOrientations"]}
{"id": "C151", "title": "Hybrid reconstruction changes only what it estimates", "statement": "A call of Estimate that returns has kept views, names, tracks, features and groups of intrinsics, and the reconstruction is consistent.  On success the summary lists exactly the estimated views and tracks, and the reconstruction was started from an edge of the view graph with more than 100 verified matches with a known orientation of at least one of its views; on failure the summary is empty.", "quantifier": "all view graphs, reconstructions, priors, options, results of the rotation estimation, the robust estimators and the solver, thread schedules and iteration orders, and numbers of rounds", "why_tests_cant": "the run depends on random sampling, threads and hash orders; a test sees one run", "anchors": ["src/theia/sfm/hybrid_reconstruction_estimator.cc:Estimate", "src/theia/sfm/hybrid_reconstruction_estimator.cc:ChooseInitialViewPair", "src/theia/sfm/hybrid_reconstruction_estimator.cc:LocalizeView"]}
{"id": "C152", "title": "Hybrid reconstruction has no undefined behaviour", "statement": "A call of Estimate never dereferences a missing view or edge, erases the end of a list, overflows or divides by zero.  (False: view pairs whose views are not in the reconstruction are dereferenced.  It holds if all views of the graph exist, none is estimated before, and the features fit in the visibility pyramid.)", "quantifier": "as for the previous property", "why_tests_cant": "undefined behaviour may pass unnoticed in a test", "anchors": ["src/theia/sfm/hybrid_reconstruction_estimator.cc:Estimate", "src/theia/sfm/hybrid_reconstruction_estimator.cc:ChooseInitialViewPair", "src/theia/sfm/hybrid_reconstruction_estimator.cc:SetUnderconstrainedAsUnestimated"]}
{"id": "C153", "title": "Hybrid reconstruction keeps views that are already estimated", "statement": "As views that are estimated before are left out of the views to localize and keep their orientation, one expects that they stay estimated.  (False: choosing the initial pair clears all flags, and the cleared views are never localized again.  In every successful run all of them that are not in the initial pair end unestimated.)", "quantifier": "all successful runs on all reconstructions", "why_tests_cant": "tests start from reconstructions without estimated views", "anchors": ["src/theia/sfm/hybrid_reconstruction_estimator.cc:Estimate", "src/theia/sfm/hybrid_reconstruction_estimator.cc:ChooseInitialViewPair", "src/theia/sfm/hybrid_reconstruction_estimator.cc:SetReconstructionAsUnestimated"]}
{"id": "C154", "title": "Hybrid reconstruction: the initial pair", "statement": "The candidates are exactly the edges with more than 100 verified matches, each once, ordered by the rounded angle between the viewing directions (zero unless both orientations are known), then by the number of matches, then by ids.  If a pair is chosen then exactly its two views are estimated, the orientation of one of them is known, more than 100 tracks are estimated, each seen by both views, and the two views have been moved from the views to localize to the end of the reconstructed ones.", "quantifier": "all graphs, maps of orientations, states and environments", "why_tests_cant": "a test has one graph, and seldom ties", "anchors": ["src/theia/sfm/hybrid_reconstruction_estimator.cc:ChooseInitialViewPair", "src/theia/sfm/hybrid_reconstruction_estimator.cc:OrderViewPairsByInitializationCriterion", "src/theia/sfm/hybrid_reconstruction_estimator.cc:InitializeCamerasWithKnownOrientation", "src/theia/sfm/hybrid_reconstruction_estimator.cc:InitializeCamerasFromTwoViewInfo"]}
{"id": "C155", "title": "Hybrid reconstruction keeps the orientations of the rotation estimation", "statement": "After hybrid reconstruction each view has the orientation it started with, which is that of the global rotation estimation if the view has one and was not estimated before, or else an orientation that a localization without a known orientation found. Bundle adjustment never changes an orientation, whatever the bundle adjustment options say, and the search for the initial pair changes none at all, whether it succeeds or fails.", "quantifier": "all scenes, view graphs, priors, options, known orientations, results of the robust estimators and of the nonlinear solver, thread schedules and iteration orders", "why_tests_cant": "A test sees one solver result on one scene; a solver that keeps the orientations by chance hides an option that was not set on one of the paths (partial, full, first pair, retries).", "anchors": ["src/theia/sfm/hybrid_reconstruction_estimator.cc:FullBundleAdjustment", "src/theia/sfm/hybrid_reconstruction_estimator.cc:PartialBundleAdjustment", "src/theia/sfm/hybrid_reconstruction_estimator.cc:LocalizeView", "src/theia/sfm/hybrid_reconstruction_estimator.cc:ChooseInitialViewPair"]}
{"id": "C156", "title": "A PLY file holds exactly the estimated points and cameras", "statement": "Writing a PLY file to a file that can be written puts in it each estimated track that is seen by at least the given number of views, once, with its point and color, and then the camera position of each estimated view, once, in green; nothing else. The vertex count in the header equals the number of vertex lines. The data are those of the given reconstruction, which is not changed, although tracks are removed from a copy.", "quantifier": "all reconstructions made with the API, minimum numbers of observations and iteration orders", "why_tests_cant": "A test writes one small scene; a wrong filter, a count that is taken before the filter, or data of a track changed by the removal of others only show for other scenes.", "anchors": ["src/theia/io/write_ply_file.cc:WritePlyFile", "src/theia/io/write_ply_file.cc:GatherTracks", "src/theia/io/write_ply_file.cc:GatherCameras"]}
{"id": "C157", "title": "Writing a PLY file returns true only if the file is complete", "statement": "If writing a PLY file returns true then the file is complete; if it returns false, the file was not touched.", "quantifier": "all reconstructions, and all points at which writing to the file can fail", "why_tests_cant": "A test would need a disk that becomes full at each possible line.", "anchors": ["src/theia/io/write_ply_file.cc:WritePlyFile"]}
{"id": "C158", "title": "An NVM file shows the reconstruction and its indices are right", "statement": "Writing an NVM file of a reconstruction with pinhole cameras lists each view once and each track once, after their counts; each point has exactly the observations of its track, each once and counted; each observation refers to its camera by the position of the camera in the file, and to its feature by a number that is unique in its view, is the same wherever that feature occurs, and is less than the number of features of the view. A camera of another model ends the program.", "quantifier": "all reconstructions made with the API and all iteration orders of the hash tables", "why_tests_cant": "The indices depend on the iteration orders of several hash tables, which are the same in every run of a test.", "anchors": ["src/theia/io/write_nvm_file.cc:WriteNVMFile"]}
{"id": "C159", "title": "COLMAP files show the estimated part and refer to each other correctly", "statement": "Writing COLMAP files of a reconstruction whose estimated views have pinhole cameras succeeds. The images are the estimated views, each once, with their pose, name, group and exactly their features of estimated tracks. There is one camera for each group of an image, with the intrinsics of all its views. The points are the estimated tracks that an estimated view sees or that no view sees. A point refers to an image and a position exactly if the feature at that position of that image refers to the point. If a file cannot be opened, or an estimated view has another camera model, the function returns false; in no case does it end the program.", "quantifier": "all reconstructions made with the API, all intrinsics and all iteration orders of the hash tables", "why_tests_cant": "The positions are found by a second iteration over a hash table, and groups that lose their views must vanish; a test sees one iteration order and one pattern of estimated views.", "anchors": ["src/theia/io/write_colmap_files.cc:WriteColmapFiles", "src/theia/io/write_colmap_files.cc:WritePointsFile", "src/theia/io/write_colmap_files.cc:WriteImagesFile"]}
{"id": "C160", "title": "COLMAP cameras have both distortion parameters", "statement": "The cameras file has both radial distortion parameters of each camera.", "quantifier": "all reconstructions made with the API and all intrinsics", "why_tests_cant": "Tests use cameras without distortion, for which the two parameters are equal.", "anchors": ["src/theia/io/write_colmap_files.cc:WriteCamerasFile"]}
{"id": "C161", "title": "Bundler files show the estimated part and their indices are right", "statement": "Writing Bundler files of a reconstruction whose estimated views have pinhole cameras succeeds if both files can be opened. The bundle file lists the cameras of the estimated views, each once, and the list file their names and set prior focal lengths in the same order. The points are the estimated tracks that an estimated view sees or that no view sees, each once. The counts at the beginning are the numbers of cameras and points. Each point has exactly the observations of its track by estimated views, each once and counted, and refers to each camera by its position in the files. An estimated view with another camera model ends the program.", "quantifier": "all reconstructions made with the API, all intrinsics and all iteration orders of the hash tables", "why_tests_cant": "The indices depend on iteration orders and on which views are estimated; a test sees one of them.", "anchors": ["src/theia/io/write_bundler_files.cc:WriteBundlerFiles"]}
{"id": "C162", "title": "Setting image sizes from images changes all views or none", "statement": "Populating image sizes and principal points returns false exactly if the image file of some view is missing, and has then changed nothing. Otherwise every view gets the size of its own image, every intrinsics object in use gets the center of an image taken with it, and nothing else changes.", "quantifier": "all reconstructions, intrinsics and file systems that do not change during the call, and all iteration orders", "why_tests_cant": "A test has one directory; that no view is changed depends on which file is missing and on the iteration order.", "anchors": ["src/theia/io/populate_image_sizes.cc:PopulateImageSizesAndPrincipalPoints"]}
{"id": "C163", "title": "Populated principal points are the centers of the images", "statement": "After populating image sizes and principal points has succeeded, the principal point of every view is the center of its own image.", "quantifier": "all reconstructions, including those whose views share intrinsics, and all image sizes", "why_tests_cant": "Tests would use images of one size.", "anchors": ["src/theia/io/populate_image_sizes.cc:PopulateImageSizesAndPrincipalPoints"]}
{"id": "C164", "title": "An imported NVM file has the content of the file", "statement": "After an NVM file has been imported, the views are its cameras and the tracks its points, with their names, data and numbers, all estimated; a view has a feature of a track exactly if the file has that measurement of the point by the camera.", "quantifier": "all parsed files and all reconstructions that they are imported into", "why_tests_cant": "Tests import one file into an empty reconstruction; measurements refer to cameras by position, which is assumed to be the id of the view.", "anchors": ["src/theia/io/import_nvm_file.cc:ImportNVMFile"]}
