-Q theories Verif
theories/Alignment_Model.v
theories/Alignment_Proofs.v
theories/Alignment_Props.v
theories/Alignment_Recon.v
theories/Alignment_Spec.v
theories/Alignment_Svd.v
theories/Base.v
theories/BundleAdjust_Model.v
theories/BundleAdjust_Proofs.v
theories/BundleAdjust_Props.v
theories/BundleAdjust_Result.v
theories/BundleAdjust_Setup.v
theories/BundleAdjust_Spec.v
theories/BundlerFile_Model.v
theories/BundlerFile_Props.v
theories/BundlerFile_Spec.v
theories/Calibration_Model.v
theories/Calibration_Numbers.v
theories/Calibration_Parse.v
theories/Calibration_Props.v
theories/Calibration_Spec.v
theories/Calibration_Text.v
theories/Camera_Lens.v
theories/Camera_Matrix.v
theories/Camera_Model.v
theories/Camera_Proofs.v
theories/Camera_Props.v
theories/Camera_Spec.v
theories/ClosedForm_Model.v
theories/ClosedForm_Proofs.v
theories/ClosedForm_Props.v
theories/ClosedForm_Spec.v
theories/ColmapFile_Model.v
theories/ColmapFile_Proofs.v
theories/ColmapFile_Props.v
theories/ColmapFile_Spec.v
theories/Colorize_Model.v
theories/Colorize_Proofs.v
theories/Colorize_Props.v
theories/Colorize_Spec.v
theories/ConnectedComponents_Model.v
theories/ConnectedComponents_Proofs.v
theories/ConnectedComponents_Props.v
theories/ConnectedComponents_Spec.v
theories/Epipolar_Focal.v
theories/Epipolar_Focal2.v
theories/Epipolar_Fund.v
theories/Epipolar_Model.v
theories/Epipolar_Pose.v
theories/Epipolar_Proofs.v
theories/Epipolar_Props.v
theories/Epipolar_Spec.v
theories/FeatureDb_Model.v
theories/FeatureDb_Proofs.v
theories/FeatureDb_Props.v
theories/FeatureExtraction_Model.v
theories/FeatureExtraction_Props.v
theories/FeatureExtraction_Run.v
theories/FeatureExtraction_Select.v
theories/FeatureExtraction_Spec.v
theories/FeatureExtraction_Tasks.v
theories/FeatureExtraction_Top.v
theories/FeatureMatcher_Model.v
theories/FeatureMatcher_Proofs.v
theories/FeatureMatcher_Props.v
theories/GaussJordan_Model.v
theories/GaussJordan_Proofs.v
theories/GaussJordan_Props.v
theories/GaussJordan_Spec.v
theories/GeometricVerificationCases_Props.v
theories/GeometricVerification_Model.v
theories/GeometricVerification_Proofs.v
theories/GeometricVerification_Props.v
theories/GeometricVerification_Spec.v
theories/GlobalPoses_Props.v
theories/GlobalReconstructionCases_Props.v
theories/GlobalReconstruction_Graph.v
theories/GlobalReconstruction_Model.v
theories/GlobalReconstruction_Props.v
theories/GlobalReconstruction_Rounds.v
theories/GlobalReconstruction_Spec.v
theories/GuidedMatcherCases_Props.v
theories/GuidedMatcher_Model.v
theories/GuidedMatcher_Proofs.v
theories/GuidedMatcher_Props.v
theories/GuidedMatcher_Spec.v
theories/Histogram_Model.v
theories/Histogram_Proofs.v
theories/Histogram_Props.v
theories/Histogram_Spec.v
theories/HybridOrient_Props.v
theories/Hybrid_Model.v
theories/Hybrid_Orient.v
theories/Hybrid_Proofs.v
theories/Hybrid_Props.v
theories/Hybrid_Spec.v
theories/ImageSizes_Model.v
theories/ImageSizes_Props.v
theories/ImageSizes_Spec.v
theories/IncrementalCases_Props.v
theories/Incremental_Model.v
theories/Incremental_Proofs.v
theories/Incremental_Props.v
theories/Incremental_Spec.v
theories/Incremental_Steps.v
theories/Incremental_Under.v
theories/LRUCache_Model.v
theories/LRUCache_Proofs.v
theories/LRUCache_Props.v
theories/LRUCache_Spec.v
theories/LeastSquares_Model.v
theories/LeastSquares_Proofs.v
theories/Localize_Model.v
theories/Localize_Proofs.v
theories/Localize_Props.v
theories/Localize_Spec.v
theories/Matching_Model.v
theories/Matching_Proofs.v
theories/Matching_Props.v
theories/Matching_Spec.v
theories/MinSpanningTree_Model.v
theories/MinSpanningTree_Proofs.v
theories/MinSpanningTree_Props.v
theories/MinSpanningTree_Spec.v
theories/Mutex_Model.v
theories/Mutex_Proofs.v
theories/NvmFile_Model.v
theories/NvmFile_Props.v
theories/NvmFile_Spec.v
theories/NvmImport_Model.v
theories/NvmImport_Props.v
theories/NvmImport_Spec.v
theories/PlyFile_Model.v
theories/PlyFile_Props.v
theories/PlyFile_Spec.v
theories/Polynomial_Model.v
theories/Polynomial_Proofs.v
theories/Polynomial_Props.v
theories/Polynomial_Spec.v
theories/PriorityQueue_Model.v
theories/PriorityQueue_Proofs.v
theories/PriorityQueue_Props.v
theories/PriorityQueue_Spec.v
theories/Priors_Model.v
theories/Priors_Proofs.v
theories/Priors_Props.v
theories/Priors_Spec.v
theories/Quality_Model.v
theories/Quality_Proofs.v
theories/Quality_Props.v
theories/Quality_Spec.v
theories/Ransac_Confidence.v
theories/Ransac_Model.v
theories/Ransac_Proofs.v
theories/Ransac_Props.v
theories/Ransac_Spec.v
theories/ReconstructionBuilder_Calls.v
theories/ReconstructionBuilder_Images.v
theories/ReconstructionBuilder_Model.v
theories/ReconstructionBuilder_Proofs.v
theories/ReconstructionBuilder_Props.v
theories/ReconstructionBuilder_Rounds.v
theories/ReconstructionBuilder_Spec.v
theories/Reconstruction_Lemmas.v
theories/Reconstruction_Model.v
theories/Reconstruction_Proofs.v
theories/Reconstruction_Props.v
theories/Reconstruction_Spec.v
theories/Reservoir_Model.v
theories/Reservoir_Proofs.v
theories/Reservoir_Props.v
theories/Reservoir_Spec.v
theories/RocksDb_Model.v
theories/RocksDb_Proofs.v
theories/RocksDb_Props.v
theories/RocksDb_Spec.v
theories/RotationGraph_Model.v
theories/RotationGraph_Proofs.v
theories/RotationGraph_Props.v
theories/RotationGraph_Spec.v
theories/RotationGraph_Tree.v
theories/Sampling_Model.v
theories/Sampling_Proofs.v
theories/Sampling_Props.v
theories/Sampling_Spec.v
theories/SfmQueries_Model.v
theories/SfmQueries_Proofs.v
theories/SfmQueries_Props.v
theories/SfmQueries_Spec.v
theories/SiftFile_Model.v
theories/SiftFile_Proofs.v
theories/SiftFile_Props.v
theories/SiftFile_Spec.v
theories/ThreadPool_Model.v
theories/ThreadPool_Proofs.v
theories/ThreadPool_Props.v
theories/TrackBuilder_Model.v
theories/TrackBuilder_Proofs.v
theories/TrackBuilder_Props.v
theories/TrackBuilder_Spec.v
theories/TrackEstimator_Model.v
theories/TrackEstimator_Proofs.v
theories/TrackEstimator_Props.v
theories/TrackEstimator_Spec.v
theories/TrackSelection_Model.v
theories/TrackSelection_Proofs.v
theories/TrackSelection_Props.v
theories/TrackSelection_Spec.v
theories/TranslationFilter_Model.v
theories/TranslationFilter_More.v
theories/TranslationFilter_Proofs.v
theories/TranslationFilter_Props.v
theories/TranslationFilter_Spec.v
theories/Triangulation_Model.v
theories/Triangulation_More.v
theories/Triangulation_NView.v
theories/Triangulation_Proofs.v
theories/Triangulation_Props.v
theories/Triangulation_Spec.v
theories/TripletExtractor_Model.v
theories/TripletExtractor_Proofs.v
theories/TripletExtractor_Props.v
theories/TripletExtractor_Spec.v
theories/ViewGraph_Model.v
theories/ViewGraph_Proofs.v
theories/ViewGraph_Props.v
theories/ViewGraph_Spec.v
theories/VisibilityPyramid_Model.v
theories/VisibilityPyramid_Proofs.v
theories/VisibilityPyramid_Props.v
theories/VisibilityPyramid_Spec.v
