-Q theories Verif
theories/Model/Num.v
theories/Model/Base.v
theories/Model/Matching.v
theories/Model/Filter.v
theories/Model/Tracker.v
theories/Spec/MatchingSpec.v
theories/Proofs/NumLaws.v
theories/Proofs/MatchingProofs.v
theories/Proofs/GreedyProofs.v
theories/Model/Float32.v
theories/Proofs/Float32Proofs.v
theories/Proofs/MatchingFloat32.v
theories/Props/C01_C04_Matching.v
theories/Proofs/TrackerFrame.v
theories/Model/Threads.v
theories/Spec/IdentitySpec.v
theories/Spec/ExampleTracker.v
theories/Proofs/Identity.v
theories/Proofs/IdentityProps.v
theories/Props/C09_C12_Identity.v
theories/Proofs/Effect.v
theories/Proofs/CallEffect.v
theories/Spec/CallSpec.v
theories/Spec/PhasesSpec.v
theories/Spec/ImageSpec.v
theories/Proofs/CallProps.v
theories/Proofs/CallTheorems.v
theories/Proofs/CallTheorems2.v
theories/Proofs/CallTheorems3.v
theories/Proofs/PhasesProofs.v
theories/Proofs/CallTheorems4.v
theories/Proofs/CallTheorems5.v
theories/Proofs/CallTheorems6.v
theories/Proofs/CallTheorems7.v
theories/Proofs/CallTheorems8.v
theories/Spec/ExampleVideo.v
theories/Props/C05_C07_Association.v
theories/Props/C12_C18_Lifecycle.v
theories/Proofs/PastProofs.v
theories/Props/C19_C24_Lifecycle.v
theories/Props/C27_C31_Calls.v
theories/Spec/DistanceSpec.v
theories/Proofs/DistanceProofs.v
theories/Props/C08_Vectorized.v
theories/Spec/PointSpec.v
theories/Proofs/PointProofs.v
theories/Proofs/FilterTracker.v
theories/Proofs/RingNums.v
theories/Model/KalmanMatrix.v
theories/Spec/KalmanSpec.v
theories/Proofs/MatrixProofs.v
theories/Proofs/KalmanProofs.v
theories/Proofs/KalmanTheorems.v
theories/Spec/ExamplePoints.v
theories/Spec/FullReplaySpec.v
theories/Spec/CounterSpec.v
theories/Proofs/CounterLaw.v
theories/Spec/ThreadSpec.v
theories/Proofs/ThreadProofs.v
theories/Proofs/FullReplay.v
theories/Proofs/UnseenLaw.v
theories/Props/C25_C37_Points.v
theories/Props/C32_C36_Kalman.v
theories/Model/Distances.v
theories/Spec/BuiltinSpec.v
theories/Proofs/BuiltinProofs.v
theories/Proofs/BuiltinProofs2.v
theories/Props/C46_C50_Distances.v
theories/Model/CameraMotion.v
theories/Model/Images.v
theories/Model/Strings.v
theories/Model/Metrics.v
theories/Model/Color.v
theories/Model/Drawing.v
theories/Spec/CameraSpec.v
theories/Spec/LowPointSpec.v
theories/Proofs/CameraProofs.v
theories/Proofs/HomographyProofs.v
theories/Proofs/LowPointProofs.v
theories/Spec/ExampleCamera.v
theories/Proofs/CameraExamples.v
theories/Proofs/AbsoluteProofs.v
theories/Props/C38_C43_Camera.v
theories/Proofs/Simulation.v
theories/Proofs/Simulation2.v
theories/Spec/IsolationSpec.v
theories/Proofs/IsolationProofs.v
theories/Spec/MovingSpec.v
theories/Proofs/MovingProofs.v
theories/Proofs/MovingExamples.v
theories/Props/C29_C44_Runs.v
theories/Proofs/PastLaw.v
theories/Proofs/ReplayProofs.v
theories/Proofs/ImageProofs.v
theories/Spec/MetricsSpec.v
theories/Spec/DrawingSpec.v
theories/Proofs/MetricsProofs.v
theories/Proofs/MetricsMore.v
theories/Proofs/ColorProofs.v
theories/Proofs/DrawingProofs.v
theories/Proofs/DeprecatedDrawing.v
theories/Props/C51_C56_Updates.v
theories/Props/C57_C63_Files.v
theories/Props/C64_C72_Drawing.v
theories/Model/Video.v
theories/Model/Grid.v
theories/Spec/VideoSpec.v
theories/Spec/GridSpec.v
theories/Spec/TableSpec.v
theories/Proofs/VideoProofs.v
theories/Proofs/VideoPaths.v
theories/Proofs/VideoFrames.v
theories/Proofs/VideoTheorems.v
theories/Proofs/TableProofs.v
theories/Proofs/GridProofs.v
theories/Proofs/VideoIter.v
theories/Props/C73_C80_Video.v
theories/Props/C81_C83_Utils.v
theories/Spec/LabelSpec.v
theories/Proofs/GreedySub.v
theories/Proofs/LabelSim.v
theories/Proofs/LabelPhase.v
theories/Proofs/LabelVector.v
theories/Proofs/LabelMain.v
theories/Props/C84_Labels.v
theories/Proofs/FollowProofs.v
theories/Spec/FollowSpec.v
theories/Proofs/FollowFilters.v
theories/Proofs/FollowTracker.v
theories/Props/C85_Follow.v
theories/Spec/ProgressSpec.v
theories/Proofs/Progress.v
theories/Proofs/ProgressBuiltin.v
theories/Props/C86_Progress.v
theories/Spec/GroundTruthSpec.v
theories/Proofs/GroundTruth.v
theories/Props/C87_GroundTruth.v
theories/Spec/ColorSpec.v
theories/Spec/SceneSpec.v
theories/Proofs/SceneDistances.v
theories/Proofs/SceneProofs.v
theories/Proofs/SceneFilters.v
theories/Props/C88_Scene.v
theories/Props/C89_Deprecated.v
theories/Spec/MemorySpec.v
theories/Proofs/MemoryProofs.v
theories/Props/C90_Memory.v
theories/Spec/NoisySpec.v
theories/Proofs/NoisyProofs.v
theories/Proofs/NoisyTracker.v
theories/Proofs/NoisyScene.v
theories/Proofs/NoisyFilters.v
theories/Props/C91_Noisy.v
theories/Spec/OrderSpec.v
theories/Proofs/OrderLocal.v
theories/Proofs/OrderSeq.v
theories/Proofs/OrderTable.v
theories/Proofs/OrderMatch.v
theories/Proofs/OrderPhase.v
theories/Proofs/OrderMain.v
theories/Proofs/OrderDist.v
theories/Props/C92_Order.v
theories/Spec/UnitSpec.v
theories/Proofs/UnitLists.v
theories/Proofs/UnitSim.v
theories/Proofs/UnitRun.v
theories/Proofs/UnitFilters.v
theories/Proofs/UnitDistances.v
theories/Proofs/UnitZoom.v
theories/Props/C93_Units.v
theories/Spec/KalmanUseSpec.v
theories/Proofs/KalmanMore.v
theories/Model/Arrays.v
theories/Spec/ArraySpec.v
theories/Proofs/ArrayProofs.v
theories/Props/C94_Arrays.v
theories/Model/Report.v
theories/Spec/ReportSpec.v
theories/Proofs/ReportProofs.v
theories/Proofs/ReportMore.v
theories/Props/C95_Report.v
theories/Spec/CountSpec.v
theories/Proofs/CountProofs.v
theories/Spec/GapSpec.v
theories/Proofs/GapProofs.v
theories/Proofs/GapFilters.v
theories/Proofs/GapDiverges.v
theories/Props/C96_Gaps.v
theories/Spec/OcclusionSpec.v
theories/Proofs/OcclusionProofs.v
theories/Proofs/OcclusionFilters.v
theories/Props/C97_Occlusion.v
theories/Spec/ReturnSpec.v
theories/Proofs/ReturnProofs.v
theories/Proofs/ReturnEmbeddings.v
theories/Props/C98_Return.v
theories/Spec/ParamSpec.v
theories/Proofs/ParamSim.v
theories/Proofs/ParamDistances.v
theories/Props/C99_Parameters.v
theories/Spec/MonotoneSpec.v
theories/Proofs/MonotoneSim.v
theories/Proofs/MonotoneDistances.v
theories/Props/C100_Monotone.v
theories/Spec/Float32Spec.v
theories/Proofs/Float32Nearest.v
theories/Proofs/Float32Store.v
theories/Props/C101_Float32.v
theories/Spec/GetterSpec.v
theories/Proofs/GetterProofs.v
theories/Props/C102_Getters.v
theories/Spec/WeightSpec.v
theories/Proofs/WeightProofs.v
theories/Props/C103_Weights.v
theories/Spec/GroupSpec.v
theories/Proofs/GroupMain.v
theories/Props/C104_Groups.v
theories/Spec/QualitySpec.v
theories/Proofs/GreedyQuality.v
theories/Props/C105_Quality.v
theories/Spec/NearSpec.v
theories/Proofs/NearSim.v
theories/Proofs/NearProofs.v
theories/Spec/NearExample.v
theories/Proofs/NearExamples.v
theories/Props/C106_Errors.v
theories/Spec/ResultSpec.v
theories/Proofs/ResultProofs.v
theories/Proofs/ResultExamples.v
theories/Props/C107_Results.v
theories/Model/FlowDrawing.v
theories/Spec/FlowSpec.v
theories/Proofs/FlowProofs.v
theories/Props/C108_Flow.v
theories/Model/Repr.v
theories/Spec/ReprSpec.v
theories/Proofs/ReprProofs.v
theories/Props/C109_Text.v
theories/Model/BoxCheck.v
theories/Proofs/IouMetric.v
theories/Props/C110_IouMetric.v
theories/Spec/CoordSpec.v
theories/Proofs/CoordLists.v
theories/Proofs/CoordSim.v
theories/Proofs/CoordRun.v
theories/Proofs/CoordFilters.v
theories/Proofs/CoordDistances.v
theories/Props/C111_PointOrder.v
theories/Model/GridCache.v
theories/Spec/GridCacheSpec.v
theories/Proofs/GridCacheProofs.v
theories/Props/C112_GridCache.v
theories/Spec/FilmSpec.v
theories/Proofs/FilmProofs.v
theories/Proofs/FilmCameras.v
theories/Props/C113_TwoCameras.v
theories/Model/PathsDrawing.v
theories/Spec/PathsSpec.v
theories/Proofs/PathsProofs.v
theories/Props/C114_Paths.v
theories/Model/PathsFrames.v
theories/Spec/PathsFramesSpec.v
theories/Proofs/PathsFramesProofs.v
theories/Props/C115_PathsFrames.v
