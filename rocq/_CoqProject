-Q theories Verif
theories/Base.v
theories/BaseFacts.v
theories/IndexAllocatorModel.v
theories/IndexAllocatorSpec.v
theories/IndexAllocatorProofs.v
theories/IndexAllocatorDefrag.v
theories/IndexAllocatorWorld.v
theories/IndexAllocatorLemmas.v
theories/IndexAllocatorProps.v
theories/ProcessorModel.v
theories/ProcessorSpec.v
theories/ProcessorProofs.v
theories/ProcessorMove.v
theories/ProcessorSys.v
theories/ProcessorLemmas.v
theories/ProcessorOwn.v
theories/ProcessorProps.v
theories/EngineModel.v
theories/EngineProofs.v
theories/EngineProps.v
theories/RBase.v
theories/RangeModel.v
theories/RangeProofs.v
theories/RangeProps.v
theories/VecModel.v
theories/AngleModel.v
theories/AngleProofs.v
theories/AngleProps.v
theories/FloatModel.v
theories/FloatProofs.v
theories/FloatProps.v
theories/CurveModel.v
theories/CurveProofs.v
theories/CurveProps.v
theories/CurveUtilModel.v
theories/DualCubicModel.v
theories/DualCubicProps.v
theories/Glue.v
theories/EaseProofs.v
theories/EaseProps.v
theories/SpringProofs.v
theories/SpringProps.v
theories/CompactSplineModel.v
theories/CompactSplineSpec.v
theories/CompactSplineProofs.v
theories/CompactSplineAdd.v
theories/CompactSplineProps.v
theories/CompactSplineSizeProps.v
theories/CompactSplineIndex.v
theories/CompactSplineEvalProps.v
theories/EvaluatorModel.v
theories/EvaluatorSpec.v
theories/EvaluatorProofs.v
theories/EvaluatorPlay.v
theories/EvaluatorProps.v
theories/EvaluatorOpProps.v
theories/EvaluatorBlendProps.v
theories/EvaluatorUpdateProps.v
theories/SplinePoolModel.v
theories/SplinePoolProofs.v
theories/SplinePoolProps.v
theories/SplineTargetModel.v
theories/SplineTargetProofs.v
theories/SplineTargetProps.v
theories/OvershootModel.v
theories/OvershootProps.v
theories/SimpleModel.v
theories/SimpleProps.v
theories/EaseProcProps.v
theories/SpringProcProps.v
theories/MathfuModel.v
theories/MatrixModel.v
theories/MatrixProps.v
theories/SqtProps.v
theories/RigModel.v
theories/RigProps.v
theories/BlendProps.v
theories/AnimTableModel.v
theories/AnimTableProps.v
theories/DefiningProps.v
theories/AnimTableExamples.v
theories/SplineUtilModel.v
theories/SplineUtilProps.v
theories/KeyframeModel.v
theories/KeyframeSpec.v
theories/KeyframeSplines.v
theories/KeyframeProofs.v
theories/KeyframeProps.v
theories/KeyframeCurveProps.v
theories/KeyframeOpProps.v
theories/AnimDataModel.v
theories/AnimSpec.v
theories/AnimCurveProps.v
theories/AnimPruneProps.v
theories/AnimTimeProps.v
theories/FlatAnimModel.v
theories/FlatAnimProps.v
theories/FlatLoadProps.v
theories/AnimChannelsModel.v
theories/AnimSumProps.v
theories/AnimChannelsProps.v
theories/AnimChannelsCases.v
theories/TargetModel.v
theories/TargetProps.v
theories/RangeQueryProps.v
theories/EvaluatorCommandProps.v
theories/SplineQueryModel.v
theories/SplineQueryProps.v
theories/StoreProps.v
theories/FreshProps.v
theories/SpringShapeProps.v
theories/CommandLineModel.v
theories/CommandLineProps.v
theories/FbxModel.v
theories/FbxProps.v
theories/FbxOrderProps.v
theories/FbxCurveProps.v
theories/OpStepProps.v
theories/DescribeModel.v
theories/DescribeProps.v
theories/RigInitProps.v
theories/RateModel.v
theories/RateProps.v
theories/ResampleModel.v
theories/ResampleProps.v
theories/AnimStableProps.v
theories/PipelineModel.v
theories/PipelineProps.v
theories/PipelineRunProps.v
theories/PipelineCases.v
theories/CloneModel.v
theories/CloneProps.v
theories/SplineClassModel.v
theories/TwinProps.v
theories/PlayProps.v
theories/RigPlayProps.v
theories/DetailProps.v
theories/ExportNameProps.v
theories/VectorMotivatorModel.v
theories/VectorMotivatorProps.v
theories/CloneExistProps.v
theories/ExportPlayProps.v
theories/FadeProofs.v
theories/FadeProps.v
theories/RigFadeProps.v
theories/VectorRangeProps.v
theories/SceneGatherProps.v
theories/ScenePlayProps.v
theories/TimePlayProps.v
theories/WorldModel.v
theories/WorldProps.v
theories/WorldPlayProps.v
theories/WorldCases.v
theories/RoundModel.v
theories/RoundProofs.v
theories/RoundAngleModel.v
theories/RoundAngleProps.v
theories/RoundRangeModel.v
theories/RoundRangeProps.v
theories/RoundNodeModel.v
theories/RoundNodeProps.v
theories/RoundOvershootModel.v
theories/RoundOvershootProps.v
theories/RoundCubicModel.v
theories/RoundCubicProps.v
theories/RoundEvaluatorModel.v
theories/RoundEvaluatorProofs.v
theories/RoundEvaluatorProps.v
theories/RoundDriftProofs.v
theories/RoundDriftProps.v
theories/ChildModel.v
theories/ChildProps.v
theories/DebugProps.v
theories/RoundBlendModel.v
theories/RoundBlendProps.v
theories/InitFileModel.v
theories/InitFileProps.v
theories/NeonModel.v
theories/NeonProofs.v
theories/NeonProps.v
theories/EdgeProps.v
theories/RoundWeightModel.v
theories/RoundWeightProps.v
theories/RigLimitProps.v
theories/Cases.v
theories/Cases2.v
theories/BenchmarkModel.v
theories/BenchmarkProps.v
theories/TwitchModel.v
theories/TwitchProps.v
theories/ScenePoseProps.v
theories/LinearModel.v
theories/LinearProps.v
theories/RoundLinearModel.v
theories/RoundLinearProps.v
theories/AnimBuildProps.v
theories/GraphModel.v
theories/GraphProps.v
theories/DefiningToolModel.v
theories/DefiningToolProps.v
theories/BenchSplineModel.v
theories/BenchSplineProps.v
