-Q theories Verif
theories/Base.v
theories/RoundQ.v
theories/QuantModel.v
theories/RoundQFacts.v
theories/QuantProofs.v
theories/QuantSpec.v
theories/QuantLemmas.v
theories/SearchModel.v
theories/SearchProofs.v
theories/QuantProps.v
theories/SearchProps.v
theories/LutModel.v
theories/LutProofs.v
theories/LutProps.v
theories/KLModel.v
theories/KLProofs.v
theories/KLReal.v
theories/KLProps.v
theories/CollectModel.v
theories/CollectSpec.v
theories/CollectProofs.v
theories/CollectProps.v
theories/HessianModel.v
theories/HessianProofs.v
theories/HessianProps.v
theories/MaxCutModel.v
theories/MaxCutSpec.v
theories/MaxCutSearch.v
theories/MaxCutLoop.v
theories/MaxCutProofs.v
theories/MaxCutDriver.v
theories/MaxCutProps.v
theories/MPModel.v
theories/MPSpec.v
theories/MPProofs.v
theories/RULemmas.v
theories/RUProps.v
theories/MPSearchModel.v
theories/MPSearchSpec.v
theories/MPSearchProofs.v
theories/MPSearchLemmas.v
theories/MPSearchProps.v
theories/RefineModel.v
theories/RefineProps.v
theories/SDict.v
theories/FilterModel.v
theories/FilterSpec.v
theories/FilterProps.v
theories/PlatModel.v
theories/PlatSpec.v
theories/PlatProofs.v
theories/PlatProps.v
theories/LookupModel.v
theories/LookupSpec.v
theories/LookupProps.v
theories/CandModel.v
theories/CandSpec.v
theories/CandProps.v
theories/ManualModel.v
theories/ManualSpec.v
theories/ManualProps.v
theories/SetterModel.v
theories/SetterSpec.v
theories/SetterProps.v
theories/ImmutModel.v
theories/ImmutProps.v
theories/PruneModel.v
theories/PruneSpec.v
theories/PruneProofs.v
theories/PruneProps.v
theories/PruneMemModel.v
theories/PruneMemSpec.v
theories/PruneMemProofs.v
theories/PruneMemProps.v
theories/PruneBuildModel.v
theories/PruneBuildSpec.v
theories/PruneBuildProofs.v
theories/PruneBuildProps.v
theories/GraphModel.v
theories/GraphSpec.v
theories/GraphProofs.v
theories/GraphProps.v
theories/GraphFindProps.v
theories/FuseModel.v
theories/FuseSpec.v
theories/FuseProofs.v
theories/FuseProps.v
theories/FuseGenProofs.v
theories/FuseGenProps.v
theories/FuserProofs.v
theories/FuserProps.v
theories/FuserAllProps.v
theories/Nd.v
theories/LinNode.v
theories/LinSpec.v
theories/BnModel.v
theories/BnSpec.v
theories/LinProofs.v
theories/BnProofs.v
theories/BnProps.v
theories/BnExProps.v
theories/MergeModel.v
theories/MergeSpec.v
theories/MergeProps.v
theories/LinGraph.v
theories/BnGraphProps.v
theories/JoinModel.v
theories/JoinSpec.v
theories/JoinProps.v
theories/CollapseModel.v
theories/CollapseSpec.v
theories/CollapseProofs.v
theories/CollapseProps.v
theories/CollapseGraphProps.v
theories/CollapseExProps.v
theories/EqualizeModel.v
theories/EqualizeSpec.v
theories/EqualizeProps.v
theories/EqualizeGraphProps.v
theories/EqualizeExProps.v
theories/SncModel.v
theories/SncSpec.v
theories/SncProofs.v
theories/SncProps.v
theories/SncGraphProofs.v
theories/SncGraphProps.v
theories/SncShiftModel.v
theories/SncShiftProps.v
theories/SncExProps.v
theories/BiasModel.v
theories/BiasSpec.v
theories/BiasProofs.v
theories/BiasProps.v
theories/AnnealModel.v
theories/AnnealProps.v
theories/OptimModel.v
theories/OptimProps.v
theories/EditModel.v
theories/EditSpec.v
theories/EditProofs.v
theories/EditTwice.v
theories/EditProps.v
theories/DistModel.v
theories/DistSpec.v
theories/DistProofs.v
theories/DistMore.v
theories/DistProps.v
theories/DistExProps.v
theories/SensModel.v
theories/SensSpec.v
theories/SensProofs.v
theories/SensQProofs.v
theories/SensProps.v
theories/MetricModel.v
theories/MetricSpec.v
theories/MetricProofs.v
theories/MetricProps.v
theories/ReconModel.v
theories/ReconSpec.v
theories/ReconProofs.v
theories/ReconMain.v
theories/ReconMore.v
theories/ReconProps.v
theories/ReconRefuseProps.v
theories/RescaleModel.v
theories/RescaleSpec.v
theories/RescaleProps.v
theories/RescaleExProps.v
theories/DecompModel.v
theories/DecompSpec.v
theories/DecompProps.v
theories/TrainQModel.v
theories/TrainQSpec.v
theories/TrainQProofs.v
theories/SoftRoundProps.v
theories/TrainExportProps.v
theories/TrainQExProps.v
theories/FxModel.v
theories/FxSpec.v
theories/FxProofs.v
theories/FxProps.v
theories/FxRunProps.v
theories/FxExProps.v
theories/DeadModel.v
theories/DeadSpec.v
theories/DeadProofs.v
theories/DeadProps.v
theories/DeadReadProps.v
theories/DeadExProps.v
theories/ActParamModel.v
theories/ActParamSpec.v
theories/ActParamProofs.v
theories/ActParamZProofs.v
theories/ActParamProps.v
theories/ActParamExProps.v
theories/CalcModel.v
theories/CalcSpec.v
theories/CalcProps.v
theories/CalcExProps.v
theories/StatsModel.v
theories/StatsSpec.v
theories/StatsProofs.v
theories/StatsHistProofs.v
theories/StatsProps.v
theories/StatsExProps.v
theories/FuncSubModel.v
theories/FuncSubSpec.v
theories/FuncSubProofs.v
theories/FuncSubAttProofs.v
theories/FuncSubProps.v
theories/FuncSubExProps.v
theories/MatMulModel.v
theories/MatMulSpec.v
theories/MatMulProofs.v
theories/MatMulProps.v
theories/MhaModel.v
theories/MhaSpec.v
theories/MhaProofs.v
theories/MhaProps.v
theories/FxConstProps.v
theories/ActBiasModel.v
theories/ActBiasSpec.v
theories/ActBiasProofs.v
theories/ActBiasProps.v
theories/ActBiasExProps.v
theories/ShapeModel.v
theories/ShapeSpec.v
theories/ShapeProofs.v
theories/ShapeProps.v
theories/ShapeExProps.v
theories/LfhModel.v
theories/LfhSpec.v
theories/LfhProofs.v
theories/LfhProps.v
theories/LfhExProps.v
theories/FakeQModel.v
theories/FakeQSpec.v
theories/FakeQProofs.v
theories/FakeQProps.v
theories/FakeQExProps.v
theories/KReadModel.v
theories/KReadSpec.v
theories/KReadMergeProofs.v
theories/KReadProofs.v
theories/KReadNestProofs.v
theories/KReadProps.v
theories/KReadExProps.v
theories/KCallModel.v
theories/KCallSpec.v
theories/KCallProofs.v
theories/KCallFnProofs.v
theories/KCallProps.v
theories/KCallExProps.v
theories/KBuildModel.v
theories/KBuildSpec.v
theories/KBuildProofs.v
theories/KBuildReadProofs.v
theories/KBuildProps.v
theories/KBuildExProps.v
theories/MpEvalModel.v
theories/MpEvalSpec.v
theories/MpEvalProofs.v
theories/MpEvalBuildProofs.v
theories/MpEvalProps.v
theories/MpEvalExProps.v
theories/HessScoreModel.v
theories/HessScoreSpec.v
theories/HessScoreProofs.v
theories/HessScoreRunProofs.v
theories/HessScoreImageProofs.v
theories/HessScoreProps.v
theories/HessScoreExProps.v
theories/FnLayModel.v
theories/FnLaySpec.v
theories/FnLayProofs.v
theories/FnLayGraphProofs.v
theories/FnLayProps.v
theories/FnLayExProps.v
theories/KMhaModel.v
theories/KMhaSpec.v
theories/KMhaProofs.v
theories/KMhaRunProofs.v
theories/KMhaMainProofs.v
theories/KMhaProps.v
theories/KMhaExProps.v
theories/ExportModel.v
theories/ExportSpec.v
theories/ExportProofs.v
theories/ExportNodeProofs.v
theories/ExportProps.v
theories/ExportExProps.v
theories/SchedModel.v
theories/SchedSpec.v
theories/SchedProofs.v
theories/SchedProps.v
theories/GenModel.v
theories/GenSpec.v
theories/GenProofs.v
theories/GenProps.v
theories/GenStatModel.v
theories/GenStatSpec.v
theories/GenStatProofs.v
theories/GenStatProps.v
theories/GptqLossModel.v
theories/GptqLossSpec.v
theories/GptqLossProofs.v
theories/GptqLossProps.v
theories/GptqLossExProps.v
theories/TrainDataModel.v
theories/TrainDataSpec.v
theories/TrainDataProofs.v
theories/TrainDataProps.v
theories/GTrainModel.v
theories/GTrainSpec.v
theories/GTrainProofs.v
theories/GTrainProps.v
theories/Int8Model.v
theories/Int8Spec.v
theories/Int8Props.v
theories/ConcatModel.v
theories/ConcatSpec.v
theories/ConcatProofs.v
theories/ConcatProps.v
theories/XqSimModel.v
theories/XqSimSpec.v
theories/XqSimProofs.v
theories/XqSimProps.v
theories/FnConvModel.v
theories/FnConvSpec.v
theories/FnConvProofs.v
theories/FnConvProps.v
theories/SmcModel.v
theories/SmcSpec.v
theories/SmcProofs.v
theories/SmcProps.v
theories/OutLossModel.v
theories/OutLossSpec.v
theories/OutLossProofs.v
theories/OutLossMore.v
theories/OutLossProps.v
theories/QatModel.v
theories/QatSpec.v
theories/QatProofs.v
theories/QatProps.v
theories/PriorModel.v
theories/PriorSpec.v
theories/PriorProofs.v
theories/PriorProps.v
theories/SaveModel.v
theories/SaveSpec.v
theories/SaveProofs.v
theories/SaveProps.v
theories/PrepModel.v
theories/PrepSpec.v
theories/PrepProofs.v
theories/PrepProps.v
theories/RunnerModel.v
theories/RunnerSpec.v
theories/RunnerProofs.v
theories/RunnerProps.v
theories/TabModel.v
theories/TabSpec.v
theories/TabProofs.v
theories/TabProps.v
theories/SerModel.v
theories/SerSpec.v
theories/SerProofs.v
theories/SerProps.v
theories/PruneRunModel.v
theories/PruneRunProps.v
theories/MPSearchedProps.v
theories/MomentProps.v
theories/GaussProofs.v
theories/MomentLimProps.v
theories/ImxModel.v
theories/ImxProps.v
theories/TpcsModel.v
theories/TpcsProps.v
