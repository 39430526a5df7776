-Q theories Verif
theories/Base.v
theories/NetModel.v
theories/NetSpec.v
theories/NetProofs.v
theories/NetProps.v
theories/CiuModel.v
theories/CiuSpec.v
theories/CiuProofs.v
theories/CiuFloat.v
theories/CiuProps.v
theories/CiuShareFloat.v
theories/CiuShareProofs.v
theories/CiuShareProps.v
theories/EventsModel.v
theories/EventsSpec.v
theories/EventsProofs.v
theories/EventsProps.v
theories/PlanModel.v
theories/PlanSpec.v
theories/PlanProofs.v
theories/PlanProps.v
theories/BcastModel.v
theories/BcastSpec.v
theories/BcastProofs.v
theories/BcastProps.v
theories/DemuxModel.v
theories/DemuxSpec.v
theories/DemuxProofs.v
theories/DemuxProps.v
theories/PoolModel.v
theories/PoolSpec.v
theories/PoolProofs.v
theories/PoolProps.v
theories/TaskModel.v
theories/TaskSpec.v
theories/TaskProofs.v
theories/TaskProps.v
theories/JoinModel.v
theories/JoinSpec.v
theories/JoinProofs.v
theories/JoinProps.v
theories/AggModel.v
theories/AggSpec.v
theories/AggProofs.v
theories/AggProps.v
theories/PlannerModel.v
theories/PlannerSpec.v
theories/PlannerProofs.v
theories/PlannerProps.v
theories/ExecModel.v
theories/ExecSpec.v
theories/ExecProofs.v
theories/ExecPasses.v
theories/ExecEnd.v
theories/ExecOps.v
theories/ExecProps.v
theories/RunSpec.v
theories/RunProofs.v
theories/RunProps.v
theories/TotalSpec.v
theories/TotalProofs.v
theories/TotalFloat.v
theories/TotalEnd.v
theories/TotalProps.v
theories/FetchSpec.v
theories/FetchProofs.v
theories/FetchEnd.v
theories/FetchSort.v
theories/FetchMore.v
theories/FetchProps.v
theories/FeedModel.v
theories/FeedSpec.v
theories/FeedProofs.v
theories/FeedProps.v
theories/HeaderModel.v
theories/HeaderSpec.v
theories/HeaderProofs.v
theories/HeaderProps.v
theories/SamplerModel.v
theories/SamplerSpec.v
theories/SamplerProofs.v
theories/SamplerProps.v
theories/DynModel.v
theories/DynSpec.v
theories/DynProofs.v
theories/DynShown.v
theories/DynAsk.v
theories/DynProps.v
theories/GatherModel.v
theories/GatherSpec.v
theories/GatherFloat.v
theories/GatherProofs.v
theories/GatherProps.v
theories/SampleNetModel.v
theories/SampleNetSpec.v
theories/SampleNetProofs.v
theories/SampleNetProps.v
theories/CostModel.v
theories/CostSpec.v
theories/CostFloat.v
theories/CostProofs.v
theories/CostPlans.v
theories/CostProps.v
theories/WireModel.v
theories/WireSpec.v
theories/WireProofs.v
theories/WirePanic.v
theories/CodecModel.v
theories/CodecSpec.v
theories/CodecProofs.v
theories/CodecProps.v
theories/ErrorModel.v
theories/ErrorSpec.v
theories/ErrorProofs.v
theories/ErrorProps.v
theories/MetricsModel.v
theories/MetricsSpec.v
theories/MetricsProofs.v
theories/MetricsProps.v
theories/ShareModel.v
theories/ShareSpec.v
theories/ShareProofs.v
theories/ShareProps.v
theories/ChanModel.v
theories/ChanSpec.v
theories/ChanProofs.v
theories/ChanProps.v
theories/MuxModel.v
theories/MuxSpec.v
theories/MuxProofs.v
theories/MuxProps.v
theories/PartStatsModel.v
theories/PartStatsSpec.v
theories/PartStatsProofs.v
theories/PartStatsProps.v
theories/ShowModel.v
theories/ShowSpec.v
theories/ShowProofs.v
theories/ShowProps.v
theories/UserCodecModel.v
theories/UserCodecSpec.v
theories/UserCodecProofs.v
theories/UserCodecEx.v
theories/UserCodecProps.v
theories/RobinProps.v
theories/LeafProps.v
theories/ExplainModel.v
theories/ExplainSpec.v
theories/ExplainProofs.v
theories/ExplainPlanned.v
theories/ExplainTell.v
theories/ExplainProps.v
theories/EndModel.v
theories/EndSpec.v
theories/EndProofs.v
theories/EndProps.v
theories/TimesModel.v
theories/TimesSpec.v
theories/TimesProofs.v
theories/TimesProps.v
theories/ConsoleModel.v
theories/ConsoleSpec.v
theories/ConsoleProofs.v
theories/ConsoleProps.v
theories/ProgressModel.v
theories/ProgressSpec.v
theories/ProgressProofs.v
theories/ProgressProps.v
theories/CostMore.v
theories/WholeSpec.v
theories/WholeProps.v
theories/CrashProps.v
theories/UnreadSpec.v
theories/UnreadProofs.v
theories/UnreadProps.v
theories/OrderModel.v
theories/OrderSpec.v
theories/OrderProofs.v
theories/OrderEnd.v
theories/OrderProps.v
theories/NetRunModel.v
theories/NetRunProofs.v
theories/NetRunDone.v
theories/NetRunProps.v
theories/DynNetProps.v
theories/LeafShowModel.v
theories/LeafShowProofs.v
theories/LeafShowProps.v
theories/DriverModel.v
theories/DriverSpec.v
theories/DriverProofs.v
theories/DriverProps.v
theories/MergeNetModel.v
theories/MergeNetSpec.v
theories/MergeNetProofs.v
theories/MergeNetProps.v
theories/GraphModel.v
theories/GraphSpec.v
theories/GraphProofs.v
theories/GraphProps.v
theories/WSessionModel.v
theories/WSessionSpec.v
theories/WSessionProofs.v
theories/WSessionProps.v
theories/FeedPlanModel.v
theories/FeedPlanSpec.v
theories/FeedPlanProofs.v
theories/FeedPlanProps.v
theories/FaultModel.v
theories/FaultSpec.v
theories/FaultProofs.v
theories/FaultEnd.v
theories/FaultProps.v
theories/ReexecModel.v
theories/ReexecSpec.v
theories/ReexecProofs.v
theories/ReexecProps.v
theories/CutModel.v
theories/CutProofs.v
theories/CutProps.v
theories/DynFaultProps.v
theories/DynFetch.v
theories/DynFetchProps.v
theories/ServeModel.v
theories/ServeProofs.v
theories/ServeProps.v
theories/SitedModel.v
theories/SitedSpec.v
theories/SitedProofs.v
theories/SitedProps.v
theories/AnswerSpec.v
theories/AnswerProofs.v
theories/SitedNetSpec.v
theories/SitedNetProofs.v
theories/PlanAnswerProofs.v
theories/PlanAnswerProps.v
theories/SitedNetProps.v
theories/SitedFetchProofs.v
theories/SitedFetchProps.v
theories/BcastLifeModel.v
theories/BcastLifeSpec.v
theories/BcastLifeProofs.v
theories/BcastLifeEnd.v
theories/BcastLifeProps.v
theories/OverviewModel.v
theories/OverviewSpec.v
theories/OverviewProofs.v
theories/OverviewProps.v
theories/AmountModel.v
theories/AmountProofs.v
theories/AmountProps.v
theories/StagewiseModel.v
theories/StagewiseSpec.v
theories/StagewiseProofs.v
theories/StagewiseLive.v
theories/StagewiseProps.v
theories/UpfrontModel.v
theories/UpfrontSpec.v
theories/UpfrontProofs.v
theories/UpfrontNums.v
theories/UpfrontProps.v
