-Q theories Verif
theories/Base/Effects.v
theories/Base/ListFacts.v
theories/Base/PyBase.v
theories/Model/A2CUpdate.v
theories/Model/ABCEnv.v
theories/Model/ALEEnv.v
theories/Model/Acer.v
theories/Model/AcerUpdate.v
theories/Model/ActEval.v
theories/Model/ActionMaps.v
theories/Model/ActionValue.v
theories/Model/ActorCritic.v
theories/Model/AsyncEvaluator.v
theories/Model/AtariStack.v
theories/Model/AttributeSaving.v
theories/Model/AverageReward.v
theories/Model/BatchWorld.v
theories/Model/Boltzmann.v
theories/Model/Categorical.v
theories/Model/CategoricalLoss.v
theories/Model/CollectDemos.v
theories/Model/ConjugateGradient.v
theories/Model/CopyParam.v
theories/Model/DatasetPasses.v
theories/Model/Distributions.v
theories/Model/EmpiricalNormalization.v
theories/Model/EnvModifiers.v
theories/Model/EpisodicReplayBuffer.v
theories/Model/EvalStats.v
theories/Model/Evaluator.v
theories/Model/Explorers.v
theories/Model/GradFunctions.v
theories/Model/GymEnv.v
theories/Model/IQNNet.v
theories/Model/Initializers.v
theories/Model/LineSearch.v
theories/Model/Monitor.v
theories/Model/NSQ.v
theories/Model/NaturalGradient.v
theories/Model/Networks.v
theories/Model/NoisyNet.v
theories/Model/Num.v
theories/Model/OffPolicyAgent.v
theories/Model/Optimizers.v
theories/Model/OutputDir.v
theories/Model/PCL.v
theories/Model/PGT.v
theories/Model/PPODataset.v
theories/Model/PPOLoss.v
theories/Model/PPORecords.v
theories/Model/PolicyGradient.v
theories/Model/PretrainedModels.v
theories/Model/PrioritizedBuffer.v
theories/Model/PrioritizedReplayBuffer.v
theories/Model/PriorityWeight.v
theories/Model/Quadratic.v
theories/Model/Random.v
theories/Model/RandomAccessQueue.v
theories/Model/RandomSeed.v
theories/Model/RecurrentDDPG.v
theories/Model/RecurrentDQN.v
theories/Model/RecurrentPPO.v
theories/Model/RecurrentState.v
theories/Model/Reinforce.v
theories/Model/ReplayBuffer.v
theories/Model/ReplayUpdater.v
theories/Model/Residual.v
theories/Model/Resume.v
theories/Model/Returns.v
theories/Model/RewardFilter.v
theories/Model/SegmentAgent.v
theories/Model/Sharing.v
theories/Model/StatelessRecurrent.v
theories/Model/Statistics.v
theories/Model/SumTree.v
theories/Model/Surrogate.v
theories/Model/Targets.v
theories/Model/TrainAgent.v
theories/Model/TrainAgentBatch.v
theories/Model/TrainAsync.v
theories/Model/TreeQueue.v
theories/Model/VectorEnv.v
theories/Model/VectorLifecycle.v
theories/Model/Wrappers.v
theories/Spec/A2CSpec.v
theories/Spec/ABCSpec.v
theories/Spec/ALESpec.v
theories/Spec/AcerSpec.v
theories/Spec/AcerUpdateSpec.v
theories/Spec/ActEvalSpec.v
theories/Spec/ActionSpec.v
theories/Spec/ActionValueSpec.v
theories/Spec/ActorCriticSpec.v
theories/Spec/AsyncEvalSpec.v
theories/Spec/AsyncProtocol.v
theories/Spec/AtariStackSpec.v
theories/Spec/AttributeSavingSpec.v
theories/Spec/AverageRewardSpec.v
theories/Spec/BatchEvalSpec.v
theories/Spec/BatchWorldSpec.v
theories/Spec/BellmanSpec.v
theories/Spec/BoltzmannSpec.v
theories/Spec/BoundedList.v
theories/Spec/CategoricalLearningSpec.v
theories/Spec/CategoricalSpec.v
theories/Spec/DemoSpec.v
theories/Spec/DistributionSpec.v
theories/Spec/EndToEndSpec.v
theories/Spec/EnvModifierSpec.v
theories/Spec/EpisodeSpec.v
theories/Spec/EvalEpisodesSpec.v
theories/Spec/EvalStatsSpec.v
theories/Spec/EvaluatorSpec.v
theories/Spec/FairSpec.v
theories/Spec/GradientSpec.v
theories/Spec/IQNNetSpec.v
theories/Spec/ImportanceSpec.v
theories/Spec/InitializerSpec.v
theories/Spec/LifecycleSpec.v
theories/Spec/LineSearchSpec.v
theories/Spec/LinearSpec.v
theories/Spec/MonitorSpec.v
theories/Spec/NSQSpec.v
theories/Spec/NStepLearningSpec.v
theories/Spec/NStepSpec.v
theories/Spec/NaturalSpec.v
theories/Spec/NetworkSpec.v
theories/Spec/NoisyNetSpec.v
theories/Spec/NormalizationSpec.v
theories/Spec/OptimizerSpec.v
theories/Spec/OutputDirSpec.v
theories/Spec/PCLSpec.v
theories/Spec/PGTSpec.v
theories/Spec/PPOLossSpec.v
theories/Spec/PPORecordsSpec.v
theories/Spec/PPOSpec.v
theories/Spec/PolicyGradientSpec.v
theories/Spec/PretrainedSpec.v
theories/Spec/PrioritizedBufferHistory.v
theories/Spec/PrioritizedBufferSpec.v
theories/Spec/PrioritizedReplaySpec.v
theories/Spec/PriorityQueueSpec.v
theories/Spec/PrioritySpec.v
theories/Spec/QuadraticSpec.v
theories/Spec/RandomSpec.v
theories/Spec/RecurrentDDPGSpec.v
theories/Spec/RecurrentDQNSpec.v
theories/Spec/RecurrentStateSpec.v
theories/Spec/ReinforceSpec.v
theories/Spec/ResidualSpec.v
theories/Spec/RetraceSpec.v
theories/Spec/ReturnSpec.v
theories/Spec/RewardFilterSpec.v
theories/Spec/ScheduleSpec.v
theories/Spec/SeedSpec.v
theories/Spec/SegmentSpec.v
theories/Spec/SharingSpec.v
theories/Spec/SoftSpec.v
theories/Spec/StatelessRecurrentSpec.v
theories/Spec/StatisticsSpec.v
theories/Spec/SumSpec.v
theories/Spec/SumTreeSpec.v
theories/Spec/SurrogateSpec.v
theories/Spec/SyncSpec.v
theories/Spec/TargetSpec.v
theories/Spec/TrainBatchProtocol.v
theories/Spec/TrainProtocol.v
theories/Spec/TransitionSpec.v
theories/Spec/UnfedReplaySpec.v
theories/Spec/VectorSpec.v
theories/Spec/WindowSpec.v
theories/Spec/WrapperSpec.v
theories/Proofs/A2CProofs.v
theories/Proofs/ABCProofs.v
theories/Proofs/ALEProofs.v
theories/Proofs/AcerProofs.v
theories/Proofs/AcerUpdateProofs.v
theories/Proofs/ActEvalProofs.v
theories/Proofs/ActionMapsProofs.v
theories/Proofs/ActionValueProofs.v
theories/Proofs/ActorCriticProofs.v
theories/Proofs/AsyncEvaluatorProofs.v
theories/Proofs/AtariStackProofs.v
theories/Proofs/AtariUnlimitedProofs.v
theories/Proofs/AttributeSavingProofs.v
theories/Proofs/AverageRewardProofs.v
theories/Proofs/BatchEndToEndProofs.v
theories/Proofs/BatchEvalProofs.v
theories/Proofs/BatchWorldProofs.v
theories/Proofs/BellmanProofs.v
theories/Proofs/BoltzmannProofs.v
theories/Proofs/CGProofs.v
theories/Proofs/CategoricalLearningProofs.v
theories/Proofs/CategoricalProofs.v
theories/Proofs/CollectDemosProofs.v
theories/Proofs/CopyParamProofs.v
theories/Proofs/DatasetPassesProofs.v
theories/Proofs/DistributionProofs.v
theories/Proofs/EndToEndProofs.v
theories/Proofs/EnvModifierProofs.v
theories/Proofs/EpisodicProofs.v
theories/Proofs/EvalEpisodesProofs.v
theories/Proofs/EvalStatsProofs.v
theories/Proofs/EvaluatorProofs.v
theories/Proofs/ExplorersProofs.v
theories/Proofs/FairProofs.v
theories/Proofs/GradientProofs.v
theories/Proofs/IQNNetProofs.v
theories/Proofs/ImportanceProofs.v
theories/Proofs/InitializerProofs.v
theories/Proofs/LifecycleProofs.v
theories/Proofs/LineSearchProofs.v
theories/Proofs/MonitorProofs.v
theories/Proofs/MultiprocessProofs.v
theories/Proofs/NSQProofs.v
theories/Proofs/NStepLearningProofs.v
theories/Proofs/NaturalProofs.v
theories/Proofs/NetworkProofs.v
theories/Proofs/NoisyNetProofs.v
theories/Proofs/NormalizationProofs.v
theories/Proofs/OUProofs.v
theories/Proofs/OffPolicyProofs.v
theories/Proofs/OptimizerProofs.v
theories/Proofs/OutputDirProofs.v
theories/Proofs/PCLProofs.v
theories/Proofs/PGTProofs.v
theories/Proofs/PPOLossProofs.v
theories/Proofs/PPOProofs.v
theories/Proofs/PPORecordsProofs.v
theories/Proofs/PolicyGradientProofs.v
theories/Proofs/PretrainedProofs.v
theories/Proofs/PrioritizedBufferHistoryProofs.v
theories/Proofs/PrioritizedBufferProofs.v
theories/Proofs/PrioritizedReplayBufferProofs.v
theories/Proofs/PrioritizedRoundProofs.v
theories/Proofs/PriorityProofs.v
theories/Proofs/PriorityQueueProofs.v
theories/Proofs/PriorityWeightProofs.v
theories/Proofs/QSumFacts.v
theories/Proofs/QuadraticAdvantage.v
theories/Proofs/QuadraticProofs.v
theories/Proofs/RSumFacts.v
theories/Proofs/RandomAccessQueueProofs.v
theories/Proofs/RandomProofs.v
theories/Proofs/RecurrentDDPGProofs.v
theories/Proofs/RecurrentDQNProofs.v
theories/Proofs/RecurrentPPOProofs.v
theories/Proofs/RecurrentResumeProofs.v
theories/Proofs/RecurrentStateProofs.v
theories/Proofs/ReinforceProofs.v
theories/Proofs/ReplayBufferProofs.v
theories/Proofs/ReplayUpdaterProofs.v
theories/Proofs/ReportedErrorsProofs.v
theories/Proofs/ResidualProofs.v
theories/Proofs/ResumeProofs.v
theories/Proofs/RetraceProofs.v
theories/Proofs/ReturnProofs.v
theories/Proofs/RewardFilterProofs.v
theories/Proofs/SeedProofs.v
theories/Proofs/SegmentProofs.v
theories/Proofs/SharingProofs.v
theories/Proofs/SoftProofs.v
theories/Proofs/StatelessRecurrentProofs.v
theories/Proofs/StatisticsProofs.v
theories/Proofs/SumTreeProofs.v
theories/Proofs/SurrogateProofs.v
theories/Proofs/TargetProofs.v
theories/Proofs/TrainAgentProofs.v
theories/Proofs/TrainAsyncProofs.v
theories/Proofs/TrainBatchProofs.v
theories/Proofs/TreeQueueProofs.v
theories/Proofs/UnfedReplayProofs.v
theories/Proofs/VectorFrameStackProofs.v
theories/Proofs/WrappersProofs.v
theories/Props/P01_RandomAccessQueue.v
theories/Props/P02_SampleNK.v
theories/Props/P03_PriorityQueues.v
theories/Props/P06_PrioritizedBuffer.v
theories/Props/P09_FloatPicks.v
theories/Props/P100_NStepTargets.v
theories/Props/P101_Seeds.v
theories/Props/P102_BellmanResiduals.v
theories/Props/P103_PGT.v
theories/Props/P104_Lifecycle.v
theories/Props/P105_NaturalGradient.v
theories/Props/P106_Statistics.v
theories/Props/P107_EvalStats.v
theories/Props/P108_AtariStack.v
theories/Props/P109_PPORecords.v
theories/Props/P10_PriorityWeights.v
theories/Props/P110_IQNNet.v
theories/Props/P111_AverageReward.v
theories/Props/P112_UnfedReplay.v
theories/Props/P113_AcerUpdate.v
theories/Props/P11_ReplayBuffer.v
theories/Props/P13_EpisodicBuffers.v
theories/Props/P16_ReplayUpdater.v
theories/Props/P18_TrainAgent.v
theories/Props/P20_TrainAgentBatch.v
theories/Props/P21_TrainAsync.v
theories/Props/P22_Evaluator.v
theories/Props/P23_AsyncEvaluator.v
theories/Props/P24_EvalEpisodes.v
theories/Props/P26_CollectDemos.v
theories/Props/P27_Schedules.v
theories/Props/P28_FrameStack.v
theories/Props/P29_MultiprocessEnv.v
theories/Props/P30_AtariWrappers.v
theories/Props/P32_ActionMaps.v
theories/Props/P33_Categorical.v
theories/Props/P34_OffPolicy.v
theories/Props/P35_Normalization.v
theories/Props/P36_Returns.v
theories/Props/P37_PPO.v
theories/Props/P38_LineSearch.v
theories/Props/P39_ACER.v
theories/Props/P41_Distributions.v
theories/Props/P42_Quadratic.v
theories/Props/P44_StatelessRecurrent.v
theories/Props/P45_RecurrentState.v
theories/Props/P46_AttributeSaving.v
theories/Props/P48_Targets.v
theories/Props/P49_SumTree.v
theories/Props/P50_Reinforce.v
theories/Props/P51_NSQ.v
theories/Props/P52_PCL.v
theories/Props/P53_ConjugateGradient.v
theories/Props/P55_PrioritizedReplay.v
theories/Props/P65_RecurrentDQN.v
theories/Props/P66_RecurrentPPO.v
theories/Props/P67_EndToEnd.v
theories/Props/P68_BatchEndToEnd.v
theories/Props/P69_Resume.v
theories/Props/P70_Segments.v
theories/Props/P71_ActionValues.v
theories/Props/P72_Gradients.v
theories/Props/P73_PPOLoss.v
theories/Props/P74_Passes.v
theories/Props/P75_Sharing.v
theories/Props/P76_ALE.v
theories/Props/P77_ABC.v
theories/Props/P78_NoisyNet.v
theories/Props/P79_OutputDir.v
theories/Props/P80_Networks.v
theories/Props/P81_RewardFilter.v
theories/Props/P82_Optimizers.v
theories/Props/P83_Boltzmann.v
theories/Props/P84_Initializers.v
theories/Props/P85_Monitor.v
theories/Props/P86_EnvModifiers.v
theories/Props/P87_ActorCritic.v
theories/Props/P88_PolicyGradient.v
theories/Props/P89_Pretrained.v
theories/Props/P90_Surrogate.v
theories/Props/P91_Bellman.v
theories/Props/P92_A2C.v
theories/Props/P93_Soft.v
theories/Props/P94_Evaluation.v
theories/Props/P95_Retrace.v
theories/Props/P96_RecurrentDDPG.v
theories/Props/P97_CategoricalLearning.v
theories/Props/P98_FairSampling.v
theories/Props/P99_ImportanceWeights.v
