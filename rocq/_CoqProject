-Q theories Verif
theories/Model/Base.v
theories/Model/Container.v
theories/Spec/ContainerSpec.v
theories/Proofs/ContainerProofs.v
theories/Props/ContainerProps.v
theories/Model/Xf.v
theories/Model/Weights.v
theories/Spec/WeightsSpec.v
theories/Proofs/WeightsProofs.v
theories/Proofs/MomentsProofs.v
theories/Props/WeightsProps.v
theories/Model/Tensor.v
theories/Model/Resampling.v
theories/Spec/ResamplingSpec.v
theories/Proofs/ResamplingProofs.v
theories/Props/ResamplingProps.v
theories/Model/Particle.v
theories/Model/FilterLoop.v
theories/Model/Smoothing.v
theories/Spec/ParticleSpec.v
theories/Spec/LoopSpec.v
theories/Spec/GenealogySpec.v
theories/Spec/SmoothingSpec.v
theories/Proofs/ParticleProofs.v
theories/Proofs/StepProofs.v
theories/Proofs/ColumnProofs.v
theories/Proofs/LoopProofs.v
theories/Proofs/GenealogyProofs.v
theories/Proofs/GenealogyWitness.v
theories/Props/FilterProps.v
theories/Props/GenealogyProps.v
theories/Props/FilterLoopProps.v
theories/Props/SmoothingProps.v
theories/Model/FilterConfig.v
theories/Spec/FilterConfigSpec.v
theories/Props/FilterConfigProps.v
theories/Model/Result.v
theories/Spec/ResultSpec.v
theories/Proofs/ResultProofs.v
theories/Proofs/ResultReach.v
theories/Proofs/ResultRun.v
theories/Props/ResultProps.v
theories/Proofs/ResultExchange.v
theories/Props/ResultExchangeProps.v
theories/Proofs/ResultSave.v
theories/Props/ResultSaveProps.v
theories/Model/Mode.v
theories/Model/Proposal.v
theories/Spec/ProposalSpec.v
theories/Proofs/ProposalProofs.v
theories/Props/ProposalProps.v
theories/Spec/RealField.v
theories/Spec/LinAlgSpec.v
theories/Model/ProposalMx.v
theories/Proofs/LinAlgProofs.v
theories/Proofs/CholeskyProofs.v
theories/Props/ProposalMxProps.v
theories/Model/ContextStack.v
theories/Spec/ContextStackSpec.v
theories/Props/ContextStackProps.v
theories/Model/Prior.v
theories/Model/Context.v
theories/Spec/ContextSpec.v
theories/Proofs/ContextProofs.v
theories/Proofs/ContextHeap.v
theories/Props/ContextProps.v
theories/Props/ContextUpdateProps.v
theories/Props/ContextStackingProps.v
theories/Props/ContextVerifyProps.v
theories/Props/ContextCopyProps.v
theories/Props/ContextLoadProps.v
theories/Props/PriorProps.v
theories/Model/Qmc.v
theories/Spec/QmcSpec.v
theories/Props/QmcProps.v
theories/Model/Threshold.v
theories/Spec/ThresholdSpec.v
theories/Props/ThresholdProps.v
theories/Model/Jitter.v
theories/Spec/JitterSpec.v
theories/Props/JitterProps.v
theories/Model/Pmmh.v
theories/Spec/PmmhSpec.v
theories/Props/PmmhProps.v
theories/Model/Sequential.v
theories/Spec/SequentialSpec.v
theories/Proofs/SequentialProofs.v
theories/Proofs/SequentialToy.v
theories/Props/SequentialProps.v
theories/Props/SequentialMoves.v
theories/Props/SequentialWeights.v
theories/Props/SequentialDispatch.v
theories/Props/SequentialResume.v
theories/Props/JitterBandwidth.v
theories/Spec/UnbiasedSpec.v
theories/Proofs/UnbiasedProofs.v
theories/Props/ResampleMeanProps.v
theories/Spec/FairSpec.v
theories/Proofs/UnbiasedFilter.v
theories/Props/UnbiasedProps.v
theories/Spec/StationarySpec.v
theories/Proofs/StationaryProofs.v
theories/Props/StationaryProps.v
theories/Model/Collectors.v
theories/Spec/CollectorsSpec.v
theories/Proofs/CollectorsProofs.v
theories/Props/CollectorsProps.v
theories/Model/Shaped.v
theories/Model/ShapedCode.v
theories/Spec/ShapedSpec.v
theories/Proofs/ShapedProofs.v
theories/Props/CovarianceProps.v
theories/Props/LinearShapesProps.v
theories/Props/OptimalShapesProps.v
theories/Model/Construct.v
theories/Props/ConstructProps.v
theories/Model/Logging.v
theories/Props/LoggingProps.v
theories/Spec/ConvergeSpec.v
theories/Proofs/ConvergeProofs.v
theories/Proofs/ConvergeFilter.v
theories/Props/ResampleErrorProps.v
theories/Props/ConvergeProps.v
theories/Model/FloatResampling.v
theories/Spec/FloatSpec.v
theories/Proofs/FloatProofs.v
theories/Proofs/FloatSystematic.v
theories/Proofs/FloatNormalize.v
theories/Proofs/FloatEss.v
theories/Proofs/FloatResidual.v
theories/Proofs/FloatExamples.v
theories/Props/FloatProps.v
theories/Spec/BackwardSpec.v
theories/Proofs/BackwardProofs.v
theories/Proofs/BackwardPosterior.v
theories/Props/BackwardProps.v
theories/Model/Complete.v
theories/Spec/CompleteSpec.v
theories/Proofs/CompleteProofs.v
theories/Proofs/FisherProofs.v
theories/Props/CompleteProps.v
theories/Model/Mvn.v
theories/Spec/MvnSpec.v
theories/Proofs/MvnProofs.v
theories/Props/MvnProps.v
theories/Spec/ProperSpec.v
theories/Props/ProperProps.v
theories/Props/ImportanceProps.v
theories/Model/Plot.v
theories/Spec/PlotSpec.v
theories/Proofs/PlotProofs.v
theories/Props/PlotProps.v
theories/Spec/RejuvenateSpec.v
theories/Props/RejuvenateProps.v
theories/Spec/AuxiliarySpec.v
theories/Proofs/ConvergeAny.v
theories/Props/AuxiliaryProps.v
theories/Model/FloatLikelihood.v
theories/Spec/FloatLogSpec.v
theories/Proofs/FloatLogProofs.v
theories/Props/FloatLogProps.v
theories/Model/Forecast.v
theories/Spec/ForecastSpec.v
theories/Proofs/ForecastProofs.v
theories/Props/ForecastProps.v
theories/Spec/ExactSpec.v
theories/Proofs/ExactProofs.v
theories/Props/ExactProps.v
theories/Spec/FitConvergeSpec.v
theories/Proofs/FitConvergeProofs.v
theories/Props/FitConvergeProps.v
theories/Model/Mixin.v
theories/Spec/MixinSpec.v
theories/Proofs/MixinProofs.v
theories/Props/MixinProps.v
theories/Model/FloatMoments.v
theories/Spec/FloatMomentsSpec.v
theories/Proofs/FloatMomentsProofs.v
theories/Props/FloatMomentsProps.v
theories/Spec/PathSpec.v
theories/Proofs/PathProofs.v
theories/Props/PathProps.v
theories/Spec/BandwidthSpec.v
theories/Props/BandwidthProps.v
theories/Spec/QuasiNormalSpec.v
theories/Props/QuasiNormalProps.v
theories/Spec/GaussianLinearSpec.v
theories/Props/GaussianLinearProps.v
theories/Spec/ResampleCompareSpec.v
theories/Props/ResampleCompareProps.v
theories/Model/PmmhState.v
theories/Spec/PmmhStateSpec.v
theories/Props/PmmhStateProps.v
