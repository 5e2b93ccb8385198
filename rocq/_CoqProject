-Q theories Verif
theories/Prelude.v
theories/NumPy.v
theories/NumPyFacts.v
theories/Base.v
theories/Spec.v
theories/BaseFacts.v
theories/Mttkrp.v
theories/Lin.v
theories/Solves.v
theories/Exists.v
theories/Utils.v
theories/Decompositions.v
theories/SignFix.v
theories/KruskalFacts.v
theories/SignFacts.v
theories/FlipFacts.v
theories/EvolvingFacts.v
theories/DecompLemmas.v
theories/H5.v
theories/Storage.v
theories/H5Facts.v
theories/StorageFacts.v
theories/Decomposer.v
theories/Hlog.v
theories/NamesFacts.v
theories/FitSpec.v
theories/FitFacts.v
theories/CkptFacts.v
theories/RunFacts.v
theories/LogFacts.v
theories/FitLemmas.v
theories/FitExamples.v
theories/HlogFacts.v
theories/HlogFailure.v
theories/Metrics.v
theories/MetricsSpec.v
theories/PermFacts.v
theories/MetricsFacts.v
theories/MetricsMore.v
theories/CPSpec.v
theories/Gram.v
theories/CP.v
theories/CPFacts.v
theories/CPUpdate.v
theories/CPLemmas.v
theories/CPInit.v
theories/CPConstrained.v
theories/CPExamples.v
theories/CPFit.v
theories/CMTFSpec.v
theories/CMTF.v
theories/CMTFFacts.v
theories/CMTFUpdate.v
theories/CMTFMore.v
theories/CMTFNorm.v
theories/CMTFWitness.v
theories/CMTFLoss.v
theories/CMTFResume.v
theories/CPRandom.v
theories/Parafac2.v
theories/Parafac2Spec.v
theories/Parafac2Facts.v
theories/Parafac2Sweep.v
theories/Parafac2Fit.v
theories/Parafac2Run.v
theories/Parafac2Init.v
theories/Parafac2Examples.v
theories/SignSpec.v
theories/SignScores.v
theories/Core.v
theories/CoreSpec.v
theories/CoreFacts.v
theories/CoreValue.v
theories/Compare.v
theories/CompareSpec.v
theories/CompareFacts.v
theories/Quality.v
theories/QualitySpec.v
theories/CPComplete.v
theories/StartFacts.v
theories/QualityFacts.v
theories/Experiment.v
theories/ExperimentSpec.v
theories/ExperimentFacts.v
theories/Props_Base.v
theories/Props_Decomp.v
theories/Props_SignFix.v
theories/Props_Storage.v
theories/Props_Fit.v
theories/Props_Log.v
theories/Props_Metrics.v
theories/Props_CP.v
theories/Props_CMTF.v
theories/Props_Parafac2.v
theories/Props_Signs.v
theories/Props_Core.v
theories/Props_Compare.v
theories/Props_Quality.v
theories/Props_Starts.v
theories/Props_Experiment.v
theories/StopFacts.v
theories/SafeSpec.v
theories/Parafac2Safe.v
theories/SafeExamples.v
theories/Props_Stop.v
theories/Props_Safe.v
theories/ResumeSpec.v
theories/Parafac2Resume.v
theories/ResumeExamples.v
theories/Props_Resume.v
theories/BestSpec.v
theories/BestFacts.v
theories/Props_Best.v
theories/SymSpec.v
theories/SymFacts.v
theories/SymWitness.v
theories/Props_Sym.v
theories/FixSpec.v
theories/FixFacts.v
theories/FixWitness.v
theories/Props_Fixed.v
theories/Legacy.v
theories/LegacySpec.v
theories/LegacyFacts.v
theories/Props_Legacy.v
theories/SvdSpec.v
theories/SvdFacts.v
theories/SvdWitness.v
theories/Props_Svd.v
theories/CoupledSpec.v
theories/CMTFComplete.v
theories/Props_Coupled.v
theories/ConstrainedSpec.v
theories/ConstrainedFit.v
theories/ShortMode.v
theories/Props_Constrained.v
theories/CoupledConstraintSpec.v
theories/CoupledConstraints.v
theories/CoupledPenalty.v
theories/Props_CoupledConstraints.v
theories/MatchSpec.v
theories/MatchFacts.v
theories/Props_Match.v
theories/PenalisedSpec.v
theories/Parafac2Total.v
theories/Props_Penalised.v
theories/CompressSpec.v
theories/CompressFacts.v
theories/Props_Compress.v
theories/CoupledFitSpec.v
theories/CoupledFit.v
theories/StateMap.v
theories/Coupling.v
theories/Props_CoupledFit.v
theories/OldUpdate.v
theories/OldUpdateSpec.v
theories/OldUpdateFacts.v
theories/Props_OldUpdate.v
theories/UniqueSpec.v
theories/Unique.v
theories/UniqueCoupled.v
theories/Props_Unique.v
theories/TuckerSpec.v
theories/TuckerFacts.v
theories/Props_Tucker.v
theories/CoupledTurnSpec.v
theories/CoupledTurn.v
theories/Props_CoupledTurn.v
theories/LeftSpec.v
theories/LeftFacts.v
theories/Props_Left.v
theories/ReuseSpec.v
theories/ReuseFacts.v
theories/ReuseExamples.v
theories/Props_Reuse.v
theories/ViewSim.v
theories/CPShared.v
theories/SharedSpec.v
theories/SharedFacts.v
theories/SharedExamples.v
theories/Props_Shared.v
theories/RelocateSpec.v
theories/RelocateFacts.v
theories/Props_Relocate.v
theories/RefitSpec.v
theories/RefitFacts.v
theories/RefitExamples.v
theories/Props_Refit.v
theories/P2UnitSpec.v
theories/P2UnitFacts.v
theories/Props_P2Unit.v
theories/P2FixSpec.v
theories/P2FixFacts.v
theories/Props_P2Fix.v
theories/StackSpec.v
theories/StackFacts.v
theories/Props_Stack.v
theories/CmFixSpec.v
theories/CmFixFacts.v
theories/Props_CmFixed.v
theories/LimitSpec.v
theories/LimitFacts.v
theories/LimitWitness.v
theories/Props_Limit.v
theories/CmLeftSpec.v
theories/CmLeftFacts.v
theories/Props_CmLeft.v
theories/CmLimitSpec.v
theories/CmLimitFacts.v
theories/CmLimitWitness.v
theories/Props_CmLimit.v
theories/P2LimitSpec.v
theories/P2LimitFacts.v
theories/Props_P2Limit.v
theories/PenFixSpec.v
theories/PenFixFacts.v
theories/Props_PenFix.v
theories/PowerSpec.v
theories/PowerFacts.v
theories/PowerWitness.v
theories/Props_Power.v
theories/RankOneSpec.v
theories/RankOneFacts.v
theories/PerronFacts.v
theories/RankOneFit.v
theories/Props_RankOne.v
theories/CmUnitSpec.v
theories/CmUnitFacts.v
theories/CmUnitWitness.v
theories/Props_CmUnit.v
theories/DegenCore.v
theories/DegenSpec.v
theories/DegenFacts.v
theories/Props_Degen.v
theories/RidgeBoundFacts.v
theories/Props_RidgeBound.v
theories/PenLimitFacts.v
theories/Props_PenLimit.v
theories/P2RidgeFacts.v
theories/Props_P2Ridge.v
theories/P2AccumFacts.v
theories/Props_P2Accum.v
theories/P2PenLimitSpec.v
theories/P2PenLimitFacts.v
theories/Props_P2PenLimit.v
theories/P2ExplainSpec.v
theories/P2ExplainFacts.v
theories/Props_P2Explain.v
