-Q theories Verif
theories/Base/QcBase.v
theories/Base/Sums.v
theories/Model/Numpy.v
theories/Model/Common.v
theories/Model/Sym.v
theories/Model/GraphCRF.v
theories/Spec/Energy.v
theories/Proofs/Arrays.v
theories/Proofs/SymProofs.v
theories/Spec/GraphSpec.v
theories/Proofs/EnergyProofs.v
theories/Proofs/GraphCRFProofs.v
theories/Properties/P01_GraphCRF.v
theories/Model/Loss.v
theories/Spec/LossSpec.v
theories/Model/CRF.v
theories/Model/Exhaustive.v
theories/Spec/SolverSpec.v
theories/Proofs/LossProofs.v
theories/Proofs/CRFProofs.v
theories/Model/Viterbi.v
theories/Proofs/ViterbiProofs.v
theories/Model/GraphFunctions.v
theories/Spec/GraphTheory.v
theories/Proofs/SearchProofs.v
theories/Model/MaxProd.v
theories/Proofs/MaxProdProofs.v
theories/Model/Score.v
theories/Proofs/ScoreProofs.v
theories/Model/ChainCRF.v
theories/Proofs/ChainProofs.v
theories/Properties/P02_Loss.v
theories/Properties/P03_MaxProduct.v
theories/Model/LP.v
theories/Spec/LocalPolytope.v
theories/Spec/LPSpec.v
theories/Proofs/LPProofs.v
theories/Proofs/LPProofs2.v
theories/Model/Inference.v
theories/Spec/InferenceSpec.v
theories/Proofs/InferenceProofs.v
theories/Spec/DispatchSpec.v
theories/Proofs/DispatchProofs.v
theories/Proofs/OgmProofs.v
theories/Properties/P04_Inference.v
theories/Model/EdgeFeature.v
theories/Spec/EdgeSpec.v
theories/Model/Grid.v
theories/Spec/GridSpec.v
theories/Proofs/GridProofs.v
theories/Proofs/EdgeFeatureProofs.v
theories/Proofs/EdgeFeatureProofs2.v
theories/Proofs/GridProofs2.v
theories/Properties/P05_Grid.v
theories/Model/Unstructured.v
theories/Model/Learner.v
theories/Model/Instances.v
theories/Spec/ClassSpec.v
theories/Spec/TaskSpec.v
theories/Proofs/UnstructuredProofs.v
theories/Spec/TaskInstances.v
theories/Proofs/LearnerProofs.v
theories/Proofs/UnstructuredProofs2.v
theories/Proofs/InstanceProofs.v
theories/Properties/P06_Unstructured.v
theories/Properties/P07_Objective.v
theories/Model/MultiLabel.v
theories/Spec/LabelSpec.v
theories/Proofs/MultiLabelProofs.v
theories/Properties/P08_MultiLabel.v
theories/Model/QP.v
theories/Spec/QPSpec.v
theories/Proofs/QPProofs.v
theories/Proofs/QPProofs2.v
theories/Model/NSlack.v
theories/Spec/NSlackSpec.v
theories/Proofs/NSlackProofs.v
theories/Proofs/NSlackProofs2.v
theories/Proofs/NSlackProofs3.v
theories/Proofs/NSlackProofs4.v
theories/Spec/PruneSpec.v
theories/Proofs/PruneProofs.v
theories/Proofs/NSlackProofs5.v
theories/Proofs/QPProofs3.v
theories/Proofs/NSlackExamples.v
theories/Properties/P09_NSlack.v
theories/Model/OneSlack.v
theories/Spec/OneSlackSpec.v
theories/Proofs/OneSlackQP.v
theories/Proofs/OneSlackPrune.v
theories/Proofs/OneSlackCache.v
theories/Proofs/OneSlackProofs.v
theories/Proofs/OneSlackProofs2.v
theories/Proofs/OneSlackProofs3.v
theories/Proofs/OneSlackProofs4.v
theories/Model/BatchInstances.v
theories/Proofs/OneSlackExamples.v
theories/Proofs/OneSlackProofs5.v
theories/Properties/P10_OneSlack.v
theories/Model/FrankWolfe.v
theories/Spec/FrankWolfeSpec.v
theories/Proofs/FrankWolfeProofs.v
theories/Proofs/FrankWolfeProofs2.v
theories/Proofs/FrankWolfeProofs3.v
theories/Proofs/FrankWolfeProofs4.v
theories/Properties/P11_FrankWolfe.v
theories/Model/Subgradient.v
theories/Spec/SubgradientSpec.v
theories/Proofs/SubgradientProofs.v
theories/Proofs/SubgradientProofs2.v
theories/Proofs/SubgradientProofs3.v
theories/Proofs/SubgradientProofs4.v
theories/Proofs/SubgradientProofs5.v
theories/Properties/P12_Subgradient.v
theories/Model/Perceptron.v
theories/Spec/PerceptronSpec.v
theories/Proofs/PerceptronProofs.v
theories/Proofs/PerceptronProofs2.v
theories/Proofs/PerceptronProofs3.v
theories/Proofs/PerceptronProofs4.v
theories/Properties/P13_Perceptron.v
theories/Model/LatentGraph.v
theories/Model/LatentLearner.v
theories/Model/SubgradientLatent.v
theories/Spec/LatentSpec.v
theories/Proofs/LatentProofs.v
theories/Proofs/LatentInit.v
theories/Proofs/LatentProofs2.v
theories/Proofs/LatentProofs3.v
theories/Proofs/LatentProofs4.v
theories/Proofs/LatentProofs5.v
theories/Proofs/LatentProofs6.v
theories/Properties/P14_Latent.v
theories/Model/LatentNode.v
theories/Spec/LatentNodeSpec.v
theories/Proofs/LatentNodeProofs.v
theories/Proofs/LatentNodeProofs2.v
theories/Proofs/LatentNodeProofs3.v
theories/Proofs/LatentNodeProofs4.v
theories/Properties/P15_LatentNode.v
theories/Model/LatentSSVM.v
theories/Spec/LatentSSVMSpec.v
theories/Proofs/LatentSSVMProofs.v
theories/Proofs/LatentSSVMProofs2.v
theories/Proofs/LatentSSVMProofs3.v
theories/Proofs/LatentSSVMExamples.v
theories/Properties/P16_LatentSSVM.v
theories/Model/Typed.v
theories/Spec/TypedSpec.v
theories/Proofs/TypedProofs.v
theories/Proofs/TypedLabels.v
theories/Proofs/TypedScore.v
theories/Proofs/TypedJoint.v
theories/Proofs/TypedLoss.v
theories/Proofs/TypedInference.v
theories/Proofs/TypedExamples.v
theories/Properties/P17_Typed.v
theories/Model/Logging.v
theories/Spec/LoggingSpec.v
theories/Proofs/LoggingProofs.v
theories/Proofs/LoggingExamples.v
theories/Properties/P18_Logging.v
theories/Model/Predict.v
theories/Spec/PredictSpec.v
theories/Proofs/PredictProofs.v
theories/Proofs/PredictInstances.v
theories/Properties/P19_Predict.v
theories/Model/Initialize.v
theories/Proofs/InitializeProofs.v
theories/Properties/P20_Initialize.v
theories/Spec/MixtureSpec.v
theories/Proofs/ForestLP.v
theories/Proofs/ForestLP2.v
theories/Properties/P21_ForestLP.v
theories/Model/SVM.v
theories/Spec/SVMSpec.v
theories/Proofs/SVMProofs.v
theories/Proofs/SVMProofs2.v
theories/Properties/P22_SVM.v
theories/Model/DownhillSimplex.v
theories/Proofs/DownhillProofs.v
theories/Properties/P23_Downhill.v
theories/Model/LatentGrid.v
theories/Spec/LatentGridSpec.v
theories/Proofs/LatentGridProofs.v
theories/Proofs/LatentGridProofs2.v
theories/Proofs/LatentGridProofs3.v
theories/Properties/P24_LatentGrid.v
theories/Spec/CuttingPlaneSpec.v
theories/Proofs/CuttingPlane.v
theories/Proofs/CuttingPlane2.v
theories/Proofs/CuttingPlane3.v
theories/Proofs/CuttingPlane4.v
theories/Proofs/CuttingPlane5.v
theories/Properties/P25_Rounds.v
theories/Spec/MoreTasks.v
theories/Spec/SpanSpec.v
theories/Model/MoreInstances.v
theories/Proofs/MoreInstanceProofs.v
theories/Proofs/SpanProofs.v
theories/Proofs/EndToEnd.v
theories/Proofs/TableSolver.v
theories/Proofs/EndToEndExamples.v
theories/Properties/P26_EndToEnd.v
theories/Proofs/SpanProofs2.v
theories/Proofs/EdgeSpan.v
theories/Proofs/EdgeSpanExamples.v
theories/Properties/P27_Span.v
theories/Model/Datasets.v
theories/Spec/DatasetSpec.v
theories/Proofs/DatasetProofs.v
theories/Proofs/DatasetProofs2.v
theories/Proofs/DatasetProofs3.v
theories/Proofs/DatasetProofs4.v
theories/Proofs/DatasetProofs5.v
theories/Properties/P28_Datasets.v
theories/Spec/FWRateSpec.v
theories/Proofs/FWRate.v
theories/Proofs/FWRate2.v
theories/Proofs/FWRate3.v
theories/Proofs/FWRate4.v
theories/Proofs/FWRate5.v
theories/Proofs/FWRate6.v
theories/Properties/P29_FrankWolfeRate.v
theories/Model/Curves.v
theories/Model/PlotLearning.v
theories/Spec/CurveSpec.v
theories/Proofs/CurveProofs.v
theories/Proofs/CurveProofs2.v
theories/Proofs/CurveProofs3.v
theories/Proofs/CurveProofs4.v
theories/Proofs/CurveProofs5.v
theories/Proofs/CurveProofs6.v
theories/Proofs/CurveProofs7.v
theories/Proofs/CurveProofs8.v
theories/Proofs/CurveProofs9.v
theories/Properties/P30_TrainingCurves.v
theories/Spec/SubgradientRateSpec.v
theories/Proofs/SubgradientRate.v
theories/Proofs/SubgradientRate2.v
theories/Proofs/SubgradientRate3.v
theories/Proofs/SubgradientRate4.v
theories/Proofs/SubgradientRate5.v
theories/Proofs/SubgradientRate6.v
theories/Proofs/SubgradientRate7.v
theories/Properties/P31_SubgradientConvergence.v
theories/Spec/AgreeSpec.v
theories/Proofs/Agree.v
theories/Proofs/AgreeExample.v
theories/Properties/P32_LearnersAgree.v
theories/Spec/SubgradientAvgSpec.v
theories/Proofs/SubgradientAvg.v
theories/Proofs/SubgradientAvg2.v
theories/Proofs/SubgradientAvg3.v
theories/Properties/P33_AveragedSubgradient.v
theories/Model/Convert.v
theories/Spec/SingleTypeSpec.v
theories/Spec/AlikeSpec.v
theories/Proofs/SingleType.v
theories/Proofs/SingleType2.v
theories/Proofs/Alike.v
theories/Proofs/Alike2.v
theories/Proofs/SingleTypeExamples.v
theories/Properties/P34_SingleType.v
theories/Properties/P35_SameFits.v
theories/Spec/SameModelSpec.v
theories/Proofs/SameModel.v
theories/Proofs/SameModel2.v
theories/Properties/P36_SameModel.v
theories/Model/Snakes.v
theories/Spec/SnakesSpec.v
theories/Proofs/Snakes.v
theories/Properties/P37_Snakes.v
theories/Model/HiddenSnakes.v
theories/Spec/HiddenSnakesSpec.v
theories/Proofs/HiddenSnakes.v
theories/Proofs/HiddenSnakes2.v
theories/Proofs/HiddenSnakes3.v
theories/Proofs/HiddenSnakes4.v
theories/Properties/P38_HiddenSnakes.v
theories/Model/SwapTypes.v
theories/Spec/SwapTypesSpec.v
theories/Proofs/SwapTypes.v
theories/Proofs/SwapTypes2.v
theories/Proofs/SwapTypes3.v
theories/Proofs/SwapTypes4.v
theories/Properties/P39_SwapTypes.v
theories/Model/TwoTypes.v
theories/Spec/TwoTypesSpec.v
theories/Proofs/TwoTypes.v
theories/Proofs/TwoTypes2.v
theories/Proofs/TwoTypes3.v
theories/Properties/P40_TwoTypes.v
theories/Model/GenSnakes.v
theories/Spec/GenSnakesSpec.v
theories/Proofs/GenSnakes.v
theories/Proofs/GenSnakes2.v
theories/Proofs/GenSnakes3.v
theories/Proofs/GenSnakes4.v
theories/Proofs/GenSnakes5.v
theories/Properties/P41_GenSnakes.v
theories/Model/SvmAsCrf.v
theories/Spec/SimilarSpec.v
theories/Proofs/Similar.v
theories/Proofs/Similar2.v
theories/Proofs/Similar3.v
theories/Proofs/OneNode.v
theories/Proofs/OneNode2.v
theories/Spec/FeatureOrderSpec.v
theories/Proofs/FeatureOrder.v
theories/Properties/P42_Similar.v
theories/Model/ChowLiu.v
theories/Spec/ChowLiuSpec.v
theories/Proofs/Kruskal.v
theories/Proofs/ChowLiu.v
theories/Properties/P43_ChowLiu.v
theories/Spec/BinarySpec.v
theories/Proofs/Binary.v
theories/Proofs/Binary2.v
theories/Properties/P44_Binary.v
theories/Model/Interrupt.v
theories/Spec/InterruptSpec.v
theories/Proofs/Interrupt.v
theories/Proofs/Interrupt2.v
theories/Proofs/Interrupt3.v
theories/Proofs/Interrupt4.v
theories/Properties/P45_Interrupt.v
theories/Spec/LoopySpec.v
theories/Proofs/Loopy.v
theories/Proofs/Loopy2.v
theories/Proofs/Loopy3.v
theories/Proofs/Loopy4.v
theories/Proofs/Loopy5.v
theories/Properties/P46_Loopy.v
theories/Spec/BinaryLPSpec.v
theories/Proofs/BinaryLP.v
theories/Proofs/BinaryLP2.v
theories/Proofs/BinaryLP3.v
theories/Proofs/BinaryLP4.v
theories/Properties/P47_BinaryLP.v
theories/Proofs/FourierMotzkin.v
theories/Proofs/FourierMotzkin2.v
theories/Model/RelaxedCRF.v
theories/Spec/RelaxedSpec.v
theories/Proofs/RelaxedTask.v
theories/Proofs/RelaxedLP.v
theories/Proofs/RelaxedTraining.v
theories/Proofs/RelaxedTraining2.v
theories/Proofs/RelaxedExamples.v
theories/Properties/P48_Relaxed.v
theories/Spec/NearSpec.v
theories/Proofs/Near.v
theories/Proofs/Near2.v
theories/Proofs/Near3.v
theories/Proofs/NearExamples.v
theories/Properties/P49_Near.v
theories/Model/Scripts.v
theories/Proofs/Scripts1.v
theories/Proofs/Scripts2.v
theories/Proofs/Scripts3.v
theories/Properties/P50_Scripts.v
theories/Model/SvmStruct.v
theories/Spec/SvmStructSpec.v
theories/Proofs/SvmStruct.v
theories/Proofs/SvmStructExamples.v
theories/Properties/P51_SvmStruct.v
theories/Proofs/Switch.v
theories/Properties/P52_Switch.v
theories/Spec/SettleSpec.v
theories/Proofs/Settle.v
theories/Proofs/Settle2.v
theories/Proofs/Settle3.v
theories/Properties/P53_Settle.v
theories/Proofs/PrimalCurve.v
theories/Proofs/PrimalCurve2.v
theories/Proofs/PrimalCurve3.v
theories/Properties/P54_PrimalCurve.v
theories/Spec/LatentCurveSpec.v
theories/Proofs/LatentCurve.v
theories/Proofs/LatentCurve2.v
theories/Properties/P55_SubgradientCurves.v
theories/Proofs/PrimalCurve4.v
theories/Spec/ParallelCurveSpec.v
theories/Proofs/ParallelCurve.v
theories/Proofs/ScoreProofs2.v
theories/Proofs/ParallelCurve2.v
theories/Model/InterruptFW.v
theories/Proofs/InterruptFW.v
theories/Spec/BatchCurveSpec.v
theories/Proofs/PrimalCurve5.v
theories/Proofs/PrimalCurve6.v
theories/Proofs/LatentOneNode.v
theories/Proofs/LatentOneNode2.v
theories/Properties/P56_LatentOneNode.v
theories/Proofs/SubgradientConstant.v
theories/Proofs/SubgradientConstant2.v
theories/Proofs/SubgradientConstant3.v
theories/Properties/P57_ConstantRate.v
theories/Model/SignedIndices.v
theories/Spec/SignedSpec.v
theories/Proofs/SignedProofs.v
theories/Properties/P58_SignedIndices.v
theories/Proofs/SubgradientNear.v
theories/Proofs/SubgradientNear2.v
theories/Properties/P59_SubgradientNear.v
theories/Spec/MomentumSpec.v
theories/Proofs/MomentumProofs.v
theories/Proofs/MomentumProofs2.v
theories/Properties/P60_Momentum.v
