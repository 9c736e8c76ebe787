-Q theories Verif
theories/M_AllWeights.v
theories/M_Backward.v
theories/M_Batch.v
theories/M_BatchCrown.v
theories/M_Clone.v
theories/M_Complexity.v
theories/M_Config.v
theories/M_Convert.v
theories/M_Core.v
theories/M_Crown.v
theories/M_Domain.v
theories/M_Float.v
theories/M_FloatAffine.v
theories/M_FloatCrown.v
theories/M_FloatHull.v
theories/M_FloatMerge.v
theories/M_FloatNet.v
theories/M_Grid.v
theories/M_GridParams.v
theories/M_LayerFn.v
theories/M_Layers.v
theories/M_LinearProd.v
theories/M_MergeLayers.v
theories/M_Metrics.v
theories/M_Names.v
theories/M_Network.v
theories/M_Ops.v
theories/M_Pool.v
theories/M_Rounding.v
theories/M_RoundingCrown.v
theories/M_Shapes.v
theories/M_Shared.v
theories/M_State.v
theories/M_Utils.v
theories/M_Weights.v
theories/M_Wrapper.v
theories/P_Act.v
theories/P_AllWeights.v
theories/P_Axis.v
theories/P_Backward.v
theories/P_BackwardMore.v
theories/P_BackwardOps.v
theories/P_BackwardThm.v
theories/P_Batch.v
theories/P_BatchBN.v
theories/P_BatchClone.v
theories/P_BatchCrown.v
theories/P_BatchCrownThm.v
theories/P_BatchLayers.v
theories/P_BatchNet.v
theories/P_Clone.v
theories/P_CloneNear.v
theories/P_CloneNearThm.v
theories/P_CloneThm.v
theories/P_Complexity.v
theories/P_Config.v
theories/P_ConfigMore.v
theories/P_ConfigThm.v
theories/P_Convert.v
theories/P_ConvertThm.v
theories/P_Core.v
theories/P_CoreThm.v
theories/P_Crown.v
theories/P_DC.v
theories/P_Domain.v
theories/P_DomainClone.v
theories/P_DomainNear.v
theories/P_DomainThm.v
theories/P_Exact.v
theories/P_FinetuneUpper.v
theories/P_Float.v
theories/P_Float32.v
theories/P_FloatAffine.v
theories/P_FloatAffineThm.v
theories/P_FloatCrown.v
theories/P_FloatCrownThm.v
theories/P_FloatHull.v
theories/P_FloatMerge.v
theories/P_FloatNet.v
theories/P_FloatThm.v
theories/P_Graph.v
theories/P_Grid.v
theories/P_GridParams.v
theories/P_Hull.v
theories/P_Inclusion.v
theories/P_InclusionClone.v
theories/P_InclusionPool.v
theories/P_InclusionThm.v
theories/P_LayerFn.v
theories/P_Layers.v
theories/P_LayersThm.v
theories/P_LinearProd.v
theories/P_Lipschitz.v
theories/P_Merge.v
theories/P_MergeLayers.v
theories/P_Metrics.v
theories/P_MetricsAdv.v
theories/P_MetricsCE.v
theories/P_MetricsLoss.v
theories/P_MetricsScore.v
theories/P_MetricsThm.v
theories/P_MetricsThm2.v
theories/P_Move.v
theories/P_Names.v
theories/P_NamesThm.v
theories/P_Near.v
theories/P_NearCrown.v
theories/P_NearThm.v
theories/P_Network.v
theories/P_NetworkCrown.v
theories/P_NetworkExact.v
theories/P_NetworkExactThm.v
theories/P_NetworkForward.v
theories/P_NetworkOutputs.v
theories/P_NetworkSpec.v
theories/P_NetworkThm.v
theories/P_Ops.v
theories/P_OpsThm.v
theories/P_Pool.v
theories/P_Restore.v
theories/P_Rounding.v
theories/P_RoundingCrown.v
theories/P_RoundingCrownThm.v
theories/P_RoundingCurved.v
theories/P_RoundingThm.v
theories/P_SShape.v
theories/P_Shapes.v
theories/P_Shared.v
theories/P_SharedThm.v
theories/P_Softmax.v
theories/P_Softplus.v
theories/P_Sort.v
theories/P_SortAxis.v
theories/P_State.v
theories/P_StateDomain.v
theories/P_StateNames.v
theories/P_StateTables.v
theories/P_StateThm.v
theories/P_StateWeights.v
theories/P_Utils.v
theories/P_UtilsThm.v
theories/P_Weights.v
theories/P_WeightsThm.v
theories/P_Wrapper.v
theories/P_WrapperAdv.v
theories/P_WrapperAdvBox.v
theories/P_WrapperBox.v
theories/P_WrapperLabels.v
theories/P_WrapperNoise.v
theories/P_WrapperRefine.v
theories/P_WrapperThm.v
theories/P_WrapperTune.v
theories/Properties_AllWeights.v
theories/Properties_Axis.v
theories/Properties_Backward.v
theories/Properties_Batch.v
theories/Properties_BatchCrown.v
theories/Properties_Clone.v
theories/Properties_CloneNear.v
theories/Properties_Complexity.v
theories/Properties_Config.v
theories/Properties_Convert.v
theories/Properties_Core.v
theories/Properties_Domain.v
theories/Properties_DomainNear.v
theories/Properties_Finetune.v
theories/Properties_Float.v
theories/Properties_FloatAffine.v
theories/Properties_FloatCrown.v
theories/Properties_FloatHull.v
theories/Properties_FloatMerge.v
theories/Properties_FloatNet.v
theories/Properties_Grid.v
theories/Properties_GridParams.v
theories/Properties_Inclusion.v
theories/Properties_LayerFn.v
theories/Properties_Layers.v
theories/Properties_LinearProd.v
theories/Properties_Metrics.v
theories/Properties_Names.v
theories/Properties_Near.v
theories/Properties_Network.v
theories/Properties_Ops.v
theories/Properties_Outputs.v
theories/Properties_Restore.v
theories/Properties_Rounding.v
theories/Properties_RoundingCrown.v
theories/Properties_RoundingCurved.v
theories/Properties_Shapes.v
theories/Properties_Shared.v
theories/Properties_Softmax.v
theories/Properties_Softplus.v
theories/Properties_State.v
theories/Properties_Utils.v
theories/Properties_Weights.v
theories/Properties_Wrapper.v
theories/RLib.v
theories/Spec.v
theories/Spec_Backward.v
theories/Spec_Batch.v
theories/Spec_Complexity.v
theories/Spec_Config.v
theories/Spec_Convert.v
theories/Spec_Domain.v
theories/Spec_Float.v
theories/Spec_FloatAffine.v
theories/Spec_FloatCrown.v
theories/Spec_FloatMerge.v
theories/Spec_FloatNet.v
theories/Spec_Grid.v
theories/Spec_GridParams.v
theories/Spec_Inclusion.v
theories/Spec_LayerFn.v
theories/Spec_Layers.v
theories/Spec_Metrics.v
theories/Spec_Names.v
theories/Spec_Near.v
theories/Spec_Network.v
theories/Spec_Outputs.v
theories/Spec_Rounding.v
theories/Spec_RoundingCrown.v
theories/Spec_RoundingCurved.v
theories/Spec_Shapes.v
theories/Spec_Shared.v
theories/Spec_Softmax.v
theories/Spec_State.v
theories/Spec_Weights.v
theories/Spec_Wrapper.v
