-Q theories Verif
theories/Base.v
theories/FloatB32.v
theories/FloatOps.v
theories/FloatR.v
theories/FloatV32.v
theories/Model_Cli.v
theories/Model_Coin.v
theories/Model_Command.v
theories/Model_Config.v
theories/Model_Explore.v
theories/Model_Export.v
theories/Model_Factory.v
theories/Model_Features.v
theories/Model_Hash.v
theories/Model_Interactions.v
theories/Model_InvHash.v
theories/Model_Json.v
theories/Model_JsonTrain.v
theories/Model_Loss.v
theories/Model_Metrics.v
theories/Model_Pipeline.v
theories/Model_Pool.v
theories/Model_Python.v
theories/Model_Save.v
theories/Model_Schema.v
theories/Model_Stack.v
theories/Model_Text.v
theories/Model_Train.v
theories/Model_Types.v
theories/Model_Weights.v
theories/Proof_ActOrder.v
theories/Proof_ActOrderEx.v
theories/Proof_Alike.v
theories/Proof_AlikeEx.v
theories/Proof_AlikeMore.v
theories/Proof_Betting.v
theories/Proof_Bettor.v
theories/Proof_Builds.v
theories/Proof_BuildsData.v
theories/Proof_BuildsEx.v
theories/Proof_BuildsPipe.v
theories/Proof_BuildsPy.v
theories/Proof_Built.v
theories/Proof_CbExplore.v
theories/Proof_Cli.v
theories/Proof_CliEx.v
theories/Proof_CliRuns.v
theories/Proof_Coin.v
theories/Proof_CoinR.v
theories/Proof_Command.v
theories/Proof_CommandEx.v
theories/Proof_Config.v
theories/Proof_Context.v
theories/Proof_ContextEx.v
theories/Proof_Debug.v
theories/Proof_DebugToo.v
theories/Proof_DebugTooEx.v
theories/Proof_Decide.v
theories/Proof_Delegate.v
theories/Proof_DsJson.v
theories/Proof_Elem.v
theories/Proof_ElemStack.v
theories/Proof_ElemStackEx.v
theories/Proof_Empty.v
theories/Proof_EmptyProps.v
theories/Proof_Explore.v
theories/Proof_ExploreProps.v
theories/Proof_Export.v
theories/Proof_ExportReach.v
theories/Proof_Features.v
theories/Proof_FeaturesHist.v
theories/Proof_Fit.v
theories/Proof_FitEx.v
theories/Proof_FloatEnforce.v
theories/Proof_FloatExplore.v
theories/Proof_FloatMorph.v
theories/Proof_FloatOrder.v
theories/Proof_FloatPolicy.v
theories/Proof_FloatRound.v
theories/Proof_FloatSqrt.v
theories/Proof_FloatSum.v
theories/Proof_FloatZero.v
theories/Proof_Flow.v
theories/Proof_Foreach.v
theories/Proof_Formats.v
theories/Proof_FormatsEx.v
theories/Proof_Fresh.v
theories/Proof_FreshEx.v
theories/Proof_Hash.v
theories/Proof_Inter.v
theories/Proof_InvHash.v
theories/Proof_Json.v
theories/Proof_JsonAccept.v
theories/Proof_JsonAcceptEx.v
theories/Proof_JsonChunk.v
theories/Proof_JsonLabel.v
theories/Proof_JsonPlan.v
theories/Proof_JsonTrain.v
theories/Proof_Lag.v
theories/Proof_Lambert.v
theories/Proof_Learn.v
theories/Proof_LearnCb.v
theories/Proof_LearnEx.v
theories/Proof_Lifetime.v
theories/Proof_LifetimeEx.v
theories/Proof_Loose.v
theories/Proof_Loss.v
theories/Proof_Merge.v
theories/Proof_MergeEx.v
theories/Proof_Metrics.v
theories/Proof_OffPolicy.v
theories/Proof_Order.v
theories/Proof_Pieces.v
theories/Proof_PipeTrain.v
theories/Proof_Pipeline.v
theories/Proof_Pool.v
theories/Proof_Progress.v
theories/Proof_Python.v
theories/Proof_PythonEx.v
theories/Proof_PythonFits.v
theories/Proof_PythonPool.v
theories/Proof_Reductions.v
theories/Proof_ReductionsR.v
theories/Proof_Regret.v
theories/Proof_Release.v
theories/Proof_Retell.v
theories/Proof_Save.v
theories/Proof_Scale.v
theories/Proof_ScaleCb.v
theories/Proof_ScaleCbEx.v
theories/Proof_ScaleEx.v
theories/Proof_Schema.v
theories/Proof_SchemaDone.v
theories/Proof_SchemaEnd.v
theories/Proof_SchemaLeaf.v
theories/Proof_SchemaLoad.v
theories/Proof_Scores.v
theories/Proof_Sensitivity.v
theories/Proof_Shuffle.v
theories/Proof_ShuffleEx.v
theories/Proof_StackCong.v
theories/Proof_StackProps.v
theories/Proof_StackPtl.v
theories/Proof_StackRel.v
theories/Proof_StackRestore.v
theories/Proof_StackShape.v
theories/Proof_StackTwo.v
theories/Proof_TextChunk.v
theories/Proof_TextFeats.v
theories/Proof_TextParse.v
theories/Proof_TextRead.v
theories/Proof_Total.v
theories/Proof_Train.v
theories/Proof_Trained.v
theories/Proof_TrainedEx.v
theories/Proof_Types.v
theories/Proof_Unbiased.v
theories/Proof_UnbiasedEx.v
theories/Proof_Units.v
theories/Proof_UnitsEx.v
theories/Proof_Unseen.v
theories/Proof_UnseenEx.v
theories/Proof_UnseenMore.v
theories/Proof_Values.v
theories/Proof_ValuesEx.v
theories/Proof_Weights.v
theories/Proof_WeightsProps.v
theories/Proof_Words.v
theories/Proof_WordsDebug.v
theories/Proof_WordsDebugEx.v
theories/Proof_WordsEx.v
theories/Proof_WordsTrain.v
theories/Proof_Zero.v
theories/Proof_ZeroEx.v
theories/Prop_ActOrder.v
theories/Prop_Alike.v
theories/Prop_Betting.v
theories/Prop_Builds.v
theories/Prop_Built.v
theories/Prop_CbExplore.v
theories/Prop_Cli.v
theories/Prop_Coin.v
theories/Prop_Command.v
theories/Prop_Config.v
theories/Prop_Context.v
theories/Prop_Debug.v
theories/Prop_DebugToo.v
theories/Prop_Decide.v
theories/Prop_Delegate.v
theories/Prop_Elem.v
theories/Prop_ElemStack.v
theories/Prop_Empty.v
theories/Prop_Explore.v
theories/Prop_Export.v
theories/Prop_Features.v
theories/Prop_Fit.v
theories/Prop_FloatExplore.v
theories/Prop_Flow.v
theories/Prop_Foreach.v
theories/Prop_Formats.v
theories/Prop_Fresh.v
theories/Prop_Hash.v
theories/Prop_InvHash.v
theories/Prop_Json.v
theories/Prop_JsonAccept.v
theories/Prop_Learn.v
theories/Prop_Lifetime.v
theories/Prop_Loss.v
theories/Prop_Merge.v
theories/Prop_Metrics.v
theories/Prop_Order.v
theories/Prop_Pipeline.v
theories/Prop_Pool.v
theories/Prop_Progress.v
theories/Prop_Python.v
theories/Prop_Reductions.v
theories/Prop_Release.v
theories/Prop_Save.v
theories/Prop_Scale.v
theories/Prop_Schema.v
theories/Prop_Scores.v
theories/Prop_Sensitivity.v
theories/Prop_Shuffle.v
theories/Prop_Stack.v
theories/Prop_Text.v
theories/Prop_Total.v
theories/Prop_Train.v
theories/Prop_Trained.v
theories/Prop_Types.v
theories/Prop_Unbiased.v
theories/Prop_Units.v
theories/Prop_Unseen.v
theories/Prop_Values.v
theories/Prop_Weights.v
theories/Prop_Words.v
theories/Prop_Zero.v
theories/Spec_ActOrder.v
theories/Spec_Alike.v
theories/Spec_Builds.v
theories/Spec_Built.v
theories/Spec_CbExplore.v
theories/Spec_Cli.v
theories/Spec_Coin.v
theories/Spec_Command.v
theories/Spec_Config.v
theories/Spec_Context.v
theories/Spec_Debug.v
theories/Spec_DebugToo.v
theories/Spec_Decide.v
theories/Spec_Delegate.v
theories/Spec_Elem.v
theories/Spec_ElemStack.v
theories/Spec_Empty.v
theories/Spec_Explore.v
theories/Spec_Export.v
theories/Spec_Features.v
theories/Spec_Fit.v
theories/Spec_FloatReal.v
theories/Spec_Flow.v
theories/Spec_Foreach.v
theories/Spec_Formats.v
theories/Spec_Fresh.v
theories/Spec_Hash.v
theories/Spec_Inter.v
theories/Spec_InvHash.v
theories/Spec_Json.v
theories/Spec_JsonAccept.v
theories/Spec_JsonLabel.v
theories/Spec_Learn.v
theories/Spec_Lifetime.v
theories/Spec_Loss.v
theories/Spec_Merge.v
theories/Spec_Metrics.v
theories/Spec_OffPolicy.v
theories/Spec_Order.v
theories/Spec_Pipeline.v
theories/Spec_Pool.v
theories/Spec_Progress.v
theories/Spec_Python.v
theories/Spec_Reductions.v
theories/Spec_Regret.v
theories/Spec_Release.v
theories/Spec_Save.v
theories/Spec_Scale.v
theories/Spec_Schema.v
theories/Spec_Scores.v
theories/Spec_Sensitivity.v
theories/Spec_Shuffle.v
theories/Spec_Stack.v
theories/Spec_Text.v
theories/Spec_Total.v
theories/Spec_Trained.v
theories/Spec_Types.v
theories/Spec_Unbiased.v
theories/Spec_Units.v
theories/Spec_Unseen.v
theories/Spec_Values.v
theories/Spec_Weights.v
theories/Spec_Words.v
theories/Spec_Zero.v
theories/Test_Stack.v
