-Q theories Verif

theories/Text.v
theories/NumSpec.v
theories/TextProofs.v
theories/LlvmInt.v
theories/LlvmIntProofs.v
theories/ConstraintModel.v
theories/ConstraintSpec.v
theories/ConstraintParserModel.v
theories/ConstraintTokenSpec.v
theories/ConstraintParserProofs.v
theories/ConstraintLexerProofs.v
theories/ConstraintRoundTrip.v
theories/Props_Constraint.v
theories/ConstraintMachine.v
theories/ConstraintBuilderModel.v
theories/ConstraintBuilderSpec.v
theories/ConstraintBuilderProofs.v
theories/ConstraintAgreement.v
theories/ConstraintHeapModel.v
theories/ConstraintHeapSpec.v
theories/ConstraintHeapProofs.v
theories/Props_Builder.v
theories/TextSearch.v
theories/SourceRangeModel.v
theories/SourceRangeSpec.v
theories/SourceRangeProofs.v
theories/Props_SourceRange.v
theories/ConfigurationModel.v
theories/ConfigurationSpec.v
theories/ConfigurationProofs.v
theories/JsonText.v
theories/Props_Configuration.v
theories/StepFunctionModel.v
theories/StepFunctionSpec.v
theories/StepFunctionProofs.v
theories/Props_StepFunction.v
theories/FeatureTreeModel.v
theories/FeatureTreeSpec.v
theories/FeatureTreeProofs.v
theories/FeatureOrderProofs.v
theories/FeatureTreeExamples.v
theories/FeatureTreeFinal.v
theories/Props_FeatureTree.v
theories/FeatureTransactionModel.v
theories/FeatureEditSpec.v
theories/FeatureEditProofs.v
theories/FeatureOpsProofs.v
theories/FeatureRemoveProofs.v
theories/FeatureGroupProofs.v
theories/FeatureDataProofs.v
theories/FeatureRootProofs.v
theories/FeatureHistoryProofs.v
theories/FeatureTransactionSpec.v
theories/FeatureTransactionFinal.v
theories/FeatureTransactionExamples.v
theories/Props_Transactions.v
theories/FeatureIsolationProofs.v
theories/FeatureBuildSpec.v
theories/FeatureBuildProofs.v
theories/FeatureBuildFinal.v
theories/FeatureCloneSpec.v
theories/FeatureCloneProofs.v
theories/FeatureBuildExamples.v
theories/Props_Building.v
theories/SolverModel.v
theories/SolverSpec.v
theories/SolverProofs.v
theories/SolverLoadProofs.v
theories/SolverEncodingProofs.v
theories/SolverEnumerationProofs.v
theories/SolverFinal.v
theories/SolverExamples.v
theories/Props_Solver.v
theories/FeatureBulkSpec.v
theories/FeatureBulkProofs.v
theories/FeatureBulkExamples.v
theories/Props_Bulk.v
theories/FeatureMergeSpec.v
theories/FeatureMergeProofs.v
theories/FeatureMergeWalk.v
theories/FeatureMergeSteps.v
theories/FeatureMergeFinal.v
theories/FeatureMergeResult.v
theories/FeatureMergeExamples.v
theories/Props_Merge.v
theories/SxfmModel.v
theories/SxfmSpec.v
theories/SxfmLineProofs.v
theories/SxfmTreeProofs.v
theories/SxfmTreeFinal.v
theories/SxfmBuildProofs.v
theories/SxfmFormulaSpec.v
theories/SxfmFormulaProofs.v
theories/SxfmClauseProofs.v
theories/SxfmFinal.v
theories/SxfmExamples.v
theories/Props_Sxfm.v
theories/SampleModel.v
theories/SampleSpec.v
theories/SampleProofs.v
theories/SampleExamples.v
theories/Props_Sample.v
theories/XmlModel.v
theories/XmlWriterModel.v
theories/XmlSpec.v
theories/XmlTextSpec.v
theories/XmlTextProofs.v
theories/XmlEnrollProofs.v
theories/XmlDetectProofs.v
theories/XmlDetectFinal.v
theories/XmlReadProofs.v
theories/XmlFinal.v
theories/XmlExamples.v
theories/XmlTripSpec.v
theories/XmlTripText.v
theories/XmlTripWrite.v
theories/XmlTripOption.v
theories/XmlTripCalls.v
theories/XmlTripDoc.v
theories/XmlTripFinal.v
theories/XmlTripExamples.v
theories/Props_Xml.v
theories/ValidSpec.v
theories/ValidProofs.v
theories/ValidCloneProofs.v
theories/ValidTripProofs.v
theories/ValidFinal.v
theories/ValidExamples.v
theories/Props_Valid.v
theories/DescribedSpec.v
theories/DescribedProofs.v
theories/DescribedFinal.v
theories/DescribedExamples.v
theories/Props_Described.v
theories/GeneratorModel.v
theories/GeneratorSpec.v
theories/GeneratorProofs.v
theories/GeneratorFinal.v
theories/GeneratorExamples.v
theories/Props_Generator.v
theories/FeatureRecursiveModel.v
theories/FeatureRecursiveSpec.v
theories/FeatureRecursiveProofs.v
theories/FeatureRecursiveFinal.v
theories/FeatureRecursiveExamples.v
theories/Props_Recursive.v
theories/SxfmConfigSpec.v
theories/SxfmConfigProofs.v
theories/SxfmConfigFinal.v
theories/SxfmConfigExamples.v
theories/Props_SxfmConfig.v
theories/GraphvizModel.v
theories/GraphvizSpec.v
theories/GraphvizProofs.v
theories/GraphvizFinal.v
theories/GraphvizReadProofs.v
theories/GraphvizLabelProofs.v
theories/GraphvizExamples.v
theories/Props_Graphviz.v
theories/DumpModel.v
theories/DumpSpec.v
theories/DumpProofs.v
theories/DumpFinal.v
theories/DumpExamples.v
theories/Props_Dump.v
theories/RegisterSpec.v
theories/RegisterProofs.v
theories/RegisterFinal.v
theories/RegisterDrawProofs.v
theories/RegisterExamples.v
theories/Props_Register.v
theories/ViewerModel.v
theories/ViewerSpec.v
theories/ViewerProofs.v
theories/ViewerDumpProofs.v
theories/ViewerDrawProofs.v
theories/ViewerFinal.v
theories/ViewerExamples.v
theories/Props_Viewer.v
theories/EditValidSpec.v
theories/EditValidProofs.v
theories/EditValidOps.v
theories/EditValidFinal.v
theories/EditValidData.v
theories/EditValidExamples.v
theories/Props_EditValid.v
theories/SxfmDocModel.v
theories/SxfmDocSpec.v
theories/SxfmDocProofs.v
theories/SxfmDocFinal.v
theories/Props_SxfmDoc.v
theories/DoubleModel.v
theories/DoubleSpec.v
theories/DoubleProofs.v
theories/DoubleStepProofs.v
theories/DoubleSciProofs.v
theories/DoubleLargeProofs.v
theories/DoubleFinal.v
theories/Props_Double.v
theories/OutcomeSpec.v
theories/OutcomeProofs.v
theories/OutcomeFinal.v
theories/OutcomeExamples.v
theories/Props_Outcome.v
theories/XmlOutcomeSpec.v
theories/XmlOutcomeProofs.v
theories/XmlOutcomeExamples.v
theories/LoopProofs.v
theories/XmlLostSpec.v
theories/XmlLostProofs.v
theories/XmlLostExamples.v
theories/Props_XmlOutcome.v
theories/CharacterProofs.v
theories/DtdModel.v
theories/DtdSpec.v
theories/DtdProofs.v
theories/SxfmLevelSpec.v
theories/SxfmLevelProofs.v
theories/CopyCallProofs.v
theories/XmlStepProofs.v
theories/EditCallModel.v
theories/EditCallSpec.v
theories/EditCallProofs.v
theories/PyModel.v
theories/PySpec.v
theories/PyProofs.v
theories/PyExamples.v
theories/Props_EditCalls.v
theories/Props_Python.v
theories/XmlRangeSpec.v
theories/XmlRangeProofs.v
theories/XmlRangeExamples.v
theories/Props_XmlRange.v
theories/MergeValidSpec.v
theories/MergeValidProofs.v
theories/MergeValidFinal.v
theories/MergeValidExamples.v
theories/Props_MergeValid.v
theories/XmlCycleSpec.v
theories/XmlCycleProofs.v
theories/XmlCycleFinal.v
theories/XmlCycleExamples.v
theories/Props_XmlCycle.v
theories/FeatureEqModel.v
theories/FeatureEqSpec.v
theories/FeatureEqProofs.v
theories/FeatureEqExamples.v
theories/Props_FeatureEq.v
theories/XmlCountSpec.v
theories/XmlCountProofs.v
theories/XmlCountFinal.v
theories/XmlCountExamples.v
theories/Props_XmlCount.v
theories/XmlSameSpec.v
theories/XmlSameProofs.v
theories/XmlSameFinal.v
theories/XmlSameExamples.v
theories/Props_XmlSame.v
theories/SafeSpec.v
theories/SafeProofs.v
theories/SafeMadeSpec.v
theories/SafeFinal.v
theories/SafeExamples.v
theories/Props_Safe.v
theories/SameValidProofs.v
theories/SameValidFinal.v
theories/SameValidExamples.v
theories/Props_SameValid.v
theories/CopySafeSpec.v
theories/CopySafeProofs.v
theories/CopySafeExamples.v
theories/Props_CopySafe.v
theories/CloneSameSpec.v
theories/CloneSameProofs.v
theories/CloneSameFinal.v
theories/CloneSameExamples.v
theories/Props_CloneSame.v
theories/SxfmXmlSpec.v
theories/SxfmXmlProofs.v
theories/SxfmXmlConfigProofs.v
theories/SxfmXmlFinal.v
theories/SxfmXmlExamples.v
theories/Props_SxfmXml.v
theories/XmlBelowSpec.v
theories/XmlBelowCalls.v
theories/XmlBelowFinal.v
theories/XmlBelowValidProofs.v
theories/XmlBelowValidFinal.v
theories/XmlBelowCycle.v
theories/XmlBelowExamples.v
theories/Props_XmlBelow.v
theories/SxfmBelowSpec.v
theories/SxfmBelowProofs.v
theories/SxfmBelowFinal.v
theories/SxfmBelowExamples.v
theories/Props_SxfmBelow.v
theories/MergeAgainSpec.v
theories/MergeAgainFinal.v
theories/MergeAgainExamples.v
theories/Props_MergeAgain.v
theories/MergeOrderSpec.v
theories/MergeOrderFinal.v
theories/MergeOrderExamples.v
theories/Props_MergeOrder.v
theories/UndoSpec.v
theories/UndoFinal.v
theories/UndoExamples.v
theories/Props_Undo.v
theories/BuildOrderSpec.v
theories/BuildOrderFinal.v
theories/BuildOrderExamples.v
theories/Props_BuildOrder.v
theories/MoveModel.v
theories/MoveSpec.v
theories/MoveFinal.v
theories/MoveExamples.v
theories/Props_Move.v
theories/ResultModel.v
theories/ResultSpec.v
theories/ResultFinal.v
theories/ResultExamples.v
theories/Props_Result.v
theories/CountSpec.v
theories/CountBase.v
theories/CountProofs.v
theories/CountFinal.v
theories/CountEdit.v
theories/CountExamples.v
theories/Props_Count.v
theories/ReuseModel.v
theories/ReuseSpec.v
theories/ReuseFinal.v
theories/ReuseExamples.v
theories/Props_Reuse.v
theories/IteratorModel.v
theories/IteratorSpec.v
theories/IteratorProofs.v
theories/IteratorFinal.v
theories/IteratorExamples.v
theories/Props_Iterator.v
theories/SplitSpec.v
theories/SplitProofs.v
theories/SplitFinal.v
theories/SplitExamples.v
theories/Props_Split.v
theories/SessionModel.v
theories/SessionSpec.v
theories/SessionProofs.v
theories/SessionExamples.v
theories/Props_Session.v
theories/MergeManyModel.v
theories/MergeManySpec.v
theories/MergeManyProofs.v
theories/MergeManyFinal.v
theories/MergeManyExamples.v
theories/Props_MergeMany.v
theories/SaveModel.v
theories/SaveSpec.v
theories/SaveProofs.v
theories/Props_Save.v
theories/LengthModel.v
theories/LengthSpec.v
theories/LengthProofs.v
theories/Props_Length.v
theories/TreeIterModel.v
theories/TreeIterSpec.v
theories/TreeIterProofs.v
theories/TreeIterSlices.v
theories/TreeIterFinal.v
theories/Props_TreeIter.v
