-Q theories Verif
theories/Prelude.v
theories/Budget.v
theories/BudgetProofs.v
theories/BudgetScale.v
theories/Props_Budget.v
theories/Props_BudgetMore.v
theories/Binning.v
theories/BinningProofs.v
theories/Props_Binning.v
theories/Value.v
theories/KeySet.v
theories/KeySetSem.v
theories/KeySetRules.v
theories/KeySetApi.v
theories/KeySetMore.v
theories/KeySetTotal.v
theories/KeySetTotalRules.v
theories/KeySetTotalApi.v
theories/KeySetMoreApi.v
theories/Props_KeySet.v
theories/Props_KeyLaws.v
theories/KeySetSchema.v
theories/KeySetSchemaApi.v
theories/Props_KeySetSchema.v
theories/KeySetRefused.v
theories/Props_KeySetRefused.v
theories/Rows.v
theories/Constraints.v
theories/ConstraintsSpec.v
theories/ConstraintsProofs.v
theories/ConstraintsStab.v
theories/Props_Constraints.v
theories/Schema.v
theories/SchemaProofs.v
theories/Props_Schema.v
theories/Query.v
theories/Transform.v
theories/TransformSpec.v
theories/TransformConform.v
theories/TransformVisit.v
theories/TransformAgree.v
theories/TransformIds.v
theories/QueryProofs.v
theories/PropagateProofs.v
theories/Props_Query.v
theories/Rewrite.v
theories/RewriteSpec.v
theories/RewriteProofs.v
theories/RewriteRows.v
theories/Props_Rewrite.v
theories/QueryAccept.v
theories/Props_Accept.v
theories/QuerySame.v
theories/Tables.v
theories/TablesProofs.v
theories/Accountant.v
theories/AccountantProofs.v
theories/Session.v
theories/SessionSpec.v
theories/SessionMoney.v
theories/SessionSteps.v
theories/SessionTables.v
theories/SessionInv.v
theories/SessionUse.v
theories/SessionCharge.v
theories/SessionViews.v
theories/SessionWell.v
theories/SessionNames.v
theories/SessionParts.v
theories/Props_Tables.v
theories/Props_Session.v
theories/Props_Views.v
theories/Neighboring.v
theories/Builder.v
theories/NeighboringSpec.v
theories/NeighboringProofs.v
theories/NeighboringDistance.v
theories/BuilderProofs.v
theories/BuilderTree.v
theories/BuilderBuild.v
theories/BuilderCalls.v
theories/BuilderSpec.v
theories/BuilderNeighbours.v
theories/Props_Builder.v
theories/Config.v
theories/Props_Config.v
theories/Measure.v
theories/MeasureProofs.v
theories/MeasureCount.v
theories/MeasureRows.v
theories/Props_Measure.v
theories/QueryLike.v
theories/MeasureLike.v
theories/Props_Order.v
theories/QueryEq.v
theories/QueryEqProofs.v
theories/Props_QueryEq.v
theories/QueryBuilder.v
theories/QueryBuilderProofs.v
theories/QueryBuilderMeasure.v
theories/Props_QueryBuilder.v
theories/OperationsSpec.v
theories/OperationsProofs.v
theories/Props_Operations.v
theories/SessionSound.v
theories/Props_Sound.v
theories/BlindSpec.v
theories/Blind.v
theories/BlindSession.v
theories/BlindMeasure.v
theories/BlindBuilder.v
theories/Props_Blind.v
theories/PersonSpec.v
theories/PersonSession.v
theories/PersonStart.v
theories/Props_Person.v
theories/Distance.v
theories/SensitivitySpec.v
theories/SensitivityReads.v
theories/Sensitivity.v
theories/PersonAbsent.v
theories/SensitivityCounts.v
theories/Props_Sensitivity.v
theories/PrivacySpec.v
theories/PrivacyProofs.v
theories/PrivacyInstance.v
theories/Props_Privacy.v
theories/PrivacyReal.v
theories/Props_PrivacyReal.v
theories/StabilitySpec.v
theories/RowStability.v
theories/RowStabilityMeasure.v
theories/Props_Stability.v
theories/FullPrivacySpec.v
theories/FullStability.v
theories/FullSpaces.v
theories/FullSessionSpec.v
theories/FullMoves.v
theories/FullNear.v
theories/FullParts.v
theories/FullPlay.v
theories/FullStart.v
theories/NoiseInfo.v
theories/Props_NoiseInfo.v
theories/Props_FullPrivacy.v
theories/Props_FullPrivacyReal.v
theories/Describe.v
theories/Props_Describe.v
theories/Utils.v
theories/Props_Utils.v
theories/Message.v
theories/Props_Message.v
theories/Props_Partition.v
theories/BinEdges.v
theories/BinEdgesProofs.v
theories/Props_BinEdges.v
theories/BinWritten.v
theories/Props_BinWritten.v
theories/KeySetObject.v
theories/KeySetObjectSpec.v
theories/KeySetObjectProofs.v
theories/KeySetStorage.v
theories/Props_KeySetObject.v
theories/AnswerSchema.v
theories/Props_AnswerSchema.v
theories/AnswerKeys.v
theories/Props_AnswerKeys.v
theories/Exact.v
theories/Props_Exact.v
theories/Props_ExactSession.v
theories/Sums.v
theories/Props_Sums.v
theories/Props_Reported.v
theories/Props_Tight.v
theories/MoreBudget.v
theories/Props_MoreBudget.v
theories/Footprint.v
theories/Props_Footprint.v
theories/TransformTotal.v
theories/SessionBare.v
theories/SessionViewTotal.v
theories/Props_Computed.v
theories/Props_BuilderCalls.v
theories/MeasureTotal.v
theories/Props_Compiled.v
theories/QueryLaws.v
theories/LawAnswers.v
theories/Props_Laws.v
theories/AnyOrder.v
theories/Props_AnyOrder.v
theories/Shown.v
theories/Props_Shown.v
theories/ViewAnswers.v
theories/Props_ViewAnswers.v
theories/Props_PartAnswers.v
theories/Props_InTurn.v
theories/Props_Housekeeping.v
theories/Props_Failures.v
theories/Renaming.v
theories/RenamedSession.v
theories/Props_Renaming.v
theories/Props_RollUp.v
theories/Props_RollUpParts.v
theories/Props_TruncatedCounts.v
theories/Props_FollowedCounts.v
