-Q theories Verif
theories/Num.v
theories/GoBase.v
theories/VarModel.v
theories/Tuples.v
theories/GoFacts.v
theories/SpecFactor.v
theories/FactorFacts.v
theories/FactorSum.v
theories/FactorProd.v
theories/FactorPolicy.v
theories/FactorAt.v
theories/XnumFacts.v
theories/ExactFactor.v
theories/FactorThms.v
theories/Props_Factor.v
theories/VEModel.v
theories/SpecVE.v
theories/VEWorlds.v
theories/VEFacts.v
theories/VETopo.v
theories/VEHidden.v
theories/VESolve.v
theories/VEThms.v
theories/VEUtil.v
theories/RoundFacts.v
theories/RoundSum.v
theories/VEAny.v
theories/RoundVE.v
theories/VEShadow.v
theories/VEOrder.v
theories/SpecPolicy.v
theories/VEPolicy.v
theories/VEOptimal.v
theories/VEPolicyAll.v
theories/VECor.v
theories/VECheck.v
theories/Props_VE.v
theories/NetModel.v
theories/SpecNet.v
theories/NetVars.v
theories/NetFactors.v
theories/NetVE.v
theories/NetSums.v
theories/NetQuery.v
theories/NetNew.v
theories/NetEvents.v
theories/NetUtil.v
theories/NetHistory.v
theories/NetMass.v
theories/NetCor.v
theories/NetScale.v
theories/NetExtra.v
theories/NetRow.v
theories/NetTotal.v
theories/NetCheck.v
theories/SpecRound.v
theories/RoundNet.v
theories/RoundQuery.v
theories/RoundSigned.v
theories/VEAnyUtil.v
theories/RoundSVE.v
theories/RoundUtility.v
theories/SpecFloatUtility.v
theories/RoundExpect.v
theories/RoundCalls.v
theories/RoundCheck.v
theories/RoundPolicy.v
theories/RoundIdeal.v
theories/RoundTrain.v
theories/Props_Net.v
theories/Props_Float.v
theories/Props_FloatTrain.v
theories/LogicModel.v
theories/SpecLogic.v
theories/LogicFacts.v
theories/LogicThms.v
theories/LogicShape.v
theories/Props_Logic.v
theories/TrainModel.v
theories/SpecTrain.v
theories/TrainFacts.v
theories/TrainUpdate.v
theories/TrainThms.v
theories/Props_Train.v
theories/TextModel.v
theories/DocModel.v
theories/SpecDoc.v
theories/TextFacts.v
theories/DocFacts.v
theories/DocRound.v
theories/DocXml.v
theories/SpecReload.v
theories/NetBare.v
theories/NetReload.v
theories/Props_Doc.v
theories/SpecNetPolicy.v
theories/NetPolicy.v
theories/NetPolicyStep.v
theories/NetPolicyLoop.v
theories/NetPolicyNear.v
theories/SpecFloatPolicy.v
theories/RoundPolicyNet.v
theories/RoundPolicyLoop.v
theories/RoundPolicyTables.v
theories/RoundPolicyAll.v
theories/NetPolicyAll.v
theories/NetPolicyThms.v
theories/NetLength.v
theories/Props_Policy.v
theories/CliModel.v
theories/SpecCli.v
theories/CliFacts.v
theories/CliCsv.v
theories/Props_Cli.v
theories/TuiModel.v
theories/SpecTui.v
theories/TuiSolve.v
theories/TuiMove.v
theories/TuiGrid.v
theories/TuiDraw.v
theories/SpecApp.v
theories/TuiCanvas.v
theories/TuiApp.v
theories/TuiTable.v
theories/TuiEvents.v
theories/TuiSession.v
theories/TuiStart.v
theories/TuiTwice.v
theories/TuiMore.v
theories/TuiKeys.v
theories/Props_Tui.v
theories/TuiPicture.v
theories/TuiShown.v
theories/SpecScreen.v
theories/TuiRoutes.v
theories/TuiHues.v
theories/Props_Screen.v
theories/ShellModel.v
theories/SpecShell.v
theories/ShellFacts.v
theories/Props_Shell.v
theories/ShellReload.v
theories/Props_Reload.v
theories/StateSums.v
theories/SpecGraph.v
theories/NetGraph.v
theories/NetMarkov.v
theories/NetChange.v
theories/NetReorder.v
theories/NetInform.v
theories/NetGraphThms.v
theories/Props_Graph.v
theories/NetJoint.v
theories/SpecAnswers.v
theories/NetBayes.v
theories/Props_Answers.v
theories/NetAdvice.v
theories/Props_Advice.v
theories/SpecOperators.v
theories/NetLogic.v
theories/Props_Operators.v
theories/Props_FloatUtility.v
theories/Props_FloatPolicy.v
theories/SpecOrder.v
theories/PolicyAny.v
theories/Props_PolicyAny.v
theories/SpecUtf8.v
theories/Utf8.v
theories/Props_Utf8.v
theories/XnumIEEE.v
theories/Props_FloatRange.v
theories/HeapVarModel.v
theories/HeapSim.v
theories/HeapVar.v
theories/HeapVEModel.v
theories/HeapNetModel.v
theories/SpecHeap.v
theories/HeapVE.v
theories/HeapNet.v
theories/HeapTrain.v
theories/HeapSession.v
theories/Props_Heap.v
theories/LikelihoodSums.v
theories/SpecLikelihood.v
theories/Likelihood.v
theories/Props_Likelihood.v
theories/Helpers.v
theories/Props_Helpers.v
theories/SpecRewrite.v
theories/NetRewrite.v
theories/Props_Rewrite.v
theories/SpecOptions.v
theories/NetOptions.v
theories/Props_Options.v
theories/Conform_VE.v
theories/Conform_Net.v
theories/SpecMix.v
theories/NetMix.v
theories/Props_Mix.v
theories/SpecRepeat.v
theories/FactorRepeat.v
theories/VEOutcomes.v
theories/TrainError.v
theories/Props_Exact.v
theories/SpecSame.v
theories/NetSame.v
theories/Props_Same.v
theories/SpecView.v
theories/NetView.v
theories/Props_View.v
theories/SpecSoft.v
theories/NetSoft.v
theories/Props_Soft.v
theories/TrainContinue.v
theories/SpecTrainer.v
theories/TrainHistory.v
theories/Props_Trainer.v
theories/SpecRecover.v
theories/TrainRecover.v
theories/TrainCopies.v
theories/Props_Recover.v
theories/SpecFix.v
theories/NetFix.v
theories/NetAdjust.v
theories/Props_Fix.v
theories/SpecNear.v
theories/NetNear.v
theories/Props_Near.v
theories/HeapRowModel.v
theories/SpecHeapRow.v
theories/HeapRow.v
theories/Props_Row.v
theories/NetUnused.v
theories/Props_Unused.v
theories/CsvModel.v
theories/SpecCsv.v
theories/CsvThms.v
theories/Props_Csv.v
theories/NetDominated.v
theories/SpecDominated.v
theories/Props_Dominated.v
theories/NetStrict.v
theories/Props_Strict.v
theories/NetTower.v
theories/SpecTower.v
theories/Props_Tower.v
theories/SpecFormats.v
theories/NetFormats.v
theories/Props_Formats.v
theories/SpecLeaf.v
theories/NetLeafUtility.v
theories/SpecSpare.v
theories/NetLeafNew.v
theories/Props_Leaf.v
theories/NetSpare.v
theories/Props_Spare.v
