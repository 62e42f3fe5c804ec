-Q theories Verif

theories/Base.v
theories/StackModel.v
theories/AStackModel.v
theories/LevelTreeModel.v
theories/TreeCursorModel.v
theories/RazMetaModel.v
theories/RazModel.v
theories/ModelTests.v
theories/Spec.v
theories/StackScripts.v
theories/StackProofs.v
theories/PropStack.v
theories/BaseFacts.v
theories/TreeSpec.v
theories/TreeProofs.v
theories/CursorProofs.v
theories/SpecRaz.v
theories/RazView.v
theories/RazProofs.v
theories/RazUnfocus.v
theories/RazFocus.v
theories/RazIndex.v
theories/RazOps.v
theories/RazFrom.v
theories/RazScripts.v
theories/RazReach.v
theories/RazSession.v
theories/RazFacts.v
theories/RazExamples.v
theories/PropRaz.v
theories/RazMetaFacts.v
theories/PropRazMeta.v
theories/PropRazOps.v
theories/CursorScripts.v
theories/CursorFacts.v
theories/LevelGenModel.v
theories/LevelGenProofs.v
theories/PropTree.v
theories/SkiplistModel.v
theories/MapScripts.v
theories/SkiplistProofs.v
theories/TrieModel.v
theories/TrieProofs.v
theories/PropMaps.v
theories/AccumModel.v
theories/AccumScripts.v
theories/AccumProofs.v
theories/ExampleModel.v
theories/ExampleSpec.v
theories/ExampleProofs.v
theories/AdderProofs.v
theories/ExampleCases.v
theories/EvalModel.v
theories/EvalSpec.v
theories/EvalProofs.v
theories/EvalScripts.v
theories/EvalHistory.v
theories/EvalCases.v
theories/StoreModel.v
theories/StoreProofs.v
theories/StoreSpec.v
theories/StoreScripts.v
theories/StoreRaz.v
theories/StoreHistory.v
theories/StoreNs.v
theories/PropAccum.v
theories/PropExamples.v
theories/PropAdder.v
theories/PropEval.v
theories/PropStore.v
theories/PropNs.v
theories/MemoModel.v
theories/MemoSpec.v
theories/MemoProofs.v
theories/MemoCost.v
theories/MemoRaz.v
theories/MemoLR.v
theories/MemoHistory.v
theories/PropMemo.v
theories/ActionModel.v
theories/ActionSpec.v
theories/ActionProofs.v
theories/ActionUses.v
theories/PropAction.v
theories/MemoEval.v
theories/PropRuns.v
theories/IncModel.v
theories/IncSpec.v
theories/IncProofs.v
theories/IncCost.v
theories/StoreLive.v
theories/PropInc.v
theories/StoreMapModel.v
theories/StoreMapSpec.v
theories/StoreMapProofs.v
theories/PropStoreMap.v
theories/CountWrap.v
theories/PropCount.v
theories/ReportModel.v
theories/ReportSpec.v
theories/ReportProofs.v
theories/PropReport.v
theories/SampleModel.v
theories/SampleSpec.v
theories/SampleProofs.v
theories/PropSample.v
theories/TypesModel.v
theories/TypesProofs.v
theories/PropTypes.v
theories/TrieSpec.v
theories/TrieBins.v
theories/PropTrie.v
theories/MemoFromModel.v
theories/MemoTwo.v
theories/MemoFrom.v
theories/MemoFromWork.v
theories/MemoFromSpec.v
theories/MemoFromUse.v
theories/PropFrom.v
theories/ChanceSpec.v
theories/Chance.v
theories/PathSpec.v
theories/RazPath.v
theories/ChanceCases.v
theories/ChanceUse.v
theories/ChanceRuns.v
theories/PropChance.v
theories/CellSpec.v
theories/StoreFuel.v
theories/CellCost.v
theories/CellRuns.v
theories/PropCells.v
theories/EqualModel.v
theories/EqualSpec.v
theories/EqualProofs.v
theories/PropEqual.v
theories/WorkModel.v
theories/WorkSpec.v
theories/WorkFacts.v
theories/WorkCursor.v
theories/WorkProofs.v
theories/WorkRaz.v
theories/WorkUse.v
theories/WorkCases.v
theories/PropWork.v
theories/IncMapModel.v
theories/IncMapSpec.v
theories/IncMapProofs.v
theories/IncMapCost.v
theories/PropIncMap.v
theories/TestsSpec.v
theories/TestsModel.v
theories/TestsProofs.v
theories/PropTests.v
theories/IncFromModel.v
theories/IncFromSpec.v
theories/IncFromProofs.v
theories/PropIncFrom.v
theories/IncFromCost.v
theories/PropIncFromCost.v
theories/IncPipe.v
theories/PropIncPipe.v
theories/SkipStoreModel.v
theories/SkipStoreSpec.v
theories/SkipStoreProofs.v
theories/UniqueStoreModel.v
theories/UniqueStoreProofs.v
theories/PropSkipStore.v
theories/ExpStoreModel.v
theories/ExpStoreSpec.v
theories/ExpStoreProofs.v
theories/PropExpStore.v
theories/UniqueIncModel.v
theories/UniqueIncSpec.v
theories/UniqueIncProofs.v
theories/PropUniqueInc.v
theories/UniqueCost.v
theories/PropUniqueCost.v
theories/IterMemoModel.v
theories/IterMemoSpec.v
theories/IterMemoProofs.v
theories/PropIterMemo.v
theories/BuildIncModel.v
theories/BuildIncProofs.v
theories/BuildIncCost.v
theories/PropBuildInc.v
theories/LrReset.v
theories/ListIncModel.v
theories/ListIncSpec.v
theories/ListIncProofs.v
theories/ListIncCost.v
theories/PropListInc.v
theories/TokenIncModel.v
theories/TokenIncProofs.v
theories/PropTokenInc.v
theories/ParseIncModel.v
theories/ParseIncProofs.v
theories/PropParseInc.v
theories/AdderIncModel.v
theories/AdderIncSpec.v
theories/AdderIncProofs.v
theories/PropAdderInc.v
theories/AdderExpModel.v
theories/AdderExpProofs.v
theories/PropAdderExp.v
theories/ListExpModel.v
theories/ListExpProofs.v
theories/PropListExp.v
theories/PropListWork.v
