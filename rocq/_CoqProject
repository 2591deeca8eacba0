-Q theories Verif
theories/Prelude.v
theories/GoStrings.v
theories/Format.v
theories/SpecFormat.v
theories/ProofFormat.v
theories/PropsFormat.v
theories/Yaml.v
theories/MergeTree.v
theories/SpecMerge.v
theories/ProofMerge.v
theories/ProofMergeMap.v
theories/ProofMergeAbs.v
theories/ProofMergeIdem.v
theories/Combine.v
theories/SpecCombine.v
theories/ProofCombine.v
theories/ProofSanitize.v
theories/ProofComments.v
theories/Examples.v
theories/ProofMergeProps.v
theories/Deciders.v
theories/PropsMerge.v
theories/PropsCombine.v
theories/Heap.v
theories/HeapActions.v
theories/SpecHeap.v
theories/ProofHeap.v
theories/ProofHeapActions.v
theories/ProofHeapMerge.v
theories/SpecDelete.v
theories/ProofDelete.v
theories/Lexer.v
theories/Builder.v
theories/SpecBuilder.v
theories/ProofBuilder.v
theories/ProofBuilderPaths.v
theories/ProofBuilderBrackets.v
theories/PropsBuilder.v
theories/ActionNames.v
theories/Overlay.v
theories/Fine.v
theories/SpecOverlay.v
theories/ProofOverlay.v
theories/ProofFine.v
theories/SpecReach.v
theories/ProofGrows.v
theories/ProofLocal.v
theories/Finder.v
theories/ProofFinder.v
theories/SpecActions.v
theories/ProofActions.v
theories/SpecQuery.v
theories/ProofQuery.v
theories/ProofSelected.v
theories/ProofSound.v
theories/ProofForest.v
theories/ExamplesHeap.v
theories/PropsLocal.v
theories/PropsActions.v
theories/PropsQuery.v
theories/ProofDeleteProps.v
theories/PropsDelete.v
theories/Paths.v
theories/SpecPaths.v
theories/ProofPaths.v
theories/PropsPaths.v
theories/Files.v
theories/SpecFiles.v
theories/ProofFiles.v
theories/PropsFiles.v
theories/Slices.v
theories/SpecSlices.v
theories/ProofSlices.v
theories/PropsSlices.v
theories/Queue.v
theories/PropsQueue.v
theories/Values.v
theories/SpecValues.v
theories/ProofValues.v
theories/PropsValues.v
theories/Render.v
theories/SpecRender.v
theories/ProofRender.v
theories/PropsRender.v
theories/Pipeline.v
theories/SpecPipeline.v
theories/ProofPipeline.v
theories/SpecSame.v
theories/ProofSame.v
theories/ProofFineSame.v
theories/Execute.v
theories/SpecExecute.v
theories/ProofExecute.v
theories/ProofFineExecute.v
theories/ProofExecuteProps.v
theories/ExamplesPipeline.v
theories/PropsPipeline.v
theories/Config.v
theories/PropsConfig.v
theories/ProofFuel.v
theories/ProofKeeps.v
theories/Witness.v
theories/SpecHistory.v
theories/PropsShape.v
theories/SpecReplace.v
theories/PropsReplace.v
theories/SpecInject.v
theories/ProofInject.v
theories/PropsInject.v
theories/SpecAnchors.v
theories/ProofAnchors.v
theories/PropsAnchors.v
theories/Walk.v
theories/SpecWalk.v
theories/ProofWalk.v
theories/PropsWalk.v
theories/Prepare.v
theories/SpecPrepare.v
theories/SpecOutcome.v
theories/ProofPrepare.v
theories/SliceFiles.v
theories/ProofSliceFiles.v
theories/PropsPrepare.v
theories/SpecDocs.v
theories/ProofDocs.v
theories/PropsDocs.v
theories/Decode.v
theories/SpecDecode.v
theories/ProofDecode.v
theories/ProofAlike.v
theories/DecideAlike.v
theories/Flags.v
theories/PropsDecode.v
theories/Template.v
theories/PropsTemplate.v
theories/HeapComments.v
theories/ProofUncomment.v
theories/Whole.v
theories/SpecWhole.v
theories/ProofWhole.v
theories/PropsWhole.v
theories/SpecMeaning.v
theories/ProofMeaning.v
theories/ProofAliasFree.v
theories/ProofMeaningApply.v
theories/ProofMeaningKeys.v
theories/PropsMeaning.v
theories/PropsUncomment.v
theories/ProofSeveral.v
theories/PropsSeveral.v
theories/SpecCommute.v
theories/ProofCommute.v
theories/PropsCommute.v
theories/Main.v
theories/SpecMain.v
theories/PropsMain.v
theories/SpecStyle.v
theories/ProofStyle.v
theories/PropsStyle.v
theories/PropsMissing.v
theories/Steps.v
theories/SpecSteps.v
theories/ProofSteps.v
theories/PropsSteps.v
theories/RepoTests.v
theories/Argv.v
theories/SpecArgv.v
theories/ProofArgv.v
theories/PropsArgv.v
theories/PropsPlaces.v
theories/SpecEnds.v
theories/ProofEnds.v
theories/PropsEnds.v
theories/PropsEnvCommand.v
theories/SpecCompose.v
theories/ProofCompose.v
theories/PropsCompose.v
theories/Calls.v
theories/SpecCrash.v
theories/PropsCrash.v
theories/SpecSane.v
theories/ProofSane.v
theories/PropsSane.v
theories/SpecRace.v
theories/PropsRace.v
theories/PropsErrors.v
theories/SpecRead.v
theories/ProofRead.v
theories/ProofReadShape.v
theories/ProofReadEnds.v
theories/PropsRead.v
theories/PropsOutcome.v
theories/SpecTwoRuns.v
theories/PropsTwoRuns.v
theories/PropsInForce.v
theories/PropsEntries.v
theories/PropsUnchanged.v
theories/SpecElsewhere.v
theories/PropsElsewhere.v
theories/SpecSpace.v
theories/PropsSpace.v
