-Q theories Verif
theories/Base.v
theories/SpecSeq.v
theories/Strings.v
theories/StringsExt.v
theories/Automaton.v
theories/AutomatonInv.v
theories/AutomatonProofs.v
theories/AutomatonLcs.v
theories/AutomatonCost.v
theories/AutomatonCostProofs.v
theories/PropsAutomaton.v
theories/Multi.v
theories/MultiProofs.v
theories/MultiRename.v
theories/PropsMulti.v
theories/Changesets.v
theories/SpecDiff.v
theories/ChangesetsProofs.v
theories/DiffLaws.v
theories/DiffProofs.v
theories/PropsDiff.v
theories/Merge.v
theories/SpecMerge.v
theories/MergeStreams.v
theories/MergeSteps.v
theories/MergeUnion.v
theories/MergeConsolidate.v
theories/MergeProofs.v
theories/MergeLaws.v
theories/PropsMerge.v
theories/Serialize.v
theories/SpecSerialize.v
theories/SerializeProofs.v
theories/PropsSerialize.v
theories/Tokenizers.v
theories/SpecTokenizers.v
theories/Utf8Proofs.v
theories/TokenizersProofs.v
theories/TokenizersDiff.v
theories/PropsTokenizers.v
theories/Tree.v
theories/SpecTree.v
theories/TreeProofs.v
theories/TreeExact.v
theories/Versions.v
theories/SpecVersions.v
theories/VersionsPatch.v
theories/LinePatch.v
theories/VersionsInv.v
theories/VersionsProofs.v
theories/VersionsMore.v
theories/PropsVersions.v
theories/DbTree.v
theories/DbTreeProofs.v
theories/SpecDb.v
theories/DbVersions.v
theories/DbTreeMore.v
theories/PropsDb.v
theories/Lines.v
theories/SpecLines.v
theories/LinesProofs.v
theories/LinesMore.v
theories/PropsLines.v
theories/Markup.v
theories/SpecMarkup.v
theories/MarkupProofs.v
theories/MarkupCli.v
theories/MarkupStrike.v
theories/PropsMarkup.v
theories/Json.v
theories/Manifest.v
theories/SpecManifest.v
theories/JsonProofs.v
theories/ManifestDocs.v
theories/ManifestProofs.v
theories/ManifestChain.v
theories/PropsManifest.v
theories/TextTags.v
theories/TextTagsProofs.v
theories/PropsTags.v
theories/TreeComb.v
theories/VersionsSqrt.v
theories/VersionsFrame.v
theories/PropsSqrt.v
theories/TreeShape.v
theories/TreeRake.v
theories/SpecLine.v
theories/VersionsShape.v
theories/PropsShape.v
theories/PropsFrame.v
theories/SpecGreedy.v
theories/DiffGreedy.v
theories/DiffCost.v
theories/DiffCostProofs.v
theories/DiffQuadratic.v
theories/PropsGreedy.v
theories/RepoTests.v
theories/Files.v
theories/SpecFiles.v
theories/OutputChars.v
theories/FilesProofs.v
theories/PropsFiles.v
theories/Rich.v
theories/SpecConsole.v
theories/ConsoleProofs.v
theories/PropsConsole.v
theories/SpecThreeWay.v
theories/MergeThreeWay.v
theories/PropsThreeWay.v
theories/SpecMarks.v
theories/LinesMarks.v
theories/MarksCli.v
theories/PropsMarks.v
theories/SpecTokens.v
theories/TokensProofs.v
theories/PropsTokens.v
theories/Database.v
theories/SpecDatabase.v
theories/DatabaseProofs.v
theories/PropsDatabase.v
theories/SpecEdits.v
theories/EditsProofs.v
theories/EditsConflicts.v
theories/EditsTexts.v
theories/PropsEdits.v
theories/SpecForest.v
theories/ForestProofs.v
theories/PropsForest.v
theories/StreamsProofs.v
theories/PropsStreams.v
theories/SpecStorage.v
theories/StorageProofs.v
theories/StorageRoom.v
theories/SpecLineVersions.v
theories/VersionsLine.v
theories/PropsLineVersions.v
theories/PropsStorage.v
theories/EditsOrder.v
theories/EditsLaws.v
theories/DiffPoor.v
theories/SpecBackwards.v
theories/DiffBackwards.v
theories/PropsOrder.v
theories/SpecBytes.v
theories/BytesProofs.v
theories/PropsBytes.v
theories/MergeSwap.v
theories/PropsSwap.v
theories/SpecClash.v
theories/MergeBytes.v
theories/PropsClash.v
theories/Revision.v
theories/RevisionCost.v
theories/SpecRevision.v
theories/RevisionProofs.v
theories/RevisionInsert.v
theories/RevisionStep.v
theories/RevisionShape.v
theories/RevisionTree.v
theories/RevisionState.v
theories/RevisionSound.v
theories/RevisionHeight.v
theories/RevisionCostProofs.v
theories/PropsRevision.v
theories/CommandLine.v
theories/SpecCommandLine.v
theories/CommandLineProofs.v
theories/CommandLineRuns.v
theories/PropsCommandLine.v
theories/Difflib.v
theories/DifflibProofs.v
theories/DifflibAgree.v
theories/PropsDifflib.v
theories/SearchCost.v
theories/SearchCostProofs.v
theories/MultiCostProofs.v
theories/PropsSearchCost.v
theories/SpecPrograms.v
theories/ProgramsConsole.v
theories/ProgramsProofs.v
theories/PropsPrograms.v
theories/MergeCost.v
theories/MergeCostProofs.v
theories/PropsMergeCost.v
theories/SpecSame.v
theories/VersionsSame.v
theories/PropsSame.v
theories/VersionsDamage.v
theories/PropsDamage.v
theories/SerializeCost.v
theories/SerializeCostProofs.v
theories/VersionsCost.v
theories/VersionsCostProofs.v
theories/PropsVersionsCost.v
theories/SpecInsert.v
theories/DiffInsert.v
theories/PropsInsert.v
theories/SpecLineage.v
theories/VersionsLineage.v
theories/VersionsGrow.v
theories/VersionsWords.v
theories/PropsLineage.v
theories/SpecPlace.v
theories/MergePlace.v
theories/MergeSame.v
theories/MergeOne.v
theories/PropsPlace.v
theories/DbTreeOld.v
theories/DbTreeOldProofs.v
theories/PropsOld.v
theories/Dump.v
theories/SpecDump.v
theories/DumpProofs.v
theories/DumpDepth.v
theories/PropsDump.v
theories/SpecMulti.v
theories/MultiLaws.v
theories/PropsMultiLaws.v
theories/SpecWays.v
theories/WaysNumbers.v
theories/TreeWays.v
theories/VersionsWays.v
theories/SpecWrites.v
theories/VersionsWrites.v
theories/PropsWays.v
theories/LinesKinds.v
theories/SpecLinesKinds.v
theories/LinesKindsProofs.v
theories/PropsLinesKinds.v
theories/RevisionDump.v
theories/RevisionDumpProofs.v
theories/PropsRevisionDump.v
theories/Concurrent.v
theories/SpecConcurrent.v
theories/ConcurrentProofs.v
theories/ConcurrentEnd.v
theories/PropsConcurrent.v
theories/SpecInterrupted.v
theories/InterruptedProofs.v
theories/MemoryLoose.v
theories/InterruptedAgain.v
theories/PropsInterrupted.v
theories/SpecEqual.v
theories/EqualMaps.v
theories/EqualProofs.v
theories/PropsEqual.v
theories/DbCommits.v
theories/SpecCommits.v
theories/DbLoose.v
theories/CommitsProofs.v
theories/PropsCommits.v
theories/SpecOther.v
theories/OtherProofs.v
theories/PropsOther.v
theories/LinesConflict.v
theories/TokenizersRaise.v
theories/ProgramsEdits.v
theories/PropsProgramsEdits.v
theories/WaysSplit.v
theories/TreeCost.v
theories/TreeCostProofs.v
theories/VersionsSteps.v
theories/PropsSteps.v
theories/SpecMixed.v
theories/VersionsMixed.v
theories/PropsMixed.v
theories/SpecSquare.v
theories/SquareProofs.v
theories/SquareTexts.v
theories/VersionsOrder.v
theories/SpecAlone.v
theories/VersionsAlone.v
theories/PropsAlone.v
theories/SpecElsewhere.v
theories/VersionsElsewhere.v
theories/PropsElsewhere.v
theories/VersionsApart.v
theories/InterruptedElsewhere.v
theories/PropsApart.v
theories/SpecOrder.v
theories/EditsOrderTexts.v
theories/PropsOrderTexts.v
theories/SpecRuns.v
theories/RunsProofs.v
theories/PropsRuns.v
theories/SquareUnits.v
theories/PropsSquare.v
theories/UndoProofs.v
theories/PropsUndo.v
