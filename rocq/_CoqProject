-Q theories Verif
theories/Model/Bytes.v
theories/Model/Colours.v
theories/Model/Diff.v
theories/Model/DiffCmd.v
theories/Model/DiffMem.v
theories/Model/DisplayWidth.v
theories/Model/Element.v
theories/Model/Failed.v
theories/Model/FifoMap.v
theories/Model/Handles.v
theories/Model/Heap.v
theories/Model/InputSequence.v
theories/Model/Json.v
theories/Model/Levenshtein.v
theories/Model/Life.v
theories/Model/LinearHistory.v
theories/Model/Lines.v
theories/Model/Main.v
theories/Model/Memory.v
theories/Model/Navigation.v
theories/Model/NbLines.v
theories/Model/Numbers.v
theories/Model/Params.v
theories/Model/ParamsMem.v
theories/Model/PatternMem.v
theories/Model/PrintMem.v
theories/Model/Prompt.v
theories/Model/SearchPattern.v
theories/Model/Session.v
theories/Model/Signals.v
theories/Model/SimpleOutput.v
theories/Model/SimpleText.v
theories/Model/SimpleView.v
theories/Model/SplitText.v
theories/Model/SplitView.v
theories/Model/StreamConsumer.v
theories/Model/Terminal.v
theories/Model/Titles.v
theories/Model/Unicode.v
theories/Model/Usage.v
theories/Model/WindowCells.v
theories/Model/Windows.v
theories/Model/WrappedBuffer.v
theories/Proofs/AgainBoth.v
theories/Proofs/AgainProofs.v
theories/Proofs/AgainRuns.v
theories/Proofs/AgainSplit.v
theories/Proofs/BesideFirst.v
theories/Proofs/BesideOpen.v
theories/Proofs/BesideTop.v
theories/Proofs/CellProofs.v
theories/Proofs/ColoursProofs.v
theories/Proofs/DiffCmdProofs.v
theories/Proofs/DiffMarks.v
theories/Proofs/DiffMemBuild.v
theories/Proofs/DiffMemCost.v
theories/Proofs/DiffMemMatrix.v
theories/Proofs/DiffMemPath.v
theories/Proofs/DiffMemProofs.v
theories/Proofs/DiffPairing.v
theories/Proofs/DiffProofs.v
theories/Proofs/DiffRows.v
theories/Proofs/DiffSelf.v
theories/Proofs/DiffTable.v
theories/Proofs/DocumentProofs.v
theories/Proofs/DrawProofs.v
theories/Proofs/ExtractProofs.v
theories/Proofs/FailedOnce.v
theories/Proofs/FailedProofs.v
theories/Proofs/FailedSame.v
theories/Proofs/FindProofs.v
theories/Proofs/FloatProofs.v
theories/Proofs/GrammarLex.v
theories/Proofs/GrammarProps.v
theories/Proofs/GrammarTree.v
theories/Proofs/HalfCells.v
theories/Proofs/HandleProofs.v
theories/Proofs/HeapProofs.v
theories/Proofs/InvProofs.v
theories/Proofs/KeyProofs.v
theories/Proofs/KeySeqProofs.v
theories/Proofs/KeysReachProofs.v
theories/Proofs/LevProofs.v
theories/Proofs/LevScore.v
theories/Proofs/LifeProofs.v
theories/Proofs/LineProofs.v
theories/Proofs/LookProofs.v
theories/Proofs/LoopProofs.v
theories/Proofs/LooseLoops.v
theories/Proofs/LooseProofs.v
theories/Proofs/MainProofs.v
theories/Proofs/MapProofs.v
theories/Proofs/MarkLines.v
theories/Proofs/MemoryGrammar.v
theories/Proofs/MemoryProofs.v
theories/Proofs/NbLinesProofs.v
theories/Proofs/OpenProofs.v
theories/Proofs/PageProofs.v
theories/Proofs/ParamsMemProofs.v
theories/Proofs/ParamsProofs.v
theories/Proofs/ParserAscii.v
theories/Proofs/ParserBase.v
theories/Proofs/ParserCrash.v
theories/Proofs/ParserFuel.v
theories/Proofs/ParserShape.v
theories/Proofs/ParserSort.v
theories/Proofs/ParserStrict.v
theories/Proofs/ParserTerm.v
theories/Proofs/ParserTree.v
theories/Proofs/PatternMemProofs.v
theories/Proofs/PositionProofs.v
theories/Proofs/PressProofs.v
theories/Proofs/PrintMemProofs.v
theories/Proofs/PrintProofs.v
theories/Proofs/PromptProofs.v
theories/Proofs/ReachProofs.v
theories/Proofs/RingProofs.v
theories/Proofs/RowProofs.v
theories/Proofs/RowReach.v
theories/Proofs/SearchProofs.v
theories/Proofs/SessionProofs.v
theories/Proofs/ShownProofs.v
theories/Proofs/SplitBase.v
theories/Proofs/SplitCause.v
theories/Proofs/SplitDraw.v
theories/Proofs/SplitFit.v
theories/Proofs/SplitKeep.v
theories/Proofs/SplitKeys.v
theories/Proofs/SplitLevel.v
theories/Proofs/SplitLoop.v
theories/Proofs/SplitMarks.v
theories/Proofs/SplitMem.v
theories/Proofs/SplitOnce.v
theories/Proofs/SplitPair.v
theories/Proofs/SplitPress.v
theories/Proofs/SplitReachProofs.v
theories/Proofs/SplitRows.v
theories/Proofs/SplitSee.v
theories/Proofs/SplitShow.v
theories/Proofs/SplitSim.v
theories/Proofs/SplitSteady.v
theories/Proofs/SplitTerm.v
theories/Proofs/Trace.v
theories/Proofs/TreeProofs.v
theories/Proofs/UnicodeProofs.v
theories/Proofs/UsageProofs.v
theories/Proofs/ViewProofs.v
theories/Proofs/WaitProofs.v
theories/Proofs/WindowProofs.v
theories/Properties/Again.v
theories/Properties/AgainWindows.v
theories/Properties/Alloc.v
theories/Properties/Beside.v
theories/Properties/Both.v
theories/Properties/Cells.v
theories/Properties/Colours.v
theories/Properties/Compare.v
theories/Properties/Crash.v
theories/Properties/Diff.v
theories/Properties/DiffCmd.v
theories/Properties/FifoMap.v
theories/Properties/Find.v
theories/Properties/Grammar.v
theories/Properties/HalfCells.v
theories/Properties/Handles.v
theories/Properties/Keys.v
theories/Properties/Left.v
theories/Properties/Level.v
theories/Properties/Levenshtein.v
theories/Properties/Life.v
theories/Properties/Lines.v
theories/Properties/Loose.v
theories/Properties/Main.v
theories/Properties/Marks.v
theories/Properties/Memory.v
theories/Properties/NbLines.v
theories/Properties/Open.v
theories/Properties/OpenBoth.v
theories/Properties/OptMem.v
theories/Properties/Params.v
theories/Properties/Parser.v
theories/Properties/ParserOptions.v
theories/Properties/PatternMem.v
theories/Properties/Position.v
theories/Properties/Press.v
theories/Properties/Print.v
theories/Properties/PrintMem.v
theories/Properties/Prompt.v
theories/Properties/Reach.v
theories/Properties/Ring.v
theories/Properties/Rows.v
theories/Properties/Screen.v
theories/Properties/Search.v
theories/Properties/Session.v
theories/Properties/Split.v
theories/Properties/Titles.v
theories/Properties/Usage.v
theories/Properties/View.v
theories/Properties/Windows.v
theories/Spec/AgainSpec.v
theories/Spec/BesideSpec.v
theories/Spec/CellSpec.v
theories/Spec/CmdLine.v
theories/Spec/CmdMeaning.v
theories/Spec/CmdSpec.v
theories/Spec/ColoursSpec.v
theories/Spec/CrashPatterns.v
theories/Spec/DiffSpec.v
theories/Spec/EditDistance.v
theories/Spec/EscapeSpec.v
theories/Spec/FailedSpec.v
theories/Spec/FindSpec.v
theories/Spec/HalfCellSpec.v
theories/Spec/HandleSpec.v
theories/Spec/HeapSpec.v
theories/Spec/JsonGrammar.v
theories/Spec/KeySpec.v
theories/Spec/LevelSpec.v
theories/Spec/LifeSpec.v
theories/Spec/LineSpec.v
theories/Spec/LooseGrammar.v
theories/Spec/MapSpec.v
theories/Spec/MemorySpec.v
theories/Spec/OpenSpec.v
theories/Spec/OptMemSpec.v
theories/Spec/PageSpec.v
theories/Spec/PatternMemSpec.v
theories/Spec/Position.v
theories/Spec/PrintMemSpec.v
theories/Spec/PrintSpec.v
theories/Spec/PromptSpec.v
theories/Spec/ReachSpec.v
theories/Spec/RingOps.v
theories/Spec/RowsSpec.v
theories/Spec/RunSpec.v
theories/Spec/SearchSpec.v
theories/Spec/SearchTypes.v
theories/Spec/SessionSpec.v
theories/Spec/SplitLay.v
theories/Spec/SplitPage.v
theories/Spec/SplitSpec.v
theories/Spec/TreeSpec.v
theories/Spec/UsageSpec.v
theories/Spec/ViewSpec.v
theories/Spec/ViewerSpec.v
theories/Spec/Window.v
theories/Spec/WindowSpec.v
