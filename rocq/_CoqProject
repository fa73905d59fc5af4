-Q theories Verif

theories/Base.v
theories/DltModel.v
theories/MatchModel.v
theories/GenModel.v
theories/ToolsModel.v
theories/Spec.v
theories/BaseFacts.v
theories/MainModel.v
theories/Utf8Facts.v
theories/DltFacts.v
theories/CodecFacts.v
theories/ParseFacts.v
theories/Samples.v
theories/FindFacts.v
theories/IterFacts.v
theories/DltIterFacts.v
theories/AppendFacts.v
theories/LayoutFacts.v
theories/GrepFacts.v
theories/GrepTools.v
theories/ContainFacts.v
theories/PartitionFacts.v
theories/GenFacts.v
theories/GroupFacts.v
theories/MapFacts.v
theories/MergeFacts.v
theories/ChainFacts.v
theories/TreeFacts.v
theories/ToolFacts.v
theories/CommandFacts.v
theories/TotalFacts.v
theories/P_Parse.v
theories/P_Iter.v
theories/P_Grep.v
theories/P_Partition.v
theories/P_Gen.v
theories/P_Tools.v
theories/HelloRegex.v
theories/P_Commands.v
theories/DdModel.v
theories/DdFacts.v
theories/P_DD.v
theories/P_Main.v
theories/CommandSpec.v
theories/ExactFacts.v
theories/P_Exact.v
theories/ReadSpec.v
theories/ReadFacts.v
theories/CutFacts.v
theories/MoreFacts.v
theories/P_Read.v
theories/EditSpec.v
theories/EditFacts.v
theories/EditCommands.v
theories/P_Edit.v
theories/StopSpec.v
theories/P_Stop.v
theories/GenericSpec.v
theories/TestModel.v
theories/GenericFacts.v
theories/GenericCut.v
theories/P_Generic.v
theories/ModelTests.v
theories/PrintModel.v
theories/PrintSpec.v
theories/PrintFacts.v
theories/PrintRead.v
theories/PrintCrash.v
theories/P_Print.v
theories/DdOs.v
theories/OsSpec.v
theories/DdOsFacts.v
theories/DdAnyFacts.v
theories/P_DdOs.v
theories/RipOs.v
theories/RipOsSpec.v
theories/RipOsFacts.v
theories/P_RipOs.v
theories/StreamSpec.v
theories/PullModel.v
theories/PullFacts.v
theories/P_Pull.v
theories/WordModel.v
theories/WordSpec.v
theories/WordFacts.v
theories/P_Word.v
theories/ToolsWord.v
theories/ToolsWordFacts.v
theories/P_ToolsWord.v
theories/PipeSpec.v
theories/PipeFacts.v
theories/P_Pipe.v
theories/InModel.v
theories/InSpec.v
theories/InFacts.v
theories/P_In.v
theories/UniformFacts.v
theories/P_Uniform.v
theories/BalanceFacts.v
theories/P_Balance.v
theories/CostModel.v
theories/CostSpec.v
theories/CostFacts.v
theories/CostIter.v
theories/CostRev.v
theories/CostPart.v
theories/P_Cost.v
theories/LazySpec.v
theories/P_Lazy.v
theories/LiveSpec.v
theories/P_Live.v
theories/P_Order.v
theories/StepSpec.v
theories/P_Step.v
theories/TraceModel.v
theories/TraceSpec.v
theories/TraceFacts.v
theories/P_Trace.v
theories/NestSpec.v
theories/NestFacts.v
theories/P_Nest.v
theories/P_Loss.v
theories/MappedModel.v
theories/MappedSpec.v
theories/MappedFacts.v
theories/MappedStill.v
theories/P_Mapped.v
theories/SigModel.v
theories/SigSpec.v
theories/SigFacts.v
theories/SigPlain.v
theories/P_Sig.v
theories/TouchModel.v
theories/TouchSpec.v
theories/TouchFacts.v
theories/TouchSame.v
theories/P_Touch.v
theories/MappedCmd.v
theories/MappedCmdSpec.v
theories/SimFacts.v
theories/FeedFacts.v
theories/CmdStill.v
theories/CmdCommands.v
theories/CmdEnds.v
theories/P_MappedCmd.v
theories/PullTrace.v
theories/PullTraceSpec.v
theories/PullTraceFacts.v
theories/P_PullTrace.v
theories/ParCountFacts.v
theories/P_ParCount.v
theories/DdLive.v
theories/DdLiveFacts.v
theories/P_DdLive.v
theories/P_Short.v
theories/SteadyParts.v
theories/P_Steady.v
theories/TouchMore.v
theories/TouchMoreFacts.v
theories/TouchMoreSame.v
theories/P_TouchMore.v
theories/DdRun.v
theories/RunSpec.v
theories/DdRunFacts.v
theories/P_DdRun.v
theories/Words32Spec.v
theories/P_Words32.v
theories/TouchCmd.v
theories/TouchCmdSpec.v
theories/TouchCmdFacts.v
theories/TouchCmdInside.v
theories/P_TouchCmd.v
theories/TouchRun.v
theories/TouchRunSpec.v
theories/TouchRunFacts.v
theories/P_TouchRun.v
theories/TouchHeadSpec.v
theories/TouchHeadFacts.v
theories/TouchHeadRun.v
theories/P_TouchHead.v
theories/P_TouchHeadMain.v
theories/TouchCapture.v
theories/P_TouchCapture.v
theories/P_Thin.v
theories/CostMore.v
theories/P_CostMore.v
theories/P_Damage.v
theories/P_Seen.v
