-Q theories Verif
theories/Base.v
theories/F64.v
theories/Syntax.v
theories/Lexer.v
theories/Parser.v
theories/Value.v
theories/Fns.v
theories/Program.v
theories/Coder.v
theories/Machine.v
theories/Api.v
theories/ProgramProofs.v
theories/SpecSyntax.v
theories/Eval.v
theories/StackProofs.v
theories/MachineProofs.v
theories/CoderProofs.v
theories/PropertiesProgram.v
theories/SpecGrammar.v
theories/LexProofs.v
theories/LexProofs2.v
theories/LexProofs3.v
theories/LexProofs4.v
theories/ParserProofs.v
theories/ParserSound.v
theories/ParserComplete.v
theories/ParserPath.v
theories/GrammarProofs.v
theories/SpecPrint.v
theories/PrintProofs.v
theories/WritableProofs.v
theories/SpecTokens.v
theories/TokenProofs.v
theories/LiteralProofs.v
theories/ParserExact.v
theories/PropertiesParser.v
theories/SpecDoc.v
theories/DocProofs.v
theories/SpecRun.v
theories/RunProofs.v
theories/SpecSelect.v
theories/SliceProofs.v
theories/SelectProofs.v
theories/WalkProofs.v
theories/ExprProofs.v
theories/StepProofs.v
theories/SpecCode.v
theories/CodeProofs.v
theories/DepthProofs.v
theories/TableProofs.v
theories/HugeProofs.v
theories/SpecCost.v
theories/CostProofs.v
theories/SpecText.v
theories/OriginProofs.v
theories/EvalProofs.v
theories/SizeProofs.v
theories/TextProofs.v
theories/StepExact.v
theories/SelectFinal.v
theories/EndlessProofs.v
theories/Examples.v
theories/RefuteProofs.v
theories/SelectText.v
theories/PropertiesCode.v
theories/PropertiesEval.v
theories/PropertiesSelect.v
theories/SpecOp.v
theories/SpecExpr.v
theories/OpProofs.v
theories/FloatProofs.v
theories/ArithProofs.v
theories/LogicProofs.v
theories/FnProofs.v
theories/SpecEq.v
theories/ExprFinal.v
theories/PropertiesExpr.v
theories/EqProofs.v
theories/SpecLoose.v
theories/LooseProofs.v
theories/PropertiesEq.v
theories/SpecSem.v
theories/SaneProofs.v
theories/SemProofs.v
theories/SemFinal.v
theories/UniqueProofs.v
theories/UniquePath.v
theories/OrderProofs.v
theories/EveryOrder.v
theories/SemExact.v
theories/PropertiesSem.v
theories/ErrorProofs.v
theories/SpecIndex.v
theories/IndexProofs.v
theories/ValidProofs.v
theories/PropertiesMore.v
theories/Cli.v
theories/SpecCli.v
theories/CliProofs.v
theories/PropertiesApi.v
theories/Conc.v
theories/SpecConc.v
theories/ConcProofs.v
theories/PropertiesConc.v
theories/Heap.v
theories/SpecHeap.v
theories/HeapProofs.v
theories/HeapSys.v
theories/HeapProgress.v
theories/PropertiesHeap.v
theories/SpecOrders.v
theories/UsedProofs.v
theories/PropertiesOrders.v
theories/SpecErrors.v
theories/LexReason.v
theories/ReasonProofs.v
theories/LexDeterm.v
theories/DetermProofs.v
theories/PropertiesErrors.v
theories/SpecLayout.v
theories/LayoutProofs.v
theories/NotationProofs.v
theories/PropertiesLayout.v
theories/Listing.v
theories/SpecListing.v
theories/ListingProofs.v
theories/PropertiesListing.v
theories/Messages.v
theories/TestData.v
theories/Tests.v
theories/SpecMessages.v
theories/MessageProofs.v
theories/CliText.v
theories/SpecCliText.v
theories/CliTextProofs.v
theories/NamedProofs.v
theories/PropertiesMessages.v
theories/PropertiesCli.v
theories/SpecWidth.v
theories/WidthProofs.v
theories/SpecMembers.v
theories/MembersProofs.v
theories/PropertiesDocs.v
theories/SpecShape.v
theories/ShapeProofs.v
theories/SpecLaws.v
theories/LawProofs.v
theories/SliceLaws.v
theories/RootProofs.v
theories/UnfoldProofs.v
theories/PropertiesLaws.v
theories/Writes.v
theories/SpecWrites.v
theories/WritesProofs.v
theories/PropertiesWrites.v
theories/Describe.v
theories/SpecDescribe.v
theories/DescribeProofs.v
theories/PropertiesDescribe.v
theories/SpecGrow.v
theories/GrowProofs.v
theories/PropertiesGrow.v
theories/AmountProofs.v
theories/PropertiesAmount.v
theories/SpecEmbed.v
theories/EmbedProofs.v
theories/PropertiesEmbed.v
theories/SpecHand.v
theories/HandProofs.v
theories/PropertiesHand.v
theories/HandEval.v
theories/PropertiesHandEval.v
theories/Flags.v
theories/SpecFlags.v
theories/FlagProofs.v
theories/PropertiesFlags.v
theories/Debug.v
theories/SpecDebug.v
theories/DebugProofs.v
theories/PropertiesDebug.v
theories/SpecRound.v
theories/RoundProofs.v
theories/RoundFinal.v
theories/PropertiesRound.v
theories/SpecCompare.v
theories/CompareProofs.v
theories/PropertiesCompare.v
theories/NumTextProofs.v
theories/PropertiesNumText.v
theories/AlgebraProofs.v
theories/PropertiesAlgebra.v
theories/SpecAggregate.v
theories/AggregateProofs.v
theories/PropertiesAggregate.v
theories/SpecContext.v
theories/ContextProofs.v
theories/EquivProofs.v
theories/RecastProofs.v
theories/InstanceProofs.v
theories/UnlikeProofs.v
theories/PropertiesContext.v
theories/SpecAddress.v
theories/AddressProofs.v
theories/AddressMore.v
theories/PropertiesAddress.v
theories/SpecOnce.v
theories/OnceProofs.v
theories/OnceFinal.v
theories/OnceMore.v
theories/PropertiesOnce.v
theories/SpecReach.v
theories/ReachProofs.v
theories/ReachMore.v
theories/PropertiesReach.v
theories/SpecEdit.v
theories/EditProofs.v
theories/EditMore.v
theories/PropertiesEdit.v
theories/SpecFind.v
theories/FindProofs.v
theories/SpecRename.v
theories/RenameProofs.v
theories/RenameMore.v
theories/PropertiesFind.v
theories/SpecTake.v
theories/TakeProofs.v
theories/TakeMore.v
theories/PropertiesTake.v
theories/SpecListed.v
theories/ListedProofs.v
theories/SpecFetch.v
theories/FetchProofs.v
theories/FetchMore.v
theories/PropertiesFetch.v
theories/Trace.v
theories/SpecTrace.v
theories/TraceProofs.v
theories/PropertiesTrace.v
