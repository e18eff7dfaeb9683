-Q theories Verif
theories/Types.v
theories/Static.v
theories/Dispatch.v
theories/Runtime.v
theories/Dsl.v
theories/Examples.v
theories/UnitExamples.v
theories/ListFacts.v
theories/IndexFacts.v
theories/Spec.v
theories/DispatchFacts.v
theories/FlattenFacts.v
theories/Semantics.v
theories/RefineFacts.v
theories/StaticFacts.v
theories/TermFacts.v
theories/Reach.v
theories/ReachFacts.v
theories/TableFacts.v
theories/QueryFacts.v
theories/ProcessFacts.v
theories/RegionFacts.v
theories/LoopFacts.v
theories/OutcomeFacts.v
theories/QueueFacts.v
theories/CallFacts.v
theories/Demo.v
theories/PropsStatic.v
theories/PropsQuery.v
theories/PropsRegion.v
theories/PropsEvent.v
theories/VariantQueue.v
theories/DuniquePtr.v
theories/PropsUtil.v
theories/Safe.v
theories/SafeFacts.v
theories/SafeObjects.v
theories/SafeDemo.v
theories/PropsSafe.v
theories/StepFacts.v
theories/Journey.v
theories/HistFacts.v
theories/TermRank.v
theories/TrapFacts.v
theories/TermProg.v
theories/TermMeta.v
theories/PropsHistory.v
theories/PropsTerm.v
theories/Respell.v
theories/Spelling.v
theories/SpellRun.v
theories/DslSpec.v
theories/DslFacts.v
theories/DslDemo.v
theories/PropsDsl.v
theories/StatusSpec.v
theories/StatusFacts.v
theories/PropsStatus.v
theories/CompleteFacts.v
theories/PropsComplete.v
theories/Creation.v
theories/CreationFacts.v
theories/CreationDemo.v
theories/PropsCreation.v
theories/Reentry.v
theories/ReentryFacts.v
theories/ReentrySafe.v
theories/ReentryLast.v
theories/ReentryDemo.v
theories/PropsReentry.v
theories/Exact.v
theories/ExactFacts.v
theories/ExactNeed.v
theories/ExactIff.v
theories/ExactDemo.v
theories/PropsExact.v
theories/Helpers.v
theories/HelperFacts.v
theories/PropsHelpers.v
theories/Graph.v
theories/GraphFacts.v
theories/GraphExact.v
theories/GraphDemo.v
theories/PropsGraph.v
theories/Amalgam.v
theories/AmalgamFacts.v
theories/AmalgamRun.v
theories/AmalgamQueue.v
theories/AmalgamDemo.v
theories/PropsAmalgam.v
theories/Extend.v
theories/ExtendFacts.v
theories/ExtendRun.v
theories/ExtendDemo.v
theories/PropsExtend.v
theories/Programs.v
theories/ProgramFacts.v
theories/PropsPrograms.v
theories/StatusText.v
theories/StatusTextFacts.v
theories/PropsText.v
theories/Log.v
theories/LogFacts.v
theories/LogDemo.v
theories/PropsLog.v
theories/Flat.v
theories/FlatFacts.v
theories/FlatDemo.v
theories/FlatAccept.v
theories/PropsFlat.v
theories/Ring.v
theories/RingFacts.v
theories/PropsBench.v
theories/Reorder.v
theories/Dead.v
theories/Part.v
theories/ReorderRun.v
theories/ReorderFacts.v
theories/ReorderSwap.v
theories/ReorderCheck.v
theories/ReorderDemo.v
theories/PropsReorder.v
theories/Functors.v
theories/FunctorFacts.v
theories/FunctorCount.v
theories/FunctorDemo.v
theories/PropsFunctor.v
theories/HistRegions.v
theories/PropsHistRegions.v
theories/WorkFacts.v
theories/PropsWork.v
theories/DeadFacts.v
theories/DeadCheck.v
theories/DeadDemo.v
theories/PropsDead.v
theories/PartRun.v
theories/PartFacts.v
theories/PartCheck.v
theories/PartClosed.v
theories/PartDemo.v
theories/PropsPart.v
theories/Joint.v
theories/JointFacts.v
theories/JointApart.v
theories/JointDemo.v
theories/PropsJoint.v
theories/Interp.v
theories/InterpFacts.v
theories/InterpDemo.v
theories/PropsInterp.v
theories/Rename.v
theories/RenameDemo.v
theories/PropsNames.v
theories/Context.v
theories/PropsContext.v
theories/MoreFacts.v
theories/PropsMore.v
theories/Data.v
theories/DataUse.v
theories/PropsData.v
theories/Script.v
theories/Explore.v
theories/ExploreUse.v
theories/PropsExplore.v
theories/ExploreTotal.v
theories/ExploreEnds.v
theories/PropsExploreEnds.v
theories/Tree.v
theories/Equiv.v
theories/EquivTotal.v
theories/TreeUse.v
theories/EquivUse.v
theories/PropsTree.v
theories/PropsEquiv.v
theories/SymTree.v
theories/SymEquiv.v
theories/SymEquivRun.v
theories/SymEquivTotal.v
theories/SymUse.v
theories/PropsSymTree.v
theories/PropsSymEquiv.v
theories/UnitTests.v
theories/Balance.v
theories/BalanceFacts.v
theories/BalanceDemo.v
theories/PropsBalance.v
theories/StateData.v
theories/StateDataFacts.v
theories/StateDataDemo.v
theories/PropsStateData.v
theories/Waiting.v
theories/WaitingFacts.v
theories/WaitingDemo.v
theories/PropsWaiting.v
theories/Law.v
theories/LawFacts.v
theories/LawDemo.v
theories/PropsLaw.v
theories/Uml.v
theories/UmlFacts.v
theories/UmlDemo.v
theories/PropsUml.v
theories/Hand.v
theories/HandFacts.v
theories/PropsHand.v
theories/Copies.v
theories/CopiesFacts.v
theories/TowerFacts.v
theories/CopiesDemo.v
theories/PropsCopies.v
theories/Restore.v
theories/RestoreFacts.v
theories/RestoreDemo.v
theories/PropsRestore.v
theories/Maps.v
theories/MapsFacts.v
theories/PropsMaps.v
theories/Newest.v
theories/NewestFacts.v
theories/NewestDemo.v
theories/PropsNewest.v
theories/Steer.v
theories/SteerFacts.v
theories/SteerUse.v
theories/PropsSteer.v
theories/Merge.v
theories/MergeFacts.v
theories/MergeRun.v
theories/MergeLeast.v
theories/MergeDemo.v
theories/PropsMerge.v
theories/Probe.v
theories/ProbeFacts.v
theories/ProbeRun.v
theories/ProbeProgram.v
theories/ProbeLog.v
theories/ProbeDemo.v
theories/PropsProbe.v
theories/Unnest.v
theories/UnnestFacts.v
theories/UnnestRun.v
theories/UnnestProgram.v
theories/UnnestDemo.v
theories/PropsUnnest.v
theories/UnnestMerge.v
theories/UnnestMergeDemo.v
theories/PropsUnnestMerge.v
theories/Trim.v
theories/TrimFacts.v
theories/TrimNested.v
theories/TrimDemo.v
theories/PropsTrim.v
theories/Unique.v
theories/UniqueFacts.v
theories/UniqueNested.v
theories/UniqueDemo.v
theories/PropsUnique.v
theories/Decide.v
theories/DecideFacts.v
theories/DecideDemo.v
theories/PropsDecide.v
