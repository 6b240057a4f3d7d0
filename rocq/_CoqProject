-Q theories Verif
theories/Prelude.v
theories/Einsum.v
theories/EinsumFacts.v
theories/Parser.v
theories/Helpers.v
theories/Contract.v
theories/EinsumOps.v
theories/Spec.v
theories/StringFacts.v
theories/SymbolFacts.v
theories/StepFacts.v
theories/ContractFacts.v
theories/ParserFacts.v
theories/ParseSpec.v
theories/ParseProof.v
theories/ParseSound.v
theories/PathSpec.v
theories/PathFacts.v
theories/TopFacts.v
theories/ContractMain.v
theories/ShapeFacts.v
theories/ArgFacts.v
theories/RefBackend.v
theories/RenameFacts.v
theories/AlphaFacts.v
theories/Api.v
theories/ApiSpec.v
theories/FormatFacts.v
theories/InterleavedFacts.v
theories/NoOptFacts.v
theories/Expression.v
theories/ExprSpec.v
theories/ExprFacts.v
theories/ExprMain.v
theories/Sharing.v
theories/SharingSpec.v
theories/SharingKey.v
theories/SharingFacts.v
theories/SharingMain.v
theories/SharingValue.v
theories/SharingLoop.v
theories/SharingHist.v
theories/SharingComplete.v
theories/Threads.v
theories/ThreadSpec.v
theories/ThreadFacts.v
theories/SharingHit.v
theories/SharingOut.v
theories/OutFacts.v
theories/ConvertFacts.v
theories/ObjectEinsum.v
theories/ObjectSpec.v
theories/ObjectFacts.v
theories/Torch.v
theories/TorchSpec.v
theories/TorchFacts.v
theories/Ssa.v
theories/SsaSpec.v
theories/SsaFacts.v
theories/SsaMore.v
theories/Optimal.v
theories/OptimalFacts.v
theories/OptimalBest.v
theories/Branch.v
theories/BranchFacts.v
theories/BranchBest.v
theories/Greedy.v
theories/GreedyFacts.v
theories/GreedySpec.v
theories/GreedyPhases.v
theories/GreedyFirst.v
theories/Tree.v
theories/TreeSpec.v
theories/TreeFacts.v
theories/Dp.v
theories/DpSpec.v
theories/PartsFacts.v
theories/DpFacts.v
theories/DpMain.v
theories/DpTop.v
theories/Random.v
theories/Dispatch.v
theories/RandomSpec.v
theories/RandomFacts.v
theories/FinderFacts.v
theories/BranchSpec.v
theories/BranchOrder.v
theories/BlasSpec.v
theories/BlasFacts.v
theories/PropsContract.v
theories/PropsApi.v
theories/PropsPaths.v
theories/PropsSearch.v
theories/PropsGreedy.v
theories/PropsDp.v
theories/PropsRandom.v
theories/PropsBranch.v
theories/PropsChoice.v
theories/PropsInfo.v
theories/PropsDispatch.v
theories/Testing.v
theories/TestingSpec.v
theories/TestingFacts.v
theories/PropsTesting.v
theories/PropsExpr.v
theories/PropsSharing.v
theories/PropsBackends.v
theories/DpPathSpec.v
theories/DpPath.v
theories/PropsDpPath.v
theories/Graph.v
theories/GraphSpec.v
theories/GraphFacts.v
theories/PropsGraph.v
theories/Executor.v
theories/ExecutorSpec.v
theories/ExecutorFacts.v
theories/PropsExecutor.v
theories/ZeroSpec.v
theories/GreedyZero.v
theories/PropsZero.v
theories/Keywords.v
theories/KeywordFacts.v
theories/PropsKeywords.v
theories/PropsMany.v
theories/NetworkSpec.v
theories/NetworkFacts.v
theories/PropsNetwork.v
theories/IntPath.v
theories/IntPathSpec.v
theories/IntPathFacts.v
theories/PropsInts.v
theories/OptimalMore.v
theories/PropsMemory.v
theories/ReportSpec.v
theories/ResumeFacts.v
theories/Report.v
theories/ReportNumbers.v
theories/ReportFacts.v
theories/PropsReport.v
theories/ExprReport.v
theories/PropsExprReport.v
theories/PropsNames.v
theories/BlasFree.v
theories/PropsBlas.v
theories/PropsLimit.v
theories/PropsIntExpr.v
theories/PropsCompose.v
theories/PropsAgain.v
theories/PropsLinear.v
theories/SharingCount.v
theories/PropsCount.v
theories/PropsHelpers.v
theories/PropsCommon.v
theories/PropsSlice.v
theories/PropsFew.v
theories/PropsErrors.v
theories/PropsTables.v
theories/PropsOnes.v
theories/ExprIndex.v
theories/PropsExprIndex.v
theories/PropsSeparate.v
theories/PropsBlocks.v
theories/PropsRepeat.v
theories/PropsGroup.v
theories/PropsRelated.v
theories/PropsEmpty.v
