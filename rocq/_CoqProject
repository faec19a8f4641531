-Q theories Verif
theories/GoBase.v
theories/Cnf.v
theories/Query.v
theories/Walk.v
theories/Atoms.v
theories/Logop.v
theories/Compute.v
theories/CnfSem.v
theories/GoLemmas.v
theories/Dimacs.v
theories/CnfHist.v
theories/PropCnf.v
theories/QueryLemmas.v
theories/QueryHist.v
theories/PropQuery.v
theories/Spec.v
theories/Sym.v
theories/AtomBase.v
theories/AtomSimple.v
theories/Counter.v
theories/TreeLemmas.v
theories/AtomTree.v
theories/WalkConst.v
theories/WalkLemmas.v
theories/AtomRest.v
theories/Meaning.v
theories/AtomMain.v
theories/Form.v
theories/Master.v
theories/Truth.v
theories/Block.v
theories/Ground.v
theories/Sat.v
theories/AtomCnf.v
theories/PropAtoms.v
theories/Evolve.v
theories/Total.v
theories/Reach.v
theories/Outcome.v
theories/Errors.v
theories/PropContext.v
theories/Solver.v
theories/Names.v
theories/FirstOrder.v
theories/Answer.v
theories/PropTruth.v
theories/Run.v
theories/PropCompute.v
theories/PropSolver.v
theories/Optim.v
theories/PropOptim.v
theories/Size.v
theories/PropSize.v
theories/PropRefuted.v
theories/PropExamples.v
theories/CnfHeap.v
theories/HeapLemmas.v
theories/HeapOps.v
theories/HeapEnc.v
theories/PropHeap.v
theories/Shared.v
theories/PropShared.v
theories/Chain.v
theories/PropCalls.v
theories/PropReadme.v
theories/Buffers.v
theories/Ints.v
theories/Files.v
theories/PropFiles.v
theories/Outside.v
theories/RepoTests.v
theories/Graph.v
theories/PropGraph.v
theories/Interface.v
theories/PropExact.v
theories/PropOutcome.v
theories/Managers.v
theories/PropManagers.v
theories/GoLang.v
theories/GoSource.v
theories/SrcBase.v
theories/SrcLemmas.v
theories/SrcCnf.v
theories/SrcQuery.v
theories/SrcCtx.v
theories/SrcPred.v
theories/SrcNode.v
theories/SrcExt.v
theories/SrcDfs.v
theories/SrcHepr.v
theories/SrcLeh.v
theories/SrcLehC.v
theories/SrcIter.v
theories/SrcLogop.v
theories/SrcValues.v
theories/SrcSolver.v
theories/SrcCompute.v
theories/PropSource.v
theories/PropText.v
theories/PropProgram.v
theories/PropMain.v
theories/PropHelpers.v
theories/GoParse.v
theories/GoElab.v
theories/GoText.v
theories/PropBytes.v
theories/GoTests.v
theories/PropFindings.v
theories/Scopers.v
theories/PropScopers.v
theories/Paths.v
theories/PropStores.v
