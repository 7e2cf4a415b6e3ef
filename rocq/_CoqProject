-Q theories Verif
theories/Spec.v
theories/Tables.v
theories/Solver.v
theories/Api.v
theories/BitLemmas.v
theories/GridProofs.v
theories/TableProofs.v
theories/ProcessProofs.v
theories/StateProofs.v
theories/OpProofs.v
theories/SolverInv.v
theories/LoopProofs.v
theories/GuessProofs.v
theories/ApiProofs.v
theories/Samples.v
theories/PropertiesSolver.v
theories/TableSpec.v
theories/Bits.v
theories/BitsProofs.v
theories/GeomSpec.v
theories/Geom.v
theories/GeomProofs.v
theories/PropertiesSets.v
theories/TableProps.v
theories/PropertiesTables.v
theories/ParseSpec.v
theories/Parse.v
theories/ParseProofs.v
theories/BlockProofs.v
theories/BlockErrSpec.v
theories/BlockErr.v
theories/PropertiesParse.v
theories/SymSpec.v
theories/SymGen.v
theories/SymProofs.v
theories/PropertiesSym.v
theories/Gen.v
theories/GenProofs.v
theories/DefaultProofs.v
theories/PropertiesGen.v
theories/CanonSpec.v
theories/Canon.v
theories/EquivProofs.v
theories/TransProofs.v
theories/MinlexProofs.v
theories/CanonProofs.v
theories/CanonMain.v
theories/CanonApi.v
theories/PropertiesCanon.v
theories/Strat.v
theories/StratFind.v
theories/StratSolve.v
theories/StratUse.v
theories/StratWhy.v
theories/StratWhyLemmas.v
theories/StratInv.v
theories/StratPos.v
theories/StratFound.v
theories/StratWalk.v
theories/StratWing.v
theories/StratMutant.v
theories/StratCall.v
theories/StratSpec.v
theories/StratHist.v
theories/StratStuck.v
theories/StratPush.v
theories/StratDeduce.v
theories/StratMain.v
theories/StratOnce.v
theories/StratLog.v
theories/StratApi.v
theories/StratCertify.v
theories/StratFibre.v
theories/StratCount.v
theories/StratBound.v
theories/StratSamples.v
theories/PropertiesStrat.v
theories/Show.v
theories/ShowSpec.v
theories/ShowProofs.v
theories/ShowStrat.v
theories/ShowSamples.v
theories/PropertiesShow.v
theories/StratTotal.v
theories/StratSearch.v
theories/StratCallsSpec.v
theories/StratNever.v
theories/StratCallsSamples.v
theories/PropertiesCalls.v
theories/Errors.v
theories/ErrorProofs.v
theories/PropertiesErrors.v
theories/Wip.v
theories/WipSpec.v
theories/RectProofs.v
theories/AlsProofs.v
theories/LinkProofs.v
theories/WipSamples.v
theories/PropertiesWip.v
theories/ShuffleSpec.v
theories/ShuffleProofs.v
theories/StratOrderSpec.v
theories/StratOrder.v
theories/RelateSpec.v
theories/RelateProofs.v
theories/PropertiesRelate.v
theories/StratSymSpec.v
theories/StratSym.v
theories/PropertiesStratSym.v
theories/Programs.v
theories/ProgramSpec.v
theories/ProgramSamples.v
theories/ProgramProofs.v
theories/PropertiesPrograms.v
theories/AutoSpec.v
theories/AutoBound.v
theories/AutoProofs.v
theories/PropertiesAuto.v
theories/ReachSpec.v
theories/ReachProofs.v
theories/PropertiesReach.v
theories/KeepSpec.v
theories/KeepProofs.v
theories/PropertiesKeep.v
theories/StratComplete.v
theories/PropertiesComplete.v
theories/SplitSpec.v
theories/SplitProofs.v
theories/PropertiesSplit.v
theories/CanonIdem.v
theories/CanonOrbit.v
theories/PropertiesOrbit.v
theories/StratResume.v
theories/PropertiesResume.v
theories/StratDual.v
theories/PropertiesDual.v
theories/CanonShape.v
theories/PropertiesShape.v
theories/FormatSpec.v
theories/FormatRel.v
theories/PropertiesFormats.v
theories/TieSpec.v
theories/TieProofs.v
theories/PropertiesTies.v
theories/DepthSpec.v
theories/DepthProofs.v
theories/PropertiesDepth.v
theories/RestProofs.v
theories/PropertiesRest.v
