-Q theories Verif
theories/Cxx.v
theories/Num.v
theories/NumRX.v
theories/NumIEEE.v
theories/Utilities.v
theories/LookupTables.v
theories/TableIO.v
theories/VecFun.v
theories/Units.v
theories/ChiFun.v
theories/Oracles.v
theories/OmpFor.v
theories/BreitWheeler.v
theories/QuantumSync.v
theories/Schwinger.v
theories/PicsarVector.v
theories/CxxLemmas.v
theories/SpecVector.v
theories/RXLemmas.v
theories/Spec.v
theories/UtilitiesProofs.v
theories/LogLinLogProofs.v
theories/PoissonIEEE.v
theories/TableProofs.v
theories/TableIOProofs.v
theories/TableIEEE.v
theories/SpecPhys.v
theories/SpecQED.v
theories/ChiProofs.v
theories/EvolveProofs.v
theories/RateProofs.v
theories/EvolveIEEE.v
theories/OmpProofs.v
theories/VectorProofs.v
theories/PairProofs.v
theories/PairIEEE.v
theories/EmissionProofs.v
theories/EmissionIEEE.v
theories/SpecSchwinger.v
theories/SchwingerProofs.v
theories/SchwingerIEEE.v
theories/EngineCalls.v
theories/SpecEngines.v
theories/EngineProofs.v
theories/TestProgram.v
theories/TestMain.v
theories/SpecSpecies.v
theories/SpeciesProofs.v
theories/SpeciesHistory.v
theories/SwapProofs.v
theories/SpecMotion.v
theories/MotionProofs.v
theories/SpecMain.v
theories/MainProofs.v
theories/PlaceProofs.v
theories/SpeciesTheorems.v
theories/PropVector.v
theories/PropUtilities.v
theories/PropTables.v
theories/PropChi.v
theories/PropEvolve.v
theories/PropPairs.v
theories/PropEmission.v
theories/PropSchwinger.v
theories/PropEngines.v
theories/PropSpecies.v
theories/Fortran.v
theories/FortranNum.v
theories/LoadBalance.v
theories/Sorting.v
theories/FortranLemmas.v
theories/SpecDecomp.v
theories/SpecSorting.v
theories/DecompProofs.v
theories/BalanceProofs.v
theories/SortingProofs.v
theories/DecompExamples.v
theories/PropDecomp.v
theories/Pushers.v
theories/SpecPush.v
theories/PusherProofs.v
theories/PushFacts.v
theories/PropPushers.v
theories/Grid.v
theories/GridLemmas.v
theories/Yee.v
theories/SpecYee.v
theories/YeeReal.v
theories/YeeProofs.v
theories/SpecSolver.v
theories/YeePush.v
theories/YeeDiv.v
theories/YeePush2.v
theories/YeeFacts.v
theories/YeeHist.v
theories/YeeOmp.v
theories/YeeExamples.v
theories/PropYee.v
theories/Deposit.v
theories/Esirkepov.v
theories/SpecDeposit.v
theories/Splines.v
theories/Sums.v
theories/DepositProofs.v
theories/DepositMore.v
theories/EskLoops.v
theories/EskReal.v
theories/EskCore.v
theories/SpecCurrent.v
theories/EskProofs.v
theories/EskFacts.v
theories/DepositExamples.v
theories/PropDeposit.v
theories/PropEsirkepov.v
theories/Gather.v
theories/SpecGather.v
theories/GatherReal.v
theories/GatherProofs.v
theories/GatherMore.v
theories/GatherFacts.v
theories/GatherExamples.v
theories/PropGather.v
theories/Tiles.v
theories/Exchange.v
theories/TilesProofs.v
theories/TilesExchange.v
theories/SpecTiles.v
theories/TilesReal.v
theories/TilesFacts.v
theories/TilesDomain.v
theories/TilesIEEE.v
theories/TilesBoth.v
theories/TilesExamples.v
theories/PropTiles.v
theories/PartBC.v
theories/SpecPartBC.v
theories/PartBCProofs.v
theories/PartBCTile.v
theories/PartBCGlobal.v
theories/PartBCReal.v
theories/PartBCExamples.v
theories/PropPartBC.v
theories/FieldBC.v
theories/SpecFieldBC.v
theories/FieldBCAxis.v
theories/FieldBCMemory.v
theories/FieldBCWorld.v
theories/FieldBCProofs.v
theories/FieldBCSum.v
theories/FieldBCReal.v
theories/FieldBCExamples.v
theories/PropFieldBC.v
theories/DepositTiles.v
theories/SpecDepositTiles.v
theories/ThreadLemmas.v
theories/DepositTilesProofs.v
theories/DepositTilesReal.v
theories/DepositTilesExamples.v
theories/PropDepositTiles.v
theories/SpecWhole.v
theories/WholeProofs.v
theories/WholeExamples.v
theories/PropWhole.v
theories/CurrentTiles.v
theories/SpecCurrentTiles.v
theories/SpecFlux.v
theories/Flux.v
theories/CurrentTilesProofs.v
theories/SpecWholeCurrent.v
theories/WholeCurrentProofs.v
theories/WholeContinuity.v
theories/CurrentTilesExamples.v
theories/PropCurrentTiles.v
theories/SpecLibrary.v
theories/LibraryProofs.v
theories/CleaningProofs.v
theories/PropLibrary.v
theories/SpecParallelField.v
theories/ParallelField.v
theories/ParallelGauss.v
theories/ParallelFieldExamples.v
theories/PropParallelField.v
theories/PartDefault.v
theories/SpecPartDefault.v
theories/PartDefaultProofs.v
theories/PartDefaultRank.v
theories/PartDefaultGlobal.v
theories/PartDefaultReal.v
theories/PartDefaultExamples.v
theories/PropPartDefault.v
theories/PushTiles.v
theories/SpecPic.v
theories/PushTilesProofs.v
theories/PicExamples.v
theories/PropPic.v
theories/Loop.v
theories/SpecLoop.v
theories/LoopBridge.v
theories/LoopParticles.v
theories/LoopStep.v
theories/LoopExamples.v
theories/PropLoop.v
theories/Ckc.v
theories/SpecCkc.v
theories/CkcProofs.v
theories/CkcWaves.v
theories/Ckc2D.v
theories/CkcExamples.v
theories/PropCkc.v
theories/FdWeights.v
theories/SpecFd.v
theories/FdProofs.v
theories/PropFd.v
theories/Hvincenti.v
theories/HvProofs.v
theories/HvExact.v
theories/PropHv.v
theories/TimeStep.v
theories/SpecTimeStep.v
theories/TimeStepProofs.v
theories/TimeStepOrders.v
theories/MaxwellWave.v
theories/PropTimeStep.v
