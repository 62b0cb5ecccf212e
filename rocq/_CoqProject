-Q theories Verif
theories/Dbl.v
theories/Outcome.v
theories/StdSort.v
theories/Compare.v
theories/MultiObj.v
theories/Primes.v
theories/Discrepancy.v
theories/Weights.v
theories/SpecOrder.v
theories/SpecMultiObj.v
theories/SpecDiscrepancy.v
theories/BaseFacts.v
theories/DblFacts.v
theories/CompareFacts.v
theories/DominanceFacts.v
theories/FndsFacts.v
theories/MultiObjFacts.v
theories/CrowdFacts.v
theories/MultiObjFacts2.v
theories/DecomposeFacts.v
theories/PrimesFacts.v
theories/DiscrepancyFacts.v
theories/WeightsFacts.v
theories/IntDbl.v
theories/Constrained.v
theories/SpecConstrained.v
theories/ConstrainedFacts.v
theories/ConstrainedFacts2.v
theories/Props_Constrained.v
theories/MultiObjFacts3.v
theories/Props_MultiObj.v
theories/DiscrepancyFacts2.v
theories/Props_Discrepancy.v
theories/Problem.v
theories/Bfe.v
theories/SpecProblem.v
theories/ProblemFacts.v
theories/ProblemFacts2.v
theories/ProblemFacts3.v
theories/BfeFacts.v
theories/Props_Problem.v
theories/Rng.v
theories/Generic.v
theories/SpecGeneric.v
theories/GenericFacts.v
theories/GenericFacts2.v
theories/GenericFacts3.v
theories/GenericFacts4.v
theories/Props_Generic.v
theories/Population.v
theories/SpecPopulation.v
theories/PopulationFacts.v
theories/PopulationFacts2.v
theories/PopulationFacts3.v
theories/PopulationFacts4.v
theories/Props_Population.v
theories/TaskQueue.v
theories/SpecTaskQueue.v
theories/TaskQueueFacts.v
theories/TaskQueueFacts2.v
theories/TaskQueueFacts3.v
theories/TaskQueueFacts4.v
theories/Props_TaskQueue.v
theories/Policies.v
theories/SpecPolicies.v
theories/PoliciesFacts.v
theories/Props_Policies.v
theories/Topologies.v
theories/SpecTopologies.v
theories/TopologiesFacts.v
theories/TopologiesFacts2.v
theories/Props_Topologies.v
theories/Hypervolume.v
theories/SpecHypervolume.v
theories/HvFacts.v
theories/HvFacts2.v
theories/HvFacts3.v
theories/HvFacts4.v
theories/HvFacts5.v
theories/HvFacts6.v
theories/Props_Hypervolume.v
theories/GeneticOps.v
theories/SpecGenetic.v
theories/RmFacts.v
theories/GeneticFacts.v
theories/GeneticFacts2.v
theories/GeneticFacts3.v
theories/GeneticFacts4.v
theories/Props_Genetic.v
theories/MetaProblems.v
theories/SpecMeta.v
theories/MetaFacts.v
theories/MetaFacts2.v
theories/MetaFacts3.v
theories/MetaFacts4.v
theories/MetaFacts5.v
theories/Props_Meta.v
theories/Gradients.v
theories/SpecGradients.v
theories/GradientsFacts.v
theories/GradientsFacts2.v
theories/Props_Gradients.v
theories/Island.v
theories/SpecIsland.v
theories/IslandFacts.v
theories/IslandFacts2.v
theories/Props_Island.v
theories/Archipelago.v
theories/ArchiFacts.v
theories/SpecArchi.v
theories/ArchiFacts2.v
theories/Props_Archi.v
theories/Migration.v
theories/SpecMigration.v
theories/MigrationFacts.v
theories/MigrationFacts2.v
theories/Props_Migration.v
theories/Serialization.v
theories/SpecSerial.v
theories/SerialFacts.v
theories/SerialFacts2.v
theories/Props_Serial.v
theories/Algo.v
theories/SpecAlgo.v
theories/AlgDe.v
theories/AlgoFacts.v
theories/AlgoFacts2.v
theories/AlgDeFacts.v
theories/AlgDeFacts2.v
theories/AlgExamples.v
theories/Props_De.v
theories/AlgSea.v
theories/AlgSeaFacts.v
theories/Props_Sea.v
theories/NotPop.v
theories/AlgCompass.v
theories/SpecLocal.v
theories/AlgCompassFacts.v
theories/AlgCompassFacts2.v
theories/Props_Compass.v
theories/AlgSa.v
theories/AlgSaFacts.v
theories/AlgSaFacts2.v
theories/Props_Sa.v
theories/AlgMbh.v
theories/AlgMbhFacts.v
theories/AlgMbhFacts2.v
theories/Props_Mbh.v
theories/AlgBee.v
theories/AlgBeeFacts.v
theories/AlgBeeFacts2.v
theories/Props_Bee.v
theories/SpecSwarm.v
theories/AlgGwo.v
theories/AlgGwoFacts.v
theories/AlgGwoFacts2.v
theories/Props_Gwo.v
theories/SpecHarmony.v
theories/AlgIhs.v
theories/AlgIhsFacts.v
theories/AlgIhsFacts2.v
theories/Props_Ihs.v
theories/AlgPso.v
theories/SpecPso.v
theories/AlgPsoFacts.v
theories/AlgPsoFacts2.v
theories/AlgPsoFacts3.v
theories/AlgPsoFacts4.v
theories/Props_Pso.v
theories/Io.v
theories/SpecIo.v
theories/IoFacts.v
theories/Props_Io.v
theories/Golomb.v
theories/SpecGolomb.v
theories/GolombFacts.v
theories/GolombExamples.v
theories/Props_Golomb.v
theories/AlgSga.v
theories/SpecSga.v
theories/AlgSgaFacts.v
theories/AlgSgaFacts2.v
theories/AlgSgaFacts3.v
theories/AlgSgaFacts4.v
theories/AlgSgaFacts5.v
theories/AlgSgaFacts6.v
theories/SgaExamples.v
theories/Props_Sga.v
theories/AlgNsga2.v
theories/SpecNsga2.v
theories/AlgNsga2Facts.v
theories/AlgNsga2Facts2.v
theories/AlgNsga2Facts3.v
theories/AlgNsga2Facts4.v
theories/AlgNsga2Facts5.v
theories/Nsga2Examples.v
theories/Props_Nsga2.v
theories/AlgCstrs.v
theories/SpecCstrs.v
theories/AlgCstrsFacts.v
theories/AlgCstrsFacts2.v
theories/AlgCstrsFacts3.v
theories/AlgCstrsFacts4.v
theories/AlgCstrsFacts5.v
theories/CstrsExamples.v
theories/Props_Cstrs.v
theories/AlgMoead.v
theories/SpecMoead.v
theories/AlgMoeadFacts.v
theories/AlgMoeadFacts2.v
theories/AlgMoeadFacts3.v
theories/AlgMoeadFacts4.v
theories/AlgMoeadFacts5.v
theories/AlgMoeadFacts6.v
theories/MoeadExamples.v
theories/Props_Moead.v
theories/TestArith.v
theories/TestProblems.v
theories/SpecTest.v
theories/TestFacts.v
theories/TestFacts2.v
theories/TestFacts3.v
theories/TestFacts4.v
theories/TestExamples.v
theories/Props_TestProblems.v
theories/TestFacts5.v
theories/Props_LennardJones.v
theories/SpecPareto.v
theories/Zdt.v
theories/SpecZdt.v
theories/ZdtFacts.v
theories/ZdtFacts2.v
theories/ZdtFacts3.v
theories/Props_Zdt.v
theories/Dtlz.v
theories/DtlzFacts.v
theories/DtlzFacts2.v
theories/DtlzFacts3.v
theories/Props_Dtlz.v
theories/ForkIsland.v
theories/SpecFork.v
theories/ForkFacts.v
theories/ForkFacts2.v
theories/Props_Fork.v
theories/AlgSade.v
theories/SpecSade.v
theories/AlgSadeFacts.v
theories/AlgSadeFacts2.v
theories/AlgSadeFacts3.v
theories/AlgSadeFacts4.v
theories/Props_Sade.v
theories/AlgGaco.v
theories/SpecGaco.v
theories/AlgGacoFacts.v
theories/AlgGacoFacts2.v
theories/AlgGacoFacts3.v
theories/AlgGacoFacts4.v
theories/AlgGacoFacts5.v
theories/AlgGacoFacts6.v
theories/AlgGacoFacts7.v
theories/AlgGacoFacts8.v
theories/GacoExamples.v
theories/Props_Gaco.v
theories/GlobalRng.v
theories/SpecGlobalRng.v
theories/GlobalRngFacts.v
theories/GlobalRngExamples.v
theories/Props_GlobalRng.v
theories/Inventory.v
theories/SpecInventory.v
theories/InventoryFacts.v
theories/InventoryExamples.v
theories/Props_Inventory.v
theories/AlgEigen.v
theories/AlgEigenFacts.v
theories/AlgMem.v
theories/AlgMemFacts.v
theories/AlgCmaes.v
theories/SpecCmaes.v
theories/AlgCmaesFacts.v
theories/AlgCmaesFacts1.v
theories/AlgCmaesFacts2.v
theories/AlgCmaesFacts3.v
theories/CmaesExamples.v
theories/Props_Cmaes.v
theories/AlgXnes.v
theories/SpecXnes.v
theories/AlgXnesFacts.v
theories/AlgXnesFacts2.v
theories/AlgXnesFacts3.v
theories/XnesExamples.v
theories/Props_Xnes.v
theories/SpecSadeAdapt.v
theories/AlgSadeFacts5.v
theories/AlgMoeadGen.v
theories/AlgMoeadGenFacts.v
theories/AlgMoeadGenFacts2.v
theories/AlgMoeadGenFacts3.v
theories/MoeadGenExamples.v
theories/Props_MoeadGen.v
theories/AlgPsoGen.v
theories/SpecPsoGen.v
theories/AlgPsoGenFacts.v
theories/AlgPsoGenFacts2.v
theories/AlgPsoGenFacts3.v
theories/PsoGenExamples.v
theories/Props_PsoGen.v
theories/AlgNspso.v
theories/SpecNspso.v
theories/AlgNspsoFacts.v
theories/AlgNspsoFacts2.v
theories/AlgNspsoFacts3.v
theories/NspsoExamples.v
theories/Props_Nspso.v
theories/AlgGacoFacts9.v
theories/Schwefel.v
theories/SpecSchwefel.v
theories/SchwefelFacts.v
theories/Props_Schwefel.v
theories/AlgNspsoFacts9.v
theories/SpecNiche.v
theories/AlgNspsoFacts10.v
theories/SwarmSaved.v
