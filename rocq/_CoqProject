-Q theories Verif

theories/Base.v
theories/Formulas.v
theories/FormulaLogic.v
theories/Aig.v
theories/AigParse.v
theories/AigPrint.v
theories/Fsts.v
theories/Bmc.v
theories/Solvers.v
theories/Ic3.v
theories/Pdr.v
theories/Brute.v
theories/Spec.v
theories/SpecText.v
theories/Tac.v
theories/FormulasFacts.v
theories/TextFacts.v
theories/LogicFacts.v
theories/BruteFacts.v
theories/FormulaThms.v
theories/PropFormulas.v
theories/SpecSolver.v
theories/SolverFacts.v
theories/StatefulFacts.v
theories/RefEngines.v
theories/PropSolvers.v
theories/SpecAig.v
theories/SpecAiger.v
theories/AigFacts.v
theories/SimFacts.v
theories/ParseFacts.v
theories/EncodeFacts.v
theories/SymbolFacts.v
theories/PrintFacts.v
theories/AigThms.v
theories/PropAig.v
theories/SpecFsts.v
theories/FstsFacts.v
theories/FstsSem.v
theories/TagFacts.v
theories/FstsThms.v
theories/PropFsts.v
theories/SpecAlg.v
theories/Plain.v
theories/BmcThms.v
theories/PropBmc.v
theories/StateFacts.v
theories/Ic3Core.v
theories/QueryFacts.v
theories/Ic3Thms.v
theories/PropIc3.v
theories/PdrCore.v
theories/PdrQuery.v
theories/PdrSteps.v
theories/PdrThms.v
theories/ProverThms.v
theories/PropPdr.v
theories/TwiceThms.v
theories/SpecFile.v
theories/FileFacts.v
theories/GrammarFacts.v
theories/TailFacts.v
theories/PropFile.v
theories/ReplaceFacts.v
theories/CadicalFacts.v
theories/SoundThms.v
theories/SpecBuild.v
theories/BuildFacts.v
theories/PropBuild.v
theories/RescueThms.v
theories/SpecEnd.v
theories/EndThms.v
theories/PropEnd.v
theories/DisplayThms.v
theories/PropDisplay.v
theories/OrderThms.v
theories/PropOrder.v
theories/RepoTests.v
theories/ConstThms.v
theories/StableThms.v
theories/PropStable.v
theories/UnrollThms.v
theories/PropUnroll.v
theories/SpecOrder.v
theories/CmpThms.v
theories/PropCmp.v
theories/ConeThms.v
theories/PropCone.v
theories/SpecRename.v
theories/RenameThms.v
theories/PropRename.v
theories/CallBound.v
theories/CounterThms.v
theories/PdrCalls.v
theories/PropCalls.v
theories/CounterGen.v
theories/CounterCalls.v
theories/FuelFacts.v
theories/CallUpper.v
theories/CallLimit.v
theories/PdrUpper.v
theories/PdrLimit.v
theories/SlowGen.v
theories/SlowOrder.v
theories/SlowRun.v
theories/SlowThms.v
theories/LongGen.v
theories/LongOrder.v
theories/LongRun.v
theories/LongThms.v
theories/SpecInv.v
theories/InvThms.v
theories/PropInv.v
theories/InvComb.v
theories/SpecParts.v
theories/PartsThms.v
theories/PropParts.v
theories/SpecSim.v
theories/SimThms.v
theories/PropSim.v
theories/SpecReset.v
theories/ResetThms.v
theories/PropReset.v
theories/SpecRefine.v
theories/RefineThms.v
theories/PropRefine.v
