-Q theories Verif
theories/Num.v
theories/NumFacts.v
theories/Py.v
theories/PyFacts.v
theories/Expr.v
theories/Program.v
theories/Feas.v
theories/Conv.v
theories/Spec.v
theories/ExprFacts.v
theories/ExprMake.v
theories/ExprProps.v
theories/ProgramFacts.v
theories/ProgramProps.v
theories/GhostFacts.v
theories/FeasFacts.v
theories/ExprClose.v
theories/ExprExact.v
theories/ViewFacts.v
theories/WfFacts.v
theories/NamedFacts.v
theories/IneqFacts.v
theories/ConvWf.v
theories/IneqProps.v
theories/IneqExact.v
theories/IntBinFacts.v
theories/IntBinProps.v
theories/SpecLost.v
theories/LostFacts.v
theories/QuboAny.v
theories/ConvMore.v
theories/PenFacts.v
theories/PenProps.v
theories/PenLight.v
theories/QuboFacts.v
theories/ReuseFacts.v
theories/Subst.v
theories/SpecMore.v
theories/SubstFacts.v
theories/SubstFacts2.v
theories/SubstFacts3.v
theories/SubstFacts4.v
theories/SubstProps.v
theories/SubstTotal.v
theories/SubstExact.v
theories/Ising.v
theories/SpecIsing.v
theories/IsingFacts.v
theories/IsingFacts2.v
theories/IsingFacts3.v
theories/IsingProps.v
theories/IsingLast.v
theories/Algo.v
theories/SpecAlgo.v
theories/AlgoFacts.v
theories/AlgoFacts2.v
theories/AlgoFacts3.v
theories/Recur.v
theories/SpecRecur.v
theories/RecurFacts.v
theories/RecurFacts2.v
theories/RecurFacts3.v
theories/RecurFacts4.v
theories/RecurFacts5.v
theories/RecurFacts6.v
theories/RecurKeep.v
theories/RecurHist.v
theories/RecurHistFacts.v
theories/P_Hist.v
theories/Docplex.v
theories/SpecDoc.v
theories/DocFacts.v
theories/DocFacts2.v
theories/DocFacts3.v
theories/DocWf.v
theories/App.v
theories/Graphs.v
theories/SpecApp.v
theories/SpecGraph.v
theories/AppFacts.v
theories/AppFacts2.v
theories/AppFacts3.v
theories/AppFacts4.v
theories/TspFacts.v
theories/VrpFacts.v
theories/VrpFacts2.v
theories/VrpFacts3.v
theories/Files.v
theories/SpecFiles.v
theories/FilesFacts.v
theories/Solvers.v
theories/SpecSolvers.v
theories/SolversFacts.v
theories/Grover.v
theories/SpecGrover.v
theories/GroverFacts.v
theories/GroverFacts2.v
theories/GroverFacts3.v
theories/Goemans.v
theories/SpecGoemans.v
theories/GoemansFacts.v
theories/GoemansFacts2.v
theories/GoemansFacts3.v
theories/Warm.v
theories/SpecWarm.v
theories/WarmFacts.v
theories/WarmFacts2.v
theories/WarmFacts3.v
theories/WarmFacts4.v
theories/Admm.v
theories/SpecAdmm.v
theories/AdmmFacts.v
theories/AdmmFacts2.v
theories/AdmmFacts3.v
theories/AdmmFacts4.v
theories/AdmmFacts5.v
theories/AdmmFacts6.v
theories/AdmmFacts7.v
theories/SpecTotal.v
theories/ConvTotal.v
theories/SpecStart.v
theories/StartFacts.v
theories/SpecStop.v
theories/StopFacts.v
theories/Sdp.v
theories/SpecSdp.v
theories/SdpFacts.v
theories/SpecLagr.v
theories/LagrFacts.v
theories/LagrFacts2.v
theories/LagrFacts3.v
theories/SpecSolve.v
theories/SolveFacts.v
theories/SolveFacts2.v
theories/SolveFacts3.v
theories/AdmmFacts8.v
theories/Cplex.v
theories/SpecCplex.v
theories/CplexFacts.v
theories/DocSame.v
theories/Circuit.v
theories/WarmCircuit.v
theories/SpecCircuit.v
theories/CircuitFacts.v
theories/GroverCircuit.v
theories/SpecGroverC.v
theories/GroverCFacts.v
theories/AdmmFacts9.v
theories/SpecRoute.v
theories/RouteFacts.v
theories/GraphFacts.v
theories/Draw.v
theories/SpecDraw.v
theories/DrawFacts.v
theories/Bulk.v
theories/BulkFacts.v
theories/Read.v
theories/SpecRead.v
theories/ReadFacts.v
theories/IntFacts.v
theories/SpecInt.v
theories/IntFacts2.v
theories/IntFacts3.v
theories/Compat.v
theories/SpecCompat.v
theories/CompatFacts.v
theories/SpecEdit.v
theories/EditFacts.v
theories/Load.v
theories/SpecLoad.v
theories/LoadFacts.v
theories/P_Program.v
theories/P_Expr.v
theories/P_Feas.v
theories/P_Conv.v
theories/P_Pen.v
theories/P_Qubo.v
theories/P_Subst.v
theories/P_Ising.v
theories/AlgoAny.v
theories/P_Result.v
theories/P_Recur.v
theories/P_Doc.v
theories/Print.v
theories/P_Print.v
theories/P_App.v
theories/P_Solvers.v
theories/GroverAny.v
theories/P_Grover.v
theories/P_Goemans.v
theories/P_Warm.v
theories/P_Admm.v
theories/P_Total.v
theories/P_Start.v
theories/P_Stop.v
theories/P_Sdp.v
theories/P_Lagr.v
theories/P_Solve.v
theories/P_Admm2.v
theories/P_Cplex.v
theories/RoundLog.v
theories/SpecRound.v
theories/RoundFacts.v
theories/P_Round.v
theories/FloatEval.v
theories/SpecFloats.v
theories/FloatFacts.v
theories/FloatFacts2.v
theories/FloatFacts3.v
theories/P_Float.v
theories/P_Circuit.v
theories/P_GroverC.v
theories/P_Admm3.v
theories/P_Route.v
theories/P_Graph.v
theories/P_Draw.v
theories/P_Bulk.v
theories/P_Read.v
theories/P_Int.v
theories/P_Fail.v
theories/P_Compat.v
theories/P_Edit.v
theories/P_Load.v
theories/SpecAdmmTotal.v
theories/AdmmTotal.v
theories/P_Admm4.v
