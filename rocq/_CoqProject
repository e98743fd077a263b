-Q theories Verif
theories/Num.v
theories/NumFacts.v
theories/Arr.v
theories/Spec.v
theories/ArrFacts.v
theories/MinSum.v
theories/MinSumFacts.v
theories/M_Tsp_Constraints.v
theories/P_Tsp_Constraints.v
theories/T_Tsp_Constraints.v
theories/M_Kc_Trellis.v
theories/P_Kc_Trellis.v
theories/T_Kc_Trellis.v
theories/M_Ksat.v
theories/P_Ksat.v
theories/T_Ksat_Messages.v
theories/M_Equality.v
theories/P_Equality.v
theories/T_Equality.v
theories/M_Knapsack.v
theories/P_Knapsack.v
theories/P_Team_Knapsack.v
theories/T_Knapsack.v
theories/M_Filter.v
theories/P_Filter.v
theories/T_Filter.v
theories/M_InOut.v
theories/P_InOut.v
theories/T_InOut.v
theories/M_Runs.v
theories/P_Runs.v
theories/T_Runs.v
theories/M_Tsp_Loops.v
theories/M_Tsp_Run.v
theories/SpecGraph.v
theories/P_Tsp_Loops.v
theories/T_Tsp_Loops.v
theories/P_Tsp_Run.v
theories/P_Tsp_Fin.v
theories/M_Tsp_Py.v
theories/P_Tsp_Py.v
theories/T_Tsp_Run.v
theories/T_Tsp_Call.v
theories/M_Ksat_Py.v
theories/P_Ksat_Py.v
theories/P_Ksat_Gen.v
theories/T_Ksat_Py.v
theories/SpecRun.v
theories/P_Schedule.v
theories/P_Ksat_Run.v
theories/P_Kc_Run.v
theories/P_Tsp_Sched.v
theories/P_Tsp_Rounds.v
theories/T_Schedule.v
theories/T_Tsp_Sched.v
theories/SpecTour.v
theories/M_Tsp_Post.v
theories/P_Tsp_Tour.v
theories/P_Tsp_Kopt.v
theories/P_Tsp_Paths.v
theories/P_Tsp_Walks.v
theories/P_Tsp_Join.v
theories/P_Tsp_Linear.v
theories/T_Tsp_Post.v
theories/SpecKc.v
theories/M_Kc_Py.v
theories/P_Kc_Gen.v
theories/P_Kc_Post.v
theories/P_Kc_Results.v
theories/P_Kc_Call.v
theories/T_Kc_Py.v
theories/M_Abi.v
theories/P_Abi.v
theories/T_Abi.v
theories/M_PyRef.v
theories/M_PyRef_Kc.v
theories/M_PyRef_Ksat.v
theories/P_PyRef.v
theories/P_PyRef_Kc.v
theories/P_PyRef_Ksat.v
theories/T_PyRef.v
theories/M_PyRef_Run.v
theories/P_PyRef_Run.v
theories/T_PyRef_Run.v
theories/M_PyRef_Tsp.v
theories/P_PyRef_Tsp.v
theories/T_PyRef_Tsp.v
theories/P_Tsp_Order.v
theories/T_Tsp_Order.v
theories/SpecForest.v
theories/P_Forest.v
theories/P_Ksat_Tree.v
theories/T_Ksat_Tree.v
theories/SpecCover.v
theories/P_Assign.v
theories/P_Tsp_Assign.v
theories/T_Tsp_Assign.v
theories/T_Tsp_Sym.v
theories/P_Forest_Limit.v
theories/P_Ksat_Limit.v
theories/P_Ksat_Opt.v
theories/T_Ksat_Limit.v
theories/P_Ksat_Sym.v
theories/T_Ksat_Sym.v
theories/SpecCnf.v
theories/M_Cnf.v
theories/P_Cnf.v
theories/T_Cnf.v
theories/SpecCli.v
theories/M_Cli.v
theories/P_Cli.v
theories/T_Cli.v
theories/P_Param.v
theories/T_Scale.v
theories/M_Instances.v
theories/T_Instances.v
theories/P_MinPerm.v
theories/T_Kc_Sym.v
theories/SpecSelection.v
theories/P_Potential.v
theories/P_Kc_Dual.v
theories/P_Kc_Messages.v
theories/P_Kc_Best.v
theories/T_Kc_Best.v
theories/T_Ksat_Repair.v
theories/SpecRound.v
theories/M_Float.v
theories/P_Round.v
theories/P_Float.v
theories/P_Float_Tsp.v
theories/T_Float_Tsp.v
theories/P_Float_Ksat.v
theories/T_Float_Ksat.v
theories/P_Float_Kc.v
theories/T_Float_Kc.v
theories/T_Tsp_Repair.v
theories/M_Kc_Summary.v
theories/T_Kc_Summary.v
theories/SpecSettled.v
theories/P_Settled.v
theories/T_Ksat_Settled.v
theories/P_Tsp_Settled.v
theories/T_Tsp_Settled.v
theories/P_Kc_Settled.v
theories/T_Kc_Settled.v
theories/SpecView.v
theories/P_Ksat_View.v
theories/T_Ksat_View.v
theories/SpecUnfold.v
theories/P_Unfold.v
theories/T_Ksat_Unfold.v
theories/T_Tsp_Unfold.v
theories/M_Tsp_GetLoops.v
theories/P_Tsp_GetLoops.v
theories/T_Tsp_GetLoops.v
theories/M_PyRef_Object.v
theories/T_PyRef_Object.v
theories/M_PyRef_Summary.v
theories/T_PyRef_Summary.v
theories/M_Test_EOP.v
theories/T_Test_EOP.v
theories/M_Test_Check.v
theories/T_Test_Check.v
theories/M_Demo.v
theories/T_Demo.v
theories/M_Unit_Tests.v
theories/P_Unit_Tests.v
theories/T_Unit_Tests.v
theories/M_Unit_Knapsack.v
theories/P_Unit_Knapsack.v
theories/P_Unit_Gen.v
theories/T_Unit_Knapsack.v
theories/T_Tsp_Pieces.v
theories/SpecRange.v
theories/P_Kc_Bound.v
theories/P_Kc_Range.v
theories/T_Kc_Range.v
theories/M_Unit_Runs.v
theories/T_Unit_Runs.v
theories/P_Kc_States.v
theories/T_Float_Range.v
theories/SpecLiterals.v
theories/P_Ksat_Range.v
theories/T_Ksat_Range.v
theories/T_Tsp_Range.v
theories/SpecAcyclic.v
theories/P_Acyclic.v
theories/T_Ksat_Acyclic.v
theories/T_PyRef_Bounded.v
theories/T_Kc_Costs.v
theories/T_Ksat_Pure.v
theories/SpecWithin.v
theories/P_Stable.v
theories/T_Stable.v
theories/M_Unit_Driver.v
theories/P_Unit_Driver.v
theories/T_Unit_Driver.v
theories/P_Kc_Stable.v
theories/T_Kc_Stable.v
theories/M_Cli_Ref.v
theories/T_Cli_Ref.v
theories/T_Kc_Reward.v
theories/T_PyRef_Exit.v
theories/T_Tsp_Exit.v
theories/T_PyRef_Loop.v
theories/T_PyRef_Raise.v
theories/P_PyRef_Raise.v
theories/T_PyRef_Raise2.v
theories/P_PyRef_Raise2.v
