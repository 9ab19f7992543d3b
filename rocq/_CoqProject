-Q theories Verif
theories/ArchiveModel.v
theories/ArchiveProof.v
theories/ArchiveProof2.v
theories/ArchiveProof3.v
theories/ArchiveProof4.v
theories/ArchiveProof5.v
theories/ArchiveSpec.v
theories/ArrayModel.v
theories/ArrayProof.v
theories/ArrayProof2.v
theories/ArrayProof3.v
theories/ArrayProof4.v
theories/ArraySpec.v
theories/BinMatModel.v
theories/BinMatProof.v
theories/BinMatProof2.v
theories/BinMatSpec.v
theories/CertifyProof.v
theories/CertifyProof2.v
theories/CertifySpec.v
theories/ChainOrderModel.v
theories/ChainOrderProof.v
theories/ChainOrderProof2.v
theories/ChainOrderSpec.v
theories/CommandModel.v
theories/CommandProof.v
theories/CommandProof2.v
theories/CommandProof3.v
theories/CommandProof4.v
theories/CommandProof5.v
theories/CommandSpec.v
theories/ConstraintModel.v
theories/ConstraintProof.v
theories/ConstraintSpec.v
theories/ContainerModel.v
theories/ContainerProof.v
theories/ContainerSpec.v
theories/ControllerModel.v
theories/ControllerProof.v
theories/ControllerProof2.v
theories/ControllerProof3.v
theories/ControllerProof4.v
theories/ControllerSpec.v
theories/CorrectProof.v
theories/CorrectProof2.v
theories/CorrectProof3.v
theories/CorrectProof4.v
theories/CorrectSpec.v
theories/DefaultProof.v
theories/DefaultProof2.v
theories/DefaultProof3.v
theories/DefaultSpec.v
theories/DependentModel.v
theories/DependentProof.v
theories/DependentProof2.v
theories/DependentProof3.v
theories/DependentProof4.v
theories/DependentProof5.v
theories/DependentProof6.v
theories/DependentProof7.v
theories/DependentProof8.v
theories/DependentSpec.v
theories/DuplicateModel.v
theories/DuplicateProof.v
theories/DuplicateProof2.v
theories/DuplicateProof3.v
theories/DuplicateProof4.v
theories/DuplicateSpec.v
theories/EncloseProof.v
theories/EncloseProof2.v
theories/EncloseSpec.v
theories/EvalModel.v
theories/EvalProof.v
theories/EvalProof2.v
theories/EvalProof3.v
theories/EvalSpec.v
theories/EvalSpec2.v
theories/ExprModel.v
theories/ExprProof.v
theories/ExprSpec.v
theories/FeasibleModel.v
theories/FeasibleProof.v
theories/FeasibleProof2.v
theories/FeasibleProof3.v
theories/FeasibleSpec.v
theories/FileModel.v
theories/FileProof.v
theories/FileProof2.v
theories/FileProof3.v
theories/FileProof4.v
theories/FileSpec.v
theories/FlipModel.v
theories/FlipProof.v
theories/FlipSpec.v
theories/HashMapModel.v
theories/HashMapProof.v
theories/HashMapSpec.v
theories/IncumbentModel.v
theories/IncumbentProof.v
theories/IncumbentProof2.v
theories/IncumbentProof3.v
theories/IncumbentSpec.v
theories/InfeasibleProof.v
theories/InfeasibleProof2.v
theories/InfeasibleProof3.v
theories/InfeasibleProof4.v
theories/InfeasibleSpec.v
theories/InstanceModel.v
theories/InstanceProof.v
theories/InstanceProof2.v
theories/InstanceProof3.v
theories/InstanceSpec.v
theories/JsonModel.v
theories/JsonProof.v
theories/JsonProof2.v
theories/JsonProof3.v
theories/JsonProof4.v
theories/JsonProof5.v
theories/JsonProof6.v
theories/JsonProof7.v
theories/JsonProof8.v
theories/JsonSpec.v
theories/LagrangeModel.v
theories/LagrangeProof.v
theories/LagrangeProof2.v
theories/LagrangeProof3.v
theories/LagrangeSpec.v
theories/LearnerModel.v
theories/LearnerProof.v
theories/LearnerProof2.v
theories/LearnerSpec.v
theories/LocalModel.v
theories/LocalProof.v
theories/LocalProof2.v
theories/LocalSpec.v
theories/LoopModel.v
theories/LoopProof.v
theories/LoopProof2.v
theories/LoopProof3.v
theories/LoopProof4.v
theories/LoopSpec.v
theories/LpModel.v
theories/LpProof.v
theories/LpProof2.v
theories/LpProof3.v
theories/LpProof4.v
theories/LpProof5.v
theories/LpProof6.v
theories/LpProof7.v
theories/LpSpec.v
theories/MoveModel.v
theories/MoveProof.v
theories/MoveProof2.v
theories/MoveProof3.v
theories/MoveProof9.v
theories/MoveSpec.v
theories/MpsModel.v
theories/MpsProof.v
theories/MpsProof2.v
theories/MpsProof3.v
theories/MpsProof4.v
theories/MpsProof5.v
theories/MpsProof6.v
theories/MpsProof8.v
theories/MpsSpec.v
theories/MstProof.v
theories/NamesModel.v
theories/NamesProof.v
theories/NamesProof2.v
theories/NamesProof3.v
theories/NamesSpec.v
theories/OfferModel.v
theories/OfferProof.v
theories/OfferProof2.v
theories/OfferProof3.v
theories/OfferProof4.v
theories/OfferProof5.v
theories/OfferProof6.v
theories/OfferSpec.v
theories/OnlineModel.v
theories/OnlineProof.v
theories/OnlineSpec.v
theories/OptionModel.v
theories/OptionProof.v
theories/OptionProof2.v
theories/OptionProof3.v
theories/OptionProof4.v
theories/OptionSpec.v
theories/OptionSpec2.v
theories/OverlapModel.v
theories/OverlapProof.v
theories/OverlapSpec.v
theories/ParityModel.v
theories/ParityProof.v
theories/ParityProof2.v
theories/ParityProof3.v
theories/ParityProof4.v
theories/ParitySpec.v
theories/PrepareModel.v
theories/PrepareProof.v
theories/PrepareProof2.v
theories/PrepareProof3.v
theories/PrepareProof4.v
theories/PrepareProof5.v
theories/PrepareProof6.v
theories/PrepareProof7.v
theories/PrepareSpec.v
theories/PresolveModel.v
theories/PresolveProof.v
theories/PresolveProof2.v
theories/PresolveProof3.v
theories/PresolveProof4.v
theories/PresolveProof5.v
theories/PresolveSpec.v
theories/Prop_Archive.v
theories/Prop_Array.v
theories/Prop_BinMat.v
theories/Prop_Certify.v
theories/Prop_ChainOrder.v
theories/Prop_Command.v
theories/Prop_Constraint.v
theories/Prop_Container.v
theories/Prop_Controller.v
theories/Prop_Correct.v
theories/Prop_Default.v
theories/Prop_Dependent.v
theories/Prop_Duplicate.v
theories/Prop_Enclose.v
theories/Prop_Eval.v
theories/Prop_Expr.v
theories/Prop_Feasible.v
theories/Prop_File.v
theories/Prop_Flip.v
theories/Prop_HashMap.v
theories/Prop_Incumbent.v
theories/Prop_Infeasible.v
theories/Prop_Instance.v
theories/Prop_Json.v
theories/Prop_Lagrange.v
theories/Prop_Learner.v
theories/Prop_Local.v
theories/Prop_Loop.v
theories/Prop_Lp.v
theories/Prop_Move.v
theories/Prop_Mps.v
theories/Prop_MpsWrite.v
theories/Prop_Names.v
theories/Prop_Offer.v
theories/Prop_Online.v
theories/Prop_Option.v
theories/Prop_Overlap.v
theories/Prop_Parity.v
theories/Prop_Prepare.v
theories/Prop_Presolve.v
theories/Prop_Reach.v
theories/Prop_Relax.v
theories/Prop_Report.v
theories/Prop_Restart.v
theories/Prop_Saved.v
theories/Prop_Screen.v
theories/Prop_SearchTree.v
theories/Prop_Selection.v
theories/Prop_Solution.v
theories/Prop_Solver.v
theories/Prop_Sparse.v
theories/Prop_Step.v
theories/Prop_Switch.v
theories/Prop_Tabu.v
theories/Prop_Target.v
theories/Prop_Truth.v
theories/Prop_Type.v
theories/Prop_UnionFind.v
theories/Prop_Variable.v
theories/Prop_Whole.v
theories/Prop_Written.v
theories/ReachProof.v
theories/ReachSpec.v
theories/RelaxModel.v
theories/RelaxProof.v
theories/RelaxProof2.v
theories/RelaxProof3.v
theories/RelaxProof4.v
theories/RelaxProof5.v
theories/RelaxSpec.v
theories/ReportModel.v
theories/ReportProof.v
theories/ReportProof2.v
theories/ReportProof3.v
theories/ReportProof4.v
theories/ReportSpec.v
theories/RestartModel.v
theories/RestartProof.v
theories/RestartProof2.v
theories/RestartSpec.v
theories/SavedProof.v
theories/SavedProof2.v
theories/ScreenModel.v
theories/ScreenProof.v
theories/ScreenProof2.v
theories/ScreenSpec.v
theories/SearchTreeModel.v
theories/SearchTreeProof.v
theories/SearchTreeProof2.v
theories/SearchTreeProof3.v
theories/SearchTreeSpec.v
theories/SelectionModel.v
theories/SelectionProof.v
theories/SelectionProof2.v
theories/SelectionProof3.v
theories/SelectionSpec.v
theories/SolutionModel.v
theories/SolutionProof.v
theories/SolutionSpec.v
theories/SolverModel.v
theories/SolverProof.v
theories/SolverProof2.v
theories/SolverProof3.v
theories/SolverProof4.v
theories/SolverProof5.v
theories/SolverSpec.v
theories/SparseModel.v
theories/SparseProof.v
theories/SparseProof2.v
theories/SparseProof3.v
theories/SparseProof4.v
theories/SparseProof5.v
theories/SparseSpec.v
theories/StepModel.v
theories/StepProof.v
theories/SwitchModel.v
theories/SwitchProof.v
theories/SwitchProof2.v
theories/SwitchProof3.v
theories/SwitchProof4.v
theories/SwitchSpec.v
theories/TabuModel.v
theories/TabuProof.v
theories/TabuProof2.v
theories/TabuSpec.v
theories/TargetModel.v
theories/TargetProof.v
theories/TargetProof2.v
theories/TargetProof3.v
theories/TargetProof4.v
theories/TargetSpec.v
theories/TextModel.v
theories/TextProof.v
theories/TextProof2.v
theories/TruthProof.v
theories/TruthProof2.v
theories/TruthProof3.v
theories/TruthSpec.v
theories/TypeModel.v
theories/TypeProof.v
theories/TypeProof2.v
theories/TypeProof3.v
theories/TypeProof4.v
theories/TypeSpec.v
theories/TypeSpec2.v
theories/UnionFindModel.v
theories/UnionFindProof.v
theories/UnionFindSpec.v
theories/VariableModel.v
theories/VariableProof.v
theories/VariableSpec.v
theories/WholeModel.v
theories/WholeProof.v
theories/WholeProof2.v
theories/WholeProof3.v
theories/WholeProof4.v
theories/WholeProof5.v
theories/WholeProof6.v
theories/WholeSpec.v
theories/WrittenModel.v
theories/WrittenProof.v
theories/WrittenProof2.v
theories/WrittenSpec.v
