-Q theories Verif
theories/Base.v
theories/Graph.v
theories/Spec.v
theories/M_Float.v
theories/M_Walk.v
theories/M_Graph.v
theories/M_Extension.v
theories/P_Base.v
theories/P_Walk.v
theories/P_BFS.v
theories/P_DFS.v
theories/P_Check.v
theories/P_Float.v
theories/P_FloatId.v
theories/P_Choose.v
theories/P_Extension.v
theories/Properties_Walk.v
theories/Spec_Ext.v
theories/P_ExtRounds.v
theories/Properties_Extension.v
theories/M_Dijkstra.v
theories/M_Collapse.v
theories/P_Dijkstra.v
theories/P_Collapse.v
theories/Spec_Combined.v
theories/P_Combined.v
theories/Properties_Collapse.v
theories/M_Gain.v
theories/Spec_Gain.v
theories/P_Gain.v
theories/P_GainOne.v
theories/Properties_Gain.v
theories/M_Solution.v
theories/Spec_Cycle.v
theories/P_Cycle.v
theories/Properties_Cycle.v
theories/M_ILP.v
theories/M_Subtour.v
theories/M_CycleCover.v
theories/M_CostCover.v
theories/Spec_Cover.v
theories/Spec_ILP.v
theories/P_ILP.v
theories/P_Model.v
theories/P_CheckILP.v
theories/Properties_ILP.v
theories/P_Component.v
theories/P_Lookup.v
theories/P_Cuts.v
theories/P_Separate.v
theories/P_GraphCycle.v
theories/P_Solution.v
theories/P_Cover.v
theories/P_CostCover.v
theories/Properties_Cuts.v
theories/Properties_CostCover.v
theories/M_Renaming.v
theories/Spec_Rename.v
theories/P_Renaming.v
theories/P_Bindings.v
theories/Properties_Renaming.v
theories/M_MaxFlow.v
theories/Spec_Flow.v
theories/P_Flow.v
theories/P_MaxFlow.v
theories/P_CheckFlow.v
theories/Properties_MaxFlow.v
theories/M_Branching.v
theories/M_Logger.v
theories/M_Stats.v
theories/M_Events.v
theories/Spec_Branching.v
theories/P_Branching.v
theories/Properties_Branching.v
theories/Spec_Stats.v
theories/P_Stats.v
theories/P_Events.v
theories/Properties_Stats.v
theories/M_Python.v
theories/M_PyCycle.v
theories/Spec_Python.v
theories/P_Python.v
theories/P_PyHeur.v
theories/P_PyRandom.v
theories/P_PyCycle.v
theories/Properties_Python.v
theories/M_Suurballe.v
theories/Spec_Suurballe.v
theories/P_Suurballe.v
theories/P_TreePath.v
theories/P_SuurState.v
theories/P_SuurLabel.v
theories/P_SuurLoop.v
theories/P_SuurInit.v
theories/P_SuurLower.v
theories/P_SuurExtract.v
theories/P_SuurFinal.v
theories/Properties_Suurballe.v
theories/M_Lab.v
theories/Spec_Lab.v
theories/P_Lab.v
theories/Properties_Lab.v
theories/M_PyWrap.v
theories/Spec_PyWrap.v
theories/P_PyWrap.v
theories/Properties_PyWrap.v
theories/M_Solve.v
theories/Spec_Solve.v
theories/P_Solve.v
theories/P_SolveBind.v
theories/P_SolveCount.v
theories/Properties_Solve.v
theories/Spec_Dict.v
theories/P_Dict.v
theories/Properties_Dict.v
theories/M_DisjointMap.v
theories/Spec_Split.v
theories/P_Split.v
theories/P_SplitMap.v
theories/Properties_Split.v
theories/Spec_Errors.v
theories/P_Errors.v
theories/Properties_Errors.v
theories/M_Dataset.v
theories/Spec_Dataset.v
theories/P_Dataset.v
theories/Properties_Dataset.v
theories/M_RunAlg.v
theories/Spec_RunAlg.v
theories/P_RunAlg.v
theories/Properties_RunAlg.v
theories/M_Compare.v
theories/Spec_Compare.v
theories/P_Compare.v
theories/P_CompareRun.v
theories/P_CompareSet.v
theories/Properties_Compare.v
theories/M_Csv.v
theories/Spec_Csv.v
theories/P_Csv.v
theories/P_CsvCase.v
theories/Properties_Csv.v
theories/M_Slurm.v
theories/Spec_Slurm.v
theories/P_Slurm.v
theories/Properties_Slurm.v
theories/M_Tables.v
theories/Spec_Tables.v
theories/P_Tables.v
theories/P_TablesCase.v
theories/Properties_Tables.v
theories/M_Handler.v
theories/Spec_Handler.v
theories/P_Handler.v
theories/Properties_Handler.v
theories/M_Labels.v
theories/Spec_Labels.v
theories/P_Labels.v
theories/Properties_Labels.v
theories/M_Summary.v
theories/Spec_Summary.v
theories/P_Summary.v
theories/P_SummaryCase.v
theories/Properties_Summary.v
theories/M_Plot.v
theories/Spec_Plot.v
theories/P_Plot.v
theories/Properties_Plot.v
theories/M_Lifetime.v
theories/Spec_Lifetime.v
theories/P_Lifetime.v
theories/Properties_Lifetime.v
theories/M_LabTree.v
theories/Spec_LabTree.v
theories/P_LabTree.v
theories/Properties_LabTree.v
theories/M_Plugins.v
theories/Spec_Plugins.v
theories/P_Plugins.v
theories/P_Plugins2.v
theories/P_Plugins3.v
theories/Properties_Plugins.v
theories/M_Messages.v
theories/Spec_Messages.v
theories/P_Messages.v
theories/P_Messages2.v
theories/P_Messages3.v
theories/Properties_Messages.v
theories/M_Settings.v
theories/Spec_Settings.v
theories/P_Settings.v
theories/P_Settings2.v
theories/P_Settings3.v
theories/Properties_Settings.v
theories/M_Load.v
theories/Spec_Load.v
theories/P_Load.v
theories/P_Load2.v
theories/P_Load3.v
theories/Properties_Load.v
theories/M_Filter.v
theories/Spec_Filter.v
theories/P_Filter.v
theories/Properties_Filter.v
theories/M_Experiment.v
theories/Spec_Experiment.v
theories/P_Experiment.v
theories/P_Experiment2.v
theories/Properties_Experiment.v
theories/M_PyGraph.v
theories/Spec_PyGraph.v
theories/P_PyGraph.v
theories/Properties_PyGraph.v
theories/M_NodeStats.v
theories/P_NodeStats.v
theories/Properties_NodeStats.v
