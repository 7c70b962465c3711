-Q theories Verif
theories/Py.v
theories/Util.v
theories/M_Graph.v
theories/P_Graph.v
theories/M_Metrics.v
theories/P_GraphLaws.v
theories/P_Metrics.v
theories/M_Search.v
theories/Spec.v
theories/P_Walk.v
theories/S_Span.v
theories/P_Span.v
theories/P_Attr.v
theories/S_Frontier.v
theories/P_Frontier.v
theories/P_SearchAbs.v
theories/P_Search.v
theories/P_SearchTop.v
theories/P_SearchInd.v
theories/P_Bfs.v
theories/P_Dijkstra.v
theories/P_Prim.v
theories/P_SearchThm.v
theories/P_SearchMore.v
theories/P_SearchFrame.v
theories/P_SearchBad.v
theories/P_Depth.v
theories/P_SearchRaise.v
theories/P_SearchDepth.v
theories/C_Search.v
theories/C_SearchRaise.v
theories/M_Kruskal.v
theories/P_DisjointSet.v
theories/S_Sets.v
theories/P_Sets.v
theories/P_Kruskal.v
theories/C_Sets.v
theories/M_Tree.v
theories/S_Tree.v
theories/P_Rose.v
theories/P_Tree.v
theories/P_BinTree.v
theories/P_BinOrder.v
theories/P_Numeral.v
theories/C_Tree.v
theories/M_Flow.v
theories/S_Flow.v
theories/P_Flow.v
theories/S_GraphFlow.v
theories/P_EdgeFrame.v
theories/P_MaxFlow.v
theories/C_Flow.v
theories/M_Floyd.v
theories/P_FloydAbs.v
theories/P_Floyd.v
theories/C_Floyd.v
theories/M_Dfs.v
theories/P_Dfs.v
theories/P_Asp.v
theories/C_Dfs.v
theories/P_Tarjan.v
theories/C_Tarjan.v
theories/M_Dot.v
theories/S_Dot.v
theories/P_Quote.v
theories/P_Dot.v
theories/C_Dot.v
theories/M_PageRank.v
theories/P_PageRank.v
theories/P_PageConv.v
theories/C_PageRank.v
theories/M_LabelCorr.v
theories/P_LabelAbs.v
theories/P_LabelCorr.v
theories/C_LabelCorr.v
theories/M_MinCost.v
theories/S_MinCost.v
theories/P_MinCostAbs.v
theories/P_Residual.v
theories/P_Feasible.v
theories/P_Cancel.v
theories/P_CancelRuns.v
theories/P_Fuel.v
theories/C_MinCost.v
theories/M_Simplex.v
theories/S_Simplex.v
theories/P_Simplex.v
theories/C_Simplex.v
theories/M_Prim.v
theories/M_Shared.v
theories/P_PrimMethod.v
theories/P_Shared.v
theories/P_SharedTree.v
theories/C_Prim.v
theories/C_Shared.v
theories/M_Random.v
theories/S_Random.v
theories/P_Random.v
theories/P_RandomMore.v
theories/C_Random.v
theories/C_RandomDef.v
theories/M_Preflow.v
theories/P_PreflowAbs.v
theories/P_Preflow.v
theories/P_PreflowLoop.v
theories/P_PreflowTop.v
theories/C_Preflow.v
theories/M_NetSimplex.v
theories/P_Pok.v
theories/P_NetTree.v
theories/P_NetSearch.v
theories/P_NetPot.v
theories/P_NetPivot.v
theories/P_NetLoop.v
theories/P_NetTerm.v
theories/P_NetCycle.v
theories/P_NetInit.v
theories/P_NetFuel.v
theories/P_NetFrame.v
theories/C_NetSimplex.v
theories/C_Graph.v
theories/M_Display.v
theories/S_Display.v
theories/P_Display.v
theories/P_DisplayFiles.v
theories/C_Display.v
theories/M_BB.v
theories/S_BB.v
theories/P_BBLp.v
theories/P_BB.v
theories/P_BBRun.v
theories/P_BBLoop.v
theories/P_BBOrder.v
theories/C_BB.v
theories/C_BBKey.v
theories/C_BBOrder.v
theories/M_SimplexTest.v
theories/S_LP.v
theories/P_MGraph.v
theories/P_LP.v
theories/S_Generate.v
theories/P_Generate.v
theories/C_SimplexTest.v
theories/M_Repr.v
theories/S_Repr.v
theories/P_Repr.v
theories/C_Repr.v
theories/M_Heap.v
theories/S_Heap.v
theories/P_Heap.v
theories/P_HeapLoop.v
theories/C_Heap.v
theories/P_SearchEdge.v
theories/C_SearchEdge.v
theories/S_Session.v
theories/P_Session.v
theories/P_SessionUse.v
theories/C_New.v
theories/C_Session.v
theories/C_SessionMin.v
theories/S_SimplexSearch.v
theories/P_SimplexSearch.v
theories/C_SimplexSearch.v
theories/S_SimplexTree.v
theories/C_SimplexTree.v
theories/S_SimplexHelp.v
theories/C_SimplexHelp.v
