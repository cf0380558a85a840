-Q theories Verif
theories/Prelude.v
theories/Order.v
theories/Graph.v
theories/P_Check.v
theories/UF.v
theories/M_DisjointSet.v
theories/S_DisjointSet.v
theories/P_DisjointSet.v
theories/P_DisjointSet2.v
theories/Properties_DisjointSet.v
theories/M_Kruskal.v
theories/M_Precomputed.v
theories/S_Kruskal.v
theories/P_Sort.v
theories/P_Kruskal.v
theories/P_Forest.v
theories/P_KruskalCL.v
theories/S_Precomputed.v
theories/P_Precomputed.v
theories/P_Precomputed2.v
theories/M_KruskalEntry.v
theories/P_KruskalRun.v
theories/P_KruskalEntry.v
theories/P_PrecomputedTop.v
theories/Properties_Kruskal.v
theories/Properties_Precomputed.v
theories/Size.v
theories/M_Linkage.v
theories/S_Linkage.v
theories/P_Dendro.v
theories/P_Linkage.v
theories/P_Cut.v
theories/P_LinkageTop.v
theories/Properties_Linkage.v
theories/M_Condense.v
theories/S_Condense.v
theories/P_Bfs.v
theories/P_Condense.v
theories/P_CondenseRun.v
theories/Num.v
theories/P_CondenseTop.v
theories/Properties_Condense.v
theories/Forest.v
theories/M_Select.v
theories/S_Select.v
theories/P_CTree.v
theories/P_Eom.v
theories/P_EomTop.v
theories/P_Below.v
theories/P_SelectTop.v
theories/Properties_Select.v
theories/M_Labels.v
theories/S_Labels.v
theories/P_Labels.v
theories/P_LabelsTop.v
theories/P_LabelsProps.v
theories/P_LabelsEx.v
theories/Properties_Labels.v
theories/M_Epsilon.v
theories/P_Epsilon.v
theories/S_Epsilon.v
theories/P_EpsilonTop.v
theories/Properties_Epsilon.v
theories/M_Simplify.v
theories/S_Simplify.v
theories/P_Pairs.v
theories/P_Simplify.v
theories/P_SimplifyMap.v
theories/P_SimplifyTop.v
theories/Properties_Simplify.v
theories/M_Pipeline.v
theories/P_Faithful.v
theories/S_Pipeline.v
theories/P_Pipeline.v
theories/P_PipelineTop.v
theories/P_EomValue.v
theories/P_PipelineRun.v
theories/P_PipelineEx.v
theories/Properties_Pipeline.v
theories/P_PipelineMeaning.v
theories/M_CoreGraph.v
theories/P_Boruvka.v
theories/S_CoreGraph.v
theories/P_CoreGraph.v
theories/P_CoreGraphRun.v
theories/P_PrecomputedBoruvka.v
theories/P_BackendsAgree.v
theories/Properties_CoreGraph.v
theories/M_TreeQuery.v
theories/S_SpaceTree.v
theories/P_Heap.v
theories/P_TreeQuery.v
theories/M_Boruvka.v
theories/S_Boruvka.v
theories/P_BoruvkaQuery.v
theories/P_BoruvkaRound.v
theories/P_BoruvkaTree.v
theories/P_ParallelBoruvka.v
theories/P_BoruvkaAgree.v
theories/Properties_SpaceTree.v
theories/Coord.v
theories/M_KDTree.v
theories/S_KDTree.v
theories/P_Introselect.v
theories/P_KDTree.v
theories/P_KDTreeRun.v
theories/Properties_KDTree.v
theories/M_Estimator.v
theories/S_Estimator.v
theories/P_Remap.v
theories/P_RemapLinkage.v
theories/P_Estimator.v
theories/M_Dispatch.v
theories/S_Dispatch.v
theories/P_Dispatch.v
theories/P_EstimatorEx.v
theories/Properties_Estimator.v
theories/M_Layers.v
theories/S_Layers.v
theories/P_Peaks.v
theories/P_Barcode.v
theories/P_LayerSets.v
theories/P_DendroNodes.v
theories/P_TopNodes.v
theories/P_LayersRun.v
theories/P_LayerCurve.v
theories/P_LayerSelect.v
theories/P_LayerSearch.v
theories/P_LayersTop.v
theories/P_LayersBase.v
theories/P_LayersEx.v
theories/Properties_Layers.v
theories/M_LayerTree.v
theories/S_LayerTree.v
theories/P_LayerTree.v
theories/P_LayerTreeTop.v
theories/P_LayerTreeRun.v
theories/P_LayerTreeEx.v
theories/Properties_LayerTree.v
theories/M_SubClusters.v
theories/S_SubClusters.v
theories/P_SubClusters.v
theories/P_Propagate.v
theories/P_PropagateTop.v
theories/P_Branches.v
theories/M_LensGraph.v
theories/P_LensGraph.v
theories/P_SubRun.v
theories/P_SubTop.v
theories/P_SubEx.v
theories/Properties_SubClusters.v
theories/M_BCubed.v
theories/RForest.v
theories/P_BCRec.v
theories/S_BCubed.v
theories/P_BCElements.v
theories/P_BCScore.v
theories/P_BCTop.v
theories/P_BCFinal.v
theories/P_BCSame.v
theories/Properties_BCubed.v
theories/P_Semi.v
theories/P_SemiTop.v
theories/Properties_Semi.v
theories/P_NodePath.v
theories/P_Unique.v
theories/S_Unique.v
theories/P_UniqueTree.v
theories/P_Reorder.v
theories/P_SameLinkage.v
theories/P_Rename.v
theories/P_Relabel.v
theories/P_UniqueTop.v
theories/P_UniqueRuns.v
theories/P_UniqueEx.v
theories/Properties_Unique.v
theories/M_NNDescent.v
theories/S_NNDescent.v
theories/P_NNDescent.v
theories/P_NNDescentTop.v
theories/Properties_NNDescent.v
theories/M_Weights.v
theories/S_Weights.v
theories/P_Weights.v
theories/P_BoruvkaAny.v
theories/P_WeightsBoruvka.v
theories/P_WeightsTop.v
theories/P_WeightsRuns.v
theories/Properties_Weights.v
theories/P_BoruvkaLinks.v
theories/P_PersistEmpty.v
theories/P_PersistLinks.v
theories/M_Detector.v
theories/S_Detector.v
theories/P_Detector.v
theories/P_DetectorTop.v
theories/P_Later.v
theories/P_DetectorEx.v
theories/Properties_Detector.v
theories/S_Equi.v
theories/P_Equi.v
theories/P_Determined.v
theories/P_Scale.v
theories/P_KruskalMap.v
theories/P_EquiTop.v
theories/P_LeafOrder.v
theories/P_EquiEx.v
theories/Properties_Equi.v
theories/M_Plscan.v
theories/S_Plscan.v
theories/P_Plscan.v
theories/P_PlscanTop.v
theories/Properties_Plscan.v
theories/M_Report.v
theories/S_Report.v
theories/P_Report.v
theories/P_ReportTop.v
theories/P_ReportEx.v
theories/Properties_Report.v
theories/M_Arguments.v
theories/S_Arguments.v
theories/P_Arguments.v
theories/Properties_Arguments.v
theories/M_Centrality.v
theories/S_Centrality.v
theories/P_Centrality.v
theories/P_CentralityTop.v
theories/P_CentralityEx.v
theories/P_CentralityLens.v
theories/Properties_Centrality.v
theories/M_Float.v
theories/P_Float.v
theories/P_FloatOrd.v
theories/P_FloatLaws.v
theories/M_FloatRun.v
theories/P_FloatRun.v
theories/P_FloatEx.v
theories/Properties_Float.v
theories/S_Neighbours.v
theories/P_Neighbours.v
theories/P_ClParams.v
theories/Properties_Neighbours.v
theories/S_Dbscan.v
theories/P_Dbscan.v
theories/Properties_Dbscan.v
theories/S_Level.v
theories/P_Level.v
theories/P_LevelTop.v
theories/Properties_Level.v
theories/S_Join.v
theories/P_Join.v
theories/P_JoinTop.v
theories/P_Twins.v
theories/Properties_Join.v
theories/Properties_Twins.v
theories/S_Vary.v
theories/P_Vary.v
theories/Properties_Vary.v
theories/S_GraphCut.v
theories/P_GraphCut.v
theories/P_GraphLevel.v
theories/P_GraphCutTop.v
theories/Properties_GraphCut.v
theories/S_DetectorRows.v
theories/P_DetectorRows.v
theories/Properties_DetectorRows.v
theories/P_ReportTrees.v
theories/Properties_ReportTrees.v
theories/M_ReportTrees.v
theories/P_ReportHierarchy.v
theories/P_ReportHierarchyMissing.v
theories/Properties_ReportHierarchy.v
theories/M_Constrained.v
theories/P_Constrained.v
theories/Properties_Constrained.v
theories/M_SemiFit.v
theories/S_SemiFit.v
theories/P_SemiFit.v
theories/P_SemiFitTop.v
theories/Properties_SemiFit.v
theories/S_Split.v
theories/P_Split.v
theories/P_SplitTop.v
theories/P_SplitEx.v
theories/Properties_Split.v
theories/S_MaxSize.v
theories/P_MaxSize.v
theories/P_MaxSizeTop.v
theories/P_MaxSizeMissing.v
theories/Properties_MaxSize.v
theories/P_FloatScores.v
theories/P_FloatLinks.v
theories/Properties_FloatLinks.v
theories/S_Resize.v
theories/P_Resize.v
theories/P_KeptLower.v
theories/P_ResizeLeaf.v
theories/P_ResizeTop.v
theories/Properties_Resize.v
theories/S_LayerLeaf.v
theories/P_LayerLeaf.v
theories/P_LayerLeafTop.v
theories/Properties_LayerLeaf.v
theories/M_Session.v
theories/S_Session.v
theories/P_Session.v
theories/Properties_Session.v
theories/M_Scores.v
theories/S_Scores.v
theories/P_Scores.v
theories/Properties_Scores.v
theories/S_Lost.v
theories/P_Lost.v
theories/Properties_Lost.v
theories/S_EpsMerge.v
theories/P_EpsMerge.v
theories/P_EpsMergeTop.v
theories/Properties_EpsMerge.v
theories/S_Parts.v
theories/P_Parts.v
theories/P_PartsTop.v
theories/Properties_Parts.v
theories/S_Far.v
theories/P_Far.v
theories/P_FarTop.v
theories/Properties_Far.v
theories/M_KnnSparse.v
theories/P_KnnSparse.v
theories/Properties_KnnSparse.v
theories/S_WeightUnit.v
theories/P_SizeHom.v
theories/P_WeightUnit.v
theories/Properties_WeightUnit.v
theories/M_SessionMixed.v
theories/S_SessionMixed.v
theories/P_SessionMixed.v
theories/P_SessionMixedLabels.v
theories/P_SessionMixedEx.v
theories/Properties_SessionMixed.v
theories/M_SessionPlscan.v
theories/S_SessionPlscan.v
theories/P_SessionPlscan.v
theories/P_SessionPlscanRun.v
theories/P_SessionPlscanEx.v
theories/Properties_SessionPlscan.v
theories/M_SessionDetector.v
theories/S_SessionDetector.v
theories/P_SessionDetector.v
theories/P_SessionDetectorEx.v
theories/Properties_SessionDetector.v
