-Q theories Verif
theories/Expr.v
theories/ExprProof.v
theories/ShapesData.v
theories/Kind.v
theories/ShapesModel.v
theories/ShapesSpec.v
theories/ShapesProof.v
theories/ShapesTables.v
theories/ShapesShared.v
theories/PropShapes.v
theories/Base.v
theories/BaseFacts.v
theories/MeshModel.v
theories/GraphModel.v
theories/GraphSpec.v
theories/GraphVocab.v
theories/GraphProof.v
theories/GraphProof2.v
theories/GraphProof3.v
theories/GraphProof4.v
theories/GraphProof5.v
theories/GraphWitness.v
theories/GraphSlow.v
theories/PropGraph.v
theories/GraphDirModel.v
theories/GraphDirSpec.v
theories/GraphDirProof.v
theories/PropGraphDir.v
theories/MeshQueryModel.v
theories/MeshQuerySpec.v
theories/MeshQueryProof.v
theories/PropMeshQuery.v
theories/TopoModel.v
theories/TopoSpec.v
theories/TopoMaps.v
theories/TopoProof.v
theories/TopoFeat.v
theories/TopoFeat2.v
theories/TopoFeat3.v
theories/TopoFeat4.v
theories/TopoFeat5.v
theories/TopoFeat6.v
theories/TopoPathSpec.v
theories/TopoPath.v
theories/TopoFinal.v
theories/PropTopo.v
theories/GeomModel.v
theories/GeomSpec.v
theories/GeomProof.v
theories/GeomSimplex.v
theories/PropGeom.v
theories/GridModel.v
theories/GridSpec.v
theories/GridProof.v
theories/GridProof2.v
theories/GridProof3.v
theories/PropGrid.v
theories/SearchModel.v
theories/SearchSpec.v
theories/SearchProof.v
theories/SearchProof2.v
theories/PropSearch.v
theories/JoinModel.v
theories/JoinSpec.v
theories/JoinProof.v
theories/JoinProof2.v
theories/JoinProof3.v
theories/PropJoin.v
theories/GridCellsModel.v
theories/GridCellsSpec.v
theories/GridCellsProof.v
theories/GridCellsProof2.v
theories/GridCellsProof3.v
theories/PropGridCells.v
theories/TextModel.v
theories/TextSpec.v
theories/TextProof.v
theories/TextProof2.v
theories/TextProof3.v
theories/TextProof4.v
theories/PropText.v
theories/PadModel.v
theories/PadSpec.v
theories/PadProof.v
theories/PadProof2.v
theories/PadProof3.v
theories/PadProof4.v
theories/PropPad.v
theories/BlockModel.v
theories/BlockSpec.v
theories/BlockProof.v
theories/BlockProof2.v
theories/BlockProof3.v
theories/BlockProof4.v
theories/BlockProof5.v
theories/BlockProof6.v
theories/BlockProof7.v
theories/BlockProof8.v
theories/BlockProof9.v
theories/BlockProof10.v
theories/PropBlock.v
theories/GaussData.v
theories/GaussModel.v
theories/GaussSpec.v
theories/GaussProof.v
theories/GaussProof2.v
theories/GaussProof3.v
theories/PropGauss.v
theories/IntegModel.v
theories/IntegSpec.v
theories/IntegProof.v
theories/IntegProof2.v
theories/IntegProof3.v
theories/IntegProof4.v
theories/IntegProof5.v
theories/IntegProof6.v
theories/IntegProof7.v
theories/IntegProof8.v
theories/IntegProof9.v
theories/IntegProof10.v
theories/PropInteg.v
theories/ConvertModel.v
theories/ConvertSpec.v
theories/ConvertProof.v
theories/ConvertProof2.v
theories/ConvertProof3.v
theories/ConvertProof4.v
theories/ConvertProof5.v
theories/ConvertProof6.v
theories/ConvertProof7.v
theories/ConvertProof8.v
theories/PropConvert.v
theories/VtuModel.v
theories/VtuSpec.v
theories/VtuProof.v
theories/PropVtu.v
theories/RecoveryData.v
theories/RecoveryModel.v
theories/RecoverySpec.v
theories/RecoveryProof.v
theories/RecoveryRank.v
theories/RecoveryCert.v
theories/RecoveryRank2.v
theories/RecoveryProof2.v
theories/RecoveryProof3.v
theories/RecoveryProof4.v
theories/RecoveryProof5.v
theories/RecoveryProof6.v
theories/PropRecovery.v
theories/TriSurfModel.v
theories/TriSurfSpec.v
theories/TriSurfProof.v
theories/TriSurfProof2.v
theories/TriSurfProof3.v
theories/TriSurfProof4.v
theories/TriSurfProof5.v
theories/TriSurfProof6.v
theories/PropTriSurf.v
theories/CheckModel.v
theories/CheckSpec.v
theories/CheckProof.v
theories/CheckProof2.v
theories/PropCheck.v
theories/StructModel.v
theories/StructSpec.v
theories/StructProof.v
theories/StructProof2.v
theories/StructProof3.v
theories/StructProof4.v
theories/StructProof5.v
theories/StructProof6.v
theories/PropStruct.v
theories/RingSpec.v
theories/RingProof.v
theories/RingProof2.v
theories/RingProof3.v
theories/RingProof4.v
theories/PropRing.v
theories/BlocksSpec.v
theories/BlocksProof.v
theories/BlocksProof2.v
theories/BlocksProof3.v
theories/BlocksProof4.v
theories/BlocksProof5.v
theories/BlocksProof6.v
theories/BlocksProof7.v
theories/BlocksProof8.v
theories/PropBlocks.v
theories/PosSpec.v
theories/PosFacts.v
theories/PosProof.v
theories/PosProof2.v
theories/PropPos.v
theories/BlocksProof9.v
theories/ExactSpec.v
theories/ExactProof.v
theories/DiskModel.v
theories/DiskSpec.v
theories/DiskProof.v
theories/DiskProof2.v
theories/DiskProof3.v
theories/ExactProof2.v
theories/DiskProof4.v
theories/DiskProof5.v
theories/DiskProof6.v
theories/DiskProof7.v
theories/DiskProof8.v
theories/DiskProof9.v
theories/DiskProof10.v
theories/DiskProof11.v
theories/ExactProof3.v
theories/DiskProof12.v
theories/ExactProof4.v
theories/PropExact.v
theories/PropDisk.v
theories/DiskProof13.v
theories/DiskProof14.v
theories/DiskProof15.v
theories/PropDisk2.v
theories/AnaData.v
theories/AnaModel.v
theories/AnaSpec.v
theories/AnaProof.v
theories/AnaProof2.v
theories/AnaProof3.v
theories/AnaProof4.v
theories/AnaProof5.v
theories/AnaProof6.v
theories/AnaProof7.v
theories/AnaProof8.v
theories/PropAna.v
theories/UnstrModel.v
theories/UnstrSpec.v
theories/UnstrProof.v
theories/UnstrProof2.v
theories/UnstrProof3.v
theories/UnstrProof4.v
theories/UnstrProof5.v
theories/UnstrProof6.v
theories/UnstrProof7.v
theories/UnstrProof8.v
theories/UnstrProof9.v
theories/UnstrProof10.v
theories/UnstrProof11.v
theories/UnstrProof12.v
theories/PropUnstr.v
theories/NormalModel.v
theories/NormalSpec.v
theories/NormalProof.v
theories/NormalProof2.v
theories/NormalProof3.v
theories/NormalProof4.v
theories/NormalProof5.v
theories/PropNormal.v
theories/DrawModel.v
theories/DrawSpec.v
theories/DrawProof.v
theories/DrawProof2.v
theories/DrawProof3.v
theories/DrawProof4.v
theories/DrawProof5.v
theories/PropDraw.v
theories/DrawMeshModel.v
theories/DrawMeshSpec.v
theories/DrawMeshProof.v
theories/DrawMeshProof2.v
theories/DrawMeshProof3.v
theories/DrawMeshProof4.v
theories/DrawMeshProof5.v
theories/DrawMeshProof6.v
theories/DrawMeshProof7.v
theories/DrawMeshProof8.v
theories/PropDrawMesh.v
theories/BlockFeatSpec.v
theories/BlockFeatProof.v
theories/BlockFeatProof2.v
theories/BlockFeatProof3.v
theories/PropBlockFeat.v
theories/BalanceSpec.v
theories/BalanceProof.v
theories/BalanceProof2.v
theories/BalanceProof3.v
theories/BalanceProof4.v
theories/BalanceProof5.v
theories/PropBalance.v
theories/MoreModel.v
theories/MoreProof.v
theories/PropMore.v
theories/RenumProof.v
theories/PropRenum.v
theories/PressureSpec.v
theories/PressureProof.v
theories/PressureProof2.v
theories/PressureProof3.v
theories/PressureProof4.v
theories/PressureProof5.v
theories/PropPressure.v
theories/ConvFeatSpec.v
theories/ConvFeatProof.v
theories/PropConvFeat.v
theories/JoinFeatSpec.v
theories/JoinFeatProof.v
theories/PropJoinFeat.v
theories/PatchSpec.v
theories/PatchProof.v
theories/PatchProof2.v
theories/PatchProof3.v
theories/PatchProof4.v
theories/PatchProof5.v
theories/PropPatch.v
theories/GridReportModel.v
theories/GridReportSpec.v
theories/GridReportProof.v
theories/GridReportProof2.v
theories/PropGridReport.v
theories/PlotRangeModel.v
theories/PlotRangeSpec.v
theories/PlotRangeProof.v
theories/PropPlotRange.v
theories/UniqueSpec.v
theories/UniqueProof.v
theories/UniqueProof2.v
theories/UniqueProof3.v
theories/PropUnique.v
theories/LinearProof.v
theories/UniqueProof4.v
theories/MassSpec.v
theories/MassProof.v
theories/PropMass.v
theories/ConserveSpec.v
theories/ConserveProof.v
theories/PropConserve.v
theories/ToolsModel.v
theories/ToolsSpec.v
theories/ToolsProof.v
theories/ToolsProof2.v
theories/PropTools.v
