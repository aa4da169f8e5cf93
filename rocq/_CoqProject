-Q theories Verif
theories/WordModel.v
theories/BigIntModel.v
theories/BigIntSpec.v
theories/WordProofs.v
theories/WordBitProofs.v
theories/BigIntProofs.v
theories/BigIntMulProofs.v
theories/BigIntCmpProofs.v
theories/BigIntExprSpec.v
theories/BigIntExprProofs.v
theories/BigUIntModel.v
theories/BigUIntProofs.v
theories/BigUIntDivProofs.v
theories/BigIntDivSpec.v
theories/BigIntDivProofs.v
theories/PropBigInt.v
theories/PropBigIntDiv.v
theories/BigIntMemModel.v
theories/BigIntMemSpec.v
theories/BigIntMemProofs.v
theories/PropBigIntMem.v
theories/GeoModel.v
theories/GeoSpec.v
theories/GeoProofs.v
theories/GeoDirProofs.v
theories/GeoAngleProofs.v
theories/GeoPlaneProofs.v
theories/GeoLineProofs.v
theories/GeoPluckerProofs.v
theories/GeoReduceProofs.v
theories/GeoBridge.v
theories/GeoSidesProofs.v
theories/PropGeom.v
theories/PropPlane.v
theories/AabbModel.v
theories/AabbSpec.v
theories/AabbProofs.v
theories/AabbTrackerProofs.v
theories/AabbSplitProofs.v
theories/AabbWallProofs.v
theories/PropAabb.v
theories/FilterModel.v
theories/FilterSpec.v
theories/FilterProofs.v
theories/PropFilter.v
theories/RTransModel.v
theories/RTransSpec.v
theories/RTransProofs.v
theories/PropRTrans.v
theories/EstModel.v
theories/EstSpec.v
theories/EstProofs.v
theories/PropEst.v
theories/ConcatModel.v
theories/ConcatSpec.v
theories/ConcatProofs.v
theories/PropConcat.v
theories/PlanarModel.v
theories/PlanarSpec.v
theories/PlanarProofs.v
theories/PropPlanar.v
theories/DeedModel.v
theories/DeedSpec.v
theories/DeedProofs.v
theories/PropDeed.v
theories/RedirModel.v
theories/RedirSpec.v
theories/RedirProofs.v
theories/PropRedir.v
theories/NudgeModel.v
theories/NudgeSpec.v
theories/NudgeProofs.v
theories/PropNudge.v
theories/MeshProofs.v
theories/MeshSpec.v
theories/MeshLoopProofs.v
theories/MeshPointProofs.v
theories/MeshFlatProofs.v
theories/MeshOutProofs.v
theories/PropMesh.v
theories/PolyModel.v
theories/CvxSpec.v
theories/CvxProofs.v
theories/CvxSeqProofs.v
theories/CvxCapProofs.v
theories/PolySpec.v
theories/PolyBridgeProofs.v
theories/PolySearchProofs.v
theories/PolyLinearProofs.v
theories/PolyBisectProofs.v
theories/PolyInfoProofs.v
theories/PolyExtremeProofs.v
theories/PolyCapProofs.v
theories/PolyChildProofs.v
theories/PolyMakeProofs.v
theories/PolyValidProofs.v
theories/PolyTopProofs.v
theories/PropPoly.v
theories/PolyOpsModel.v
theories/AreaSpec.v
theories/AreaProofs.v
theories/AreaTopProofs.v
theories/PropArea.v
theories/CvxMergeProofs.v
theories/MergeSpec.v
theories/MergeProofs.v
theories/MergeTopProofs.v
theories/PropMerge.v
theories/PolyEditProofs.v
theories/PolyInvertProofs.v
theories/EditSpec.v
theories/PropEdit.v
theories/SolidModel.v
theories/SolidSpec.v
theories/SolidProofs.v
theories/SolidCloseProofs.v
theories/PropSolid.v
theories/TriModel.v
theories/TriSpec.v
theories/TriProofs.v
theories/TriGeoProofs.v
theories/TriTileProofs.v
theories/PropTri.v
theories/BspModel.v
theories/BspSpec.v
theories/BspGeoProofs.v
theories/BspMarkProofs.v
theories/BspBoxProofs.v
theories/BspPolyProofs.v
theories/BspTreeProofs.v
theories/BspHistSpec.v
theories/BspHistProofs.v
theories/BspAutoProofs.v
theories/PropBsp.v
theories/PartModel.v
theories/PartSpec.v
theories/PartGeoProofs.v
theories/PartProofs.v
theories/PropPart.v
theories/TravModel.v
theories/TravSpec.v
theories/TravProofs.v
theories/TravPointProofs.v
theories/TravCollProofs.v
theories/PropTrav.v
theories/AabbPlaneModel.v
theories/AabbPlaneProofs.v
theories/PropAabbPlane.v
theories/EvtModel.v
theories/EvtSpec.v
theories/EvtTokProofs.v
theories/EvtProofs.v
theories/EvtArrProofs.v
theories/EvtCostProofs.v
theories/EvtDiscProofs.v
theories/PropEvt.v
theories/PrimModel.v
theories/PrimSpec.v
theories/PrimProofs.v
theories/PrimTokProofs.v
theories/PrimInvProofs.v
theories/PrimNegProofs.v
theories/PrimStepProofs.v
theories/PrimTopProofs.v
theories/PropPrim.v
theories/SecondModel.v
theories/SecondSpec.v
theories/SecondArrProofs.v
theories/SecondHeapProofs.v
theories/SecondInvProofs.v
theories/SecondStepProofs.v
theories/SecondCarryProofs.v
theories/PropSecond.v
theories/KdModel.v
theories/KdSpec.v
theories/KdMarkProofs.v
theories/KdDealProofs.v
theories/KdCaseProofs.v
theories/KdCutProofs.v
theories/KdOtherProofs.v
theories/PrimMonoProofs.v
theories/KdProofs.v
theories/KdBackProofs.v
theories/PropKd.v
theories/StratModel.v
theories/StratSpec.v
theories/StratProofs.v
theories/PropStrat.v
theories/MonoRangeModel.v
theories/MonoRangeSpec.v
theories/MonoRangeProofs.v
theories/MonoChainProofs.v
theories/MonoLoopProofs.v
theories/PropMonoRange.v
theories/DecModel.v
theories/DecSpec.v
theories/DecProofs.v
theories/DecCvxProofs.v
theories/DecOrdProofs.v
theories/DecInvProofs.v
theories/DecTopProofs.v
theories/DecTestProofs.v
theories/PropDec.v
theories/OrientModel.v
theories/OrientSpec.v
theories/OrientProofs.v
theories/OrientTopProofs.v
theories/PropOrient.v
theories/FactoryModel.v
theories/FactorySpec.v
theories/FactoryProofs.v
theories/FactoryLoopProofs.v
theories/FactoryTopProofs.v
theories/PropFactory.v
theories/ConnModel.v
theories/ConnSpec.v
theories/ConnListProofs.v
theories/ConnPieceProofs.v
theories/ConnLoopProofs.v
theories/ConnSweepProofs.v
theories/ConnTopProofs.v
theories/PropConn.v
theories/ConnPlaneModel.v
theories/ConnPlaneSpec.v
theories/ConnPlaneProofs.v
theories/ConnGroupProofs.v
theories/PropConnPlane.v
theories/LinkModel.v
theories/LinkSpec.v
theories/LinkProofs.v
theories/LinkMergeProofs.v
theories/LinkGoodProofs.v
theories/LinkSpliceProofs.v
theories/LinkPolyProofs.v
theories/LinkTopProofs.v
theories/PropLink.v
theories/ConnVisModel.v
theories/ConnVisSpec.v
theories/ConnVisProofs.v
theories/PropConnVis.v
theories/NodeBorderModel.v
theories/NodeBorderSpec.v
theories/NodeBorderProofs.v
theories/PropNodeBorder.v
theories/ExtrudeModel.v
theories/ExtrudeSpec.v
theories/ExtrudeProofs.v
theories/PropExtrude.v
theories/TidyModel.v
theories/TidySpec.v
theories/TidyProofs.v
theories/PropTidy.v
theories/SplitModel.v
theories/SplitSpec.v
theories/SplitProofs.v
theories/SplitLineProofs.v
theories/PropSplit.v
theories/FinishModel.v
theories/FinishProofs.v
theories/PropFinish.v
theories/DoubleModel.v
theories/DoubleSpec.v
theories/DoubleProofs.v
theories/PropDouble.v
theories/AabbPolyModel.v
theories/AabbPolySpec.v
theories/AabbPolyProofs.v
theories/PropAabbPoly.v
