-Q theories Verif
theories/Base.v
theories/QLemmas.v
theories/VoxelModel.v
theories/VoxelSpec.v
theories/VoxelProofs.v
theories/VoxelOps.v
theories/VoxelAdd.v
theories/VoxelQuery.v
theories/VoxelRay.v
theories/VoxelHist.v
theories/VoxelFinal.v
theories/GridModel.v
theories/GridSpec.v
theories/GridProofs.v
theories/GridOps.v
theories/GridCases.v
theories/PropsGrid.v
theories/PropsVoxel.v
theories/GraphModel.v
theories/GraphSpec.v
theories/GraphProofs.v
theories/PropsGraph.v
theories/LoopModel.v
theories/LoopSpec.v
theories/LoopProofs.v
theories/SlamModel.v
theories/SlamSpec.v
theories/SlamProofs.v
theories/PropsSlam.v
theories/PropsLoop.v
theories/LinAlg3.v
theories/Deriv.v
theories/GeoModel.v
theories/GeoSpec.v
theories/GeoProofs.v
theories/GeoCov.v
theories/NodeModel.v
theories/NodeSpec.v
theories/NodeProofs.v
theories/PropsGeo.v
theories/CellModel.v
theories/CellSpec.v
theories/CellProofs.v
theories/CellCases.v
theories/CellMsg.v
theories/PropsCell.v
theories/EvidenceSpec.v
theories/CellBeam.v
theories/PropsEvidence.v
theories/CellMotion.v
theories/PropsMotion.v
theories/AlgModel.v
theories/AlgSpec.v
theories/AlgProofs.v
theories/AlgCases.v
theories/PropsAlg.v
theories/UtilModel.v
theories/UtilSpec.v
theories/UtilProofs.v
theories/PropsUtil.v
theories/OptModel.v
theories/RegModel.v
theories/RegSpec.v
theories/MatDeriv.v
theories/RegStep.v
theories/RegNewton.v
theories/RegDeriv.v
theories/RegD2D.v
theories/RegPose.v
theories/RegFit.v
theories/RegP2D.v
theories/RegSmall.v
theories/RegMisc.v
theories/RegCases.v
theories/PropsReg.v
theories/OptSpec.v
theories/OptProofs.v
theories/PropsOpt.v
theories/CorrModel.v
theories/CorrSpec.v
theories/CorrTable.v
theories/CorrBuild.v
theories/CorrInit.v
theories/CorrSearch.v
theories/CorrCases.v
theories/PropsCorr.v
theories/MapModel.v
theories/MapSpec.v
theories/MapProofs.v
theories/MapHist.v
theories/MapDraw.v
theories/MapMsg.v
theories/MapCases.v
theories/PropsMap.v
theories/ScanSpec.v
theories/ScanProofs.v
theories/ScanInit.v
theories/PropsScan.v
theories/MatchModel.v
theories/MatchSpec.v
theories/MatchProofs.v
theories/MatchCases.v
theories/PropsMatch.v
theories/PlugModel.v
theories/PlugSpec.v
theories/PlugProofs.v
theories/PropsPlug.v
theories/ExportModel.v
theories/ExportSpec.v
theories/ExportProofs.v
theories/PropsExport.v
theories/SysModel.v
theories/SysSpec.v
theories/SysProofs.v
theories/SysMap.v
theories/CellsFrom.v
theories/SysCloud.v
theories/SysWindow.v
theories/SysHull.v
theories/SysFacts.v
theories/SysCases.v
theories/PropsSys.v
theories/SysMsg.v
theories/RunModel.v
theories/RunSpec.v
theories/RunProofs.v
theories/RunCases.v
theories/PropsRun.v
theories/LoopEdges.v
theories/CloseModel.v
theories/CloseSpec.v
theories/CloseProofs.v
theories/CloseCases.v
theories/PropsClose.v
theories/RealModel.v
theories/RealSpec.v
theories/RealProofs.v
theories/RealClose.v
theories/RealCases.v
theories/IncModel.v
theories/IncProofs.v
theories/IncCases.v
theories/IncRun.v
theories/IncRunCases.v
theories/PropsReal.v
theories/PropsInc.v
theories/PropsIncRun.v
theories/WinSpec.v
theories/WinSize.v
theories/WinSizeCases.v
theories/PropsWinSize.v
theories/LoopWalk.v
theories/ParamModel.v
theories/ParamSpec.v
theories/ParamProofs.v
theories/ParamRun.v
theories/ParamCases.v
theories/PropsParam.v
theories/GrowSpec.v
theories/GrowProofs.v
theories/PropsGrow.v
theories/SafeSpec.v
theories/SafeGrid.v
theories/SafeProofs.v
theories/SafeCases.v
theories/PropsSafe.v
theories/InvSpec.v
theories/InvProofs.v
theories/PropsInv.v
theories/FloatModel.v
theories/FloatSpec.v
theories/FloatIEEE.v
theories/FloatErr.v
theories/FloatProofs.v
theories/FloatMove.v
theories/PropsFloat.v
theories/TrialSpec.v
theories/TrialProofs.v
theories/PropsTrial.v
theories/ExtSpec.v
theories/ExtProofs.v
theories/PropsExt.v
theories/TextModel.v
theories/TextSpec.v
theories/TextNum.v
theories/TextProofs.v
theories/PropsText.v
theories/SeedModel.v
theories/SeedSpec.v
theories/SeedProofs.v
theories/PropsSeed.v
theories/BeamSpec.v
theories/BeamProofs.v
theories/BeamScan.v
theories/BeamCell.v
theories/PropsBeam.v
theories/EvalModel.v
theories/EvalSpec.v
theories/EvalProofs.v
theories/PropsEval.v
theories/RobustModel.v
theories/RobustSpec.v
theories/RobustProofs.v
theories/RobustRun.v
theories/RobustCost.v
theories/PropsRobust.v
theories/SysExactSpec.v
theories/SysExact.v
theories/PropsSysExact.v
theories/FloatRayModel.v
theories/FloatRay.v
theories/FloatShort.v
theories/PropsFloatRay.v
theories/PrintModel.v
theories/PrintSpec.v
theories/PrintProofs.v
theories/PrintCorr.v
theories/PropsPrint.v
theories/KnownModel.v
theories/KnownSpec.v
theories/KnownProofs.v
theories/PropsKnown.v
theories/GaugeSpec.v
theories/GaugeProofs.v
theories/PropsGauge.v
theories/FloatOccModel.v
theories/FloatOccSpec.v
theories/FloatOcc.v
theories/PropsFloatOcc.v
theories/FloatBatchModel.v
theories/FloatBatchSpec.v
theories/FloatBatch.v
theories/PropsFloatBatch.v
theories/FloatPoolModel.v
theories/FloatPoolSpec.v
theories/FloatPool.v
theories/PropsFloatPool.v
theories/HandSpec.v
theories/PropsHand.v
theories/RetimeSpec.v
theories/RetimeProofs.v
theories/PropsRetime.v
theories/PropsStart.v
