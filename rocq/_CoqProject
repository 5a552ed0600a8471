-Q theories Verif
theories/Base.v
theories/MUtils.v
theories/MEdge.v
theories/MFace.v
theories/MHull.v
theories/MPoly.v
theories/MConfig.v
theories/MCrs.v
theories/MDataset.v
theories/MCli.v
theories/SpecPoly.v
theories/PPoly.v
theories/PStation.v
theories/Examples.v
theories/FArith.v
theories/PCall.v
theories/PNan.v
theories/MReset.v
theories/PReset.v
theories/MDefault.v
theories/PDefault.v
theories/PropertiesA.v
theories/PropertiesD.v
theories/PUtils.v
theories/PCrs.v
theories/PCli.v
theories/ExamplesIO.v
theories/PropertiesB.v
theories/PropertiesC.v
theories/RVec.v
theories/RArith.v
theories/REdge.v
theories/REdgeModel.v
theories/RAngle.v
theories/ROmega.v
theories/RFace.v
theories/PPlain.v
theories/RFacet.v
theories/RPoly.v
theories/RTwin.v
theories/RField.v
theories/RHull.v
theories/RHullZ.v
theories/ExamplesR.v
theories/RLinear.v
theories/RMove.v
theories/RMoved.v
theories/RGlue.v
theories/RLaws.v
theories/RPlaced.v
theories/RPlacedZ.v
theories/PropertiesR.v
theories/PropertiesS.v
theories/PropertiesT.v
theories/RRay.v
theories/RTrace.v
theories/PropertiesU.v
theories/RFlux.v
theories/RVolume.v
theories/RSolid.v
theories/PropertiesV.v
theories/PGrid.v
theories/PropertiesW.v
theories/RTri.v
theories/RWell.v
theories/RNear.v
theories/PropertiesN.v
theories/PropertiesO.v
theories/PropertiesP.v
theories/PropertiesF.v
theories/PropertiesX.v
theories/RBound.v
theories/PropertiesY.v
theories/PropertiesZ.v
theories/FReal.v
theories/FErr.v
theories/FDot.v
theories/PSim.v
theories/FHull.v
theories/FNorm.v
theories/FBuild.v
theories/FInt.v
theories/PropertiesE.v
theories/FLog.v
theories/FUnit.v
theories/FEdge.v
theories/FOmega.v
theories/FDeriv.v
theories/FGrav.v
theories/FTensor.v
theories/FField.v
theories/FTField.v
theories/PropertiesG.v
theories/PRun.v
theories/PropertiesH.v
theories/FSum.v
theories/PropertiesI.v
theories/PropertiesJ.v
theories/PRepeat.v
theories/PropertiesK.v
theories/MObj.v
theories/PObj.v
theories/PropertiesL.v
theories/MThread.v
theories/PThread.v
theories/PropertiesM.v
theories/PropertiesQ.v
theories/MArray.v
theories/PArray.v
theories/PropertiesAA.v
theories/PropertiesAB.v
theories/PropertiesAC.v
theories/MShape.v
theories/PropertiesAD.v
theories/PropertiesAE.v
theories/FMove.v
theories/PropertiesAF.v
theories/RCorners.v
theories/RMirror.v
theories/PropertiesAG.v
theories/PropertiesAH.v
theories/RPotential.v
theories/PropertiesAI.v
theories/RTensor.v
theories/PropertiesAJ.v
theories/PropertiesAK.v
theories/PropertiesAL.v
theories/PropertiesAM.v
theories/PropertiesAN.v
theories/PropertiesAO.v
theories/PropertiesAP.v
theories/PropertiesAQ.v
theories/PropertiesAR.v
