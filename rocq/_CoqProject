-Q theories Verif
theories/Num.v
theories/B64.v
theories/MRounding.v
theories/MUnits.v
theories/SpecUnits.v
theories/MValue.v
theories/MJson.v
theories/Vec.v
theories/RVec.v
theories/MVx.v
theories/SpecValue.v
theories/XLemmas.v
theories/VLemmas.v
theories/PUnits.v
theories/BLemmas.v
theories/PUnitsB.v
theories/PUnits2.v
theories/PropsUnits.v
theories/PVx.v
theories/PropsVx.v
theories/NpList.v
theories/MPlane.v
theories/SpecGeom.v
theories/PPlane.v
theories/PPlane2.v
theories/PPlaneNan.v
theories/PropsPlane.v
theories/MSegment.v
theories/MSegmentD.v
theories/PSegment.v
theories/PropsSegment.v
theories/SpecPoly.v
theories/MPolyline.v
theories/PPolyline.v
theories/PPolyline2.v
theories/PPolyline3.v
theories/PValue.v
theories/PValueB.v
theories/PJson.v
theories/PropsValue.v
theories/MProtocol.v
theories/PropsProtocol.v
theories/PropsPolyline.v
theories/SpecSolid.v
theories/MSolids.v
theories/PSolids.v
theories/PropsSolids.v
theories/RList.v
theories/PRList.v
theories/MNumerics.v
theories/SpecNumerics.v
theories/PNumerics.v
theories/PGram.v
theories/PropsNumerics.v
theories/MLinalg.v
theories/SpecLinalg.v
theories/PLinalg.v
theories/PMatvec.v
theories/PropsLinalg.v
theories/MCg.v
theories/SpecCg.v
theories/PCg.v
theories/PCg2.v
theories/PCg3.v
theories/PropsCg.v
theories/MRotation.v
theories/PMat3.v
theories/SpecRotation.v
theories/PRotation.v
theories/PRotation2.v
theories/PropsRotation.v
theories/MJacobian.v
theories/SpecJacobian.v
theories/PJacobian.v
theories/PropsJacobian.v
theories/MComposite.v
theories/SpecComposite.v
theories/PComposite.v
theories/PCompositeB.v
theories/MCoord.v
theories/SpecCoord.v
theories/PCoord.v
theories/PropsComposite.v
theories/MRigid.v
theories/SpecRigid.v
theories/PRigid.v
theories/PRigid2.v
theories/PropsRigid.v
theories/MNormals.v
theories/SpecNormals.v
theories/PNormals.v
theories/PNormals2.v
theories/PNormals3.v
theories/PNormals4.v
theories/PNormals5.v
theories/PropsNormals.v
theories/MNormalsDr.v
theories/PNormals6.v
theories/PropsNormals2.v
theories/MConsole.v
theories/PropsConsole.v
theories/MApex.v
theories/SpecApex.v
theories/PApex.v
theories/PropsApex.v
theories/MConvexify.v
theories/SpecHull.v
theories/PHull.v
theories/PropsConvexify.v
theories/MMesh.v
theories/SpecGraph.v
theories/PGraph.v
theories/PGraph2.v
theories/PGraph3.v
theories/PropsGraph.v
theories/PGraph4.v
theories/SpecMesh.v
theories/PMesh.v
theories/PMesh2.v
theories/PMesh3.v
theories/PMesh4.v
theories/PropsMesh.v
theories/SpecSlice.v
theories/SpecDouble.v
theories/PMeshF.v
theories/PErr.v
theories/PFar.v
theories/PSliceF.v
theories/PNormB.v
theories/PNormD.v
theories/PPlaneD.v
theories/PSliceM.v
theories/PropsSlice.v
theories/MMatlab.v
theories/SpecMatlab.v
theories/PMatlab.v
theories/PropsMatlab.v
theories/MMemory.v
theories/SpecMemory.v
theories/PMemory.v
theories/PropsMemory.v
theories/PropsShared.v
theories/PropsMemory2.v
theories/PropsEdge.v
theories/PropsEdge2.v
theories/PPart.v
theories/PropsEdge3.v
theories/MDescriptor.v
theories/PropsDescriptor.v
theories/MExport.v
theories/PropsExport.v
theories/PropsDouble.v
theories/PPartD.v
theories/PScaleD.v
theories/PProjD.v
theories/PropsDouble2.v
theories/PropsEdge4.v
theories/PCutG.v
theories/PCutC.v
theories/PCutD.v
theories/PropsDouble3.v
theories/SpecValueD.v
theories/PValueD.v
theories/PropsDouble4.v
theories/SpecRoundD.v
theories/PRoundD.v
theories/PPrettyD.v
theories/PropsDouble5.v
theories/SpecTransD.v
theories/PTransD.v
theories/PTransD2.v
theories/PropsDouble6.v
theories/SpecSumD.v
theories/PSumD.v
theories/PCrossD.v
theories/PCanonD.v
theories/PropsDouble7.v
theories/PLineD.v
theories/PBaryD.v
theories/PBoxD.v
theories/PropsDouble8.v
theories/PXsecD.v
theories/PXsegD.v
theories/PLine2D.v
theories/PropsDouble9.v
theories/PUpLookD.v
theories/PropsDouble10.v
theories/SpecTrigD.v
theories/PRodD.v
theories/PEulerD.v
theories/PAngleD.v
theories/PropsDouble11.v
theories/PropsRepr.v
theories/PCoordD.v
theories/PropsDouble12.v
theories/PMeanD.v
theories/PropsDouble13.v
theories/PTolD.v
theories/PropsDouble14.v
theories/PNormalsD.v
theories/PropsDouble15.v
theories/PGramD.v
theories/PropsDouble16.v
theories/PMonoD.v
theories/PropsDouble17.v
theories/PropsEdge5.v
theories/PropsEdge6.v
theories/PropsMemory3.v
theories/PInflD.v
theories/PropsDouble18.v
theories/SpecRigidD.v
theories/PRigidD.v
theories/PRigidD2.v
theories/PropsDouble19.v
theories/PRigidD3.v
theories/PropsDouble20.v
theories/PNormalsD2.v
theories/PropsDouble21.v
theories/SpecXzD.v
theories/PXzD.v
theories/PXzD2.v
theories/PropsDouble22.v
theories/PLogD.v
theories/PropsDouble23.v
theories/PHalfTurn.v
theories/PropsHalfTurn.v
