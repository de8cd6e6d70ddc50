-Q theories Verif
theories/MeshModel.v
theories/MeshBase.v
theories/MeshInv.v
theories/MeshWeld.v
theories/MeshAdd.v
theories/MeshAdd2.v
theories/MeshRemove.v
theories/MeshRemove2.v
theories/MeshSpec.v
theories/MeshWF.v
theories/MeshOps.v
theories/MeshEditModel.v
theories/MeshEdit.v
theories/MeshSplitFace.v
theories/MeshFlip.v
theories/MeshSplitEdge.v
theories/MeshSplitEdge2.v
theories/MeshHistSpec.v
theories/MeshHistory.v
theories/MeshDemo.v
theories/ClaimsMesh.v
theories/MeshQueryModel.v
theories/MeshQuerySpec.v
theories/MeshQuery.v
theories/MeshQuery2.v
theories/MeshLoopsModel.v
theories/MeshLoops.v
theories/ClaimsMeshQuery.v
theories/GeomModel.v
theories/GeomSpec.v
theories/GeomBase.v
theories/GeomLine.v
theories/GeomTri.v
theories/GeomSeg.v
theories/GeomSeg3.v
theories/ClaimsGeom.v
theories/PlaneModel.v
theories/PlaneProofs.v
theories/ClaimsPlane.v
theories/MatrixModel.v
theories/MatrixProofs.v
theories/ClaimsMatrix.v
theories/F64Model.v
theories/F64Base.v
theories/F64Next.v
theories/F64Arith.v
theories/F64Proofs.v
theories/ClaimsF64.v
theories/RatModel.v
theories/ClaimsNum.v
theories/LazyModel.v
theories/LazySpec.v
theories/LazyProofs.v
theories/LazyRun.v
theories/LazyCanon.v
theories/LazyBallSpec.v
theories/BallProofs.v
theories/LazyBall.v
theories/ClaimsLazy.v
theories/F64Rat.v
theories/HashModel.v
theories/HashProofs.v
theories/HashSpec.v
theories/ClaimsHash.v
theories/AabbModel.v
theories/AabbSpec.v
theories/AabbTree.v
theories/AabbRat.v
theories/AabbCount.v
theories/ClaimsAabb.v
theories/IoModel.v
theories/IoSpec.v
theories/IoText.v
theories/IoProofs.v
theories/IoStl.v
theories/IoReaders.v
theories/ClaimsIo.v
theories/DelaunayModel.v
theories/DelaunaySpec.v
theories/DelaunayProofs.v
theories/DelaunayBuild.v
theories/DelaunayWalk.v
theories/DelaunayFloat.v
theories/DelaunayFloatProofs.v
theories/ClaimsDelaunay.v
theories/MeshCompactModel.v
theories/MeshCompact.v
theories/MeshBatchModel.v
theories/MeshBatch.v
theories/MeshBatch2.v
theories/MeshDefer.v
theories/ClaimsMeshBatch.v
theories/MeshCollapseModel.v
theories/MeshCollapse.v
theories/MeshCollapse1.v
theories/MeshCollapse2.v
theories/MeshCollapse3.v
theories/MeshCollapse4.v
theories/MeshCollapse5.v
theories/MeshManifold.v
theories/ClaimsMeshCollapse.v
theories/MeshRemeshModel.v
theories/MeshSurface.v
theories/MeshRemesh.v
theories/MeshRemesh2.v
theories/ClaimsMeshRemesh.v
theories/RayModel.v
theories/TriSpec.v
theories/RaySpec.v
theories/RayGeom.v
theories/RayBox.v
theories/RayProofs.v
theories/RayProofs2.v
theories/ClaimsRay.v
theories/ClaimsRay2.v
theories/TriTriModel.v
theories/TriTriSpec.v
theories/TriTriProofs.v
theories/TriTriCut.v
theories/TriTriMain.v
theories/TriTriClip.v
theories/TriTriContact.v
theories/TriTriPlanar.v
theories/TriTriHull.v
theories/TriTriCoplanar.v
theories/ClaimsTriTri.v
theories/MeshCleanModel.v
theories/BoolModel.v
theories/BoolSpec.v
theories/MeshClean.v
theories/BoolBuild.v
theories/BoolAsm.v
theories/ClaimsBool.v
theories/BoolClassModel.v
theories/BoolClassSpec.v
theories/BoolClass.v
theories/ClaimsClass.v
theories/BoolSegModel.v
theories/BoolSegSpec.v
theories/BoolSeg.v
theories/ClaimsSeg.v
theories/BoolCutModel.v
theories/BoolCutSpec.v
theories/BoolCutBox.v
theories/BoolCut.v
theories/ClaimsCut.v
theories/ClaimsCircle.v
theories/BoolAllocModel.v
theories/BoolAllocSpec.v
theories/BoolAlloc.v
theories/AllocKey.v
theories/ClaimsAlloc.v
theories/BoolPslgModel.v
theories/BoolPslgSpec.v
theories/PslgBary.v
theories/BoolPslg.v
theories/PslgFloat.v
theories/BoolPslgChain.v
theories/ClaimsPslg.v
theories/CorefineModel.v
theories/CorefineSpec.v
theories/CentreFloat.v
theories/Corefine.v
theories/ClaimsCorefine.v
theories/MeshRewrite.v
theories/ClaimsMeshRewrite.v
theories/VertexRayModel.v
theories/VertexRay.v
theories/ClaimsVertexRay.v
theories/PointLocModel.v
theories/PointLocSpec.v
theories/PointLoc.v
theories/ClaimsPointLoc.v
theories/ContainModel.v
theories/ContainSpec.v
theories/Contain.v
theories/ClaimsContain.v
theories/MeshSplitBorder.v
theories/ClaimsSplitBorder.v
theories/SplitAtModel.v
theories/SplitAt.v
theories/ClaimsSplitAt.v
theories/CutPlaneModel.v
theories/CutPlaneSpec.v
theories/CutPlane.v
theories/ClaimsCutPlane.v
theories/PslgPlaneModel.v
theories/PslgPlaneSpec.v
theories/PslgPlane.v
theories/PslgPlaneChain.v
theories/ClaimsPslgPlane.v
theories/CorefinePlaneModel.v
theories/CorefinePlaneSpec.v
theories/CorefinePlane.v
theories/ClaimsCorefinePlane.v
theories/FindHalfModel.v
theories/FindHalfSpec.v
theories/FindHalf.v
theories/ClaimsFindHalf.v
theories/AdjGraphModel.v
theories/AdjGraphSpec.v
theories/AdjGraph.v
theories/ClaimsAdjGraph.v
theories/SideGeomModel.v
theories/SideGeomSpec.v
theories/SideGeom.v
theories/ClaimsSideGeom.v
theories/JobInsideModel.v
theories/JobInsideSpec.v
theories/JobInside.v
theories/ClaimsJobInside.v
theories/EdgeLenModel.v
theories/EdgeLenSpec.v
theories/EdgeLen.v
theories/ClaimsEdgeLen.v
theories/TriBoxModel.v
theories/TriBoxSpec.v
theories/ClaimsTriBox.v
theories/FaceFrameModel.v
theories/FaceFrameSpec.v
theories/ClaimsFaceFrame.v
theories/FlipQualityModel.v
theories/FlipQualitySpec.v
theories/FlipTotal.v
theories/ClaimsFlipQuality.v
