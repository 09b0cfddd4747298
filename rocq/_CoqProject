-Q theories Verif
theories/Base.v
theories/Num.v
theories/Vec.v
theories/Aabb.v
theories/Tree.v
theories/Geom.v
theories/Ground.v
theories/Shape.v
theories/Rib.v
theories/Str.v
theories/Mesh.v
theories/Shell.v
theories/Sfun.v
theories/ER.v
theories/F64.v
theories/SpecTree.v
theories/ProofTree.v
theories/SpecLoad.v
theories/ProofLoad.v
theories/SpecMesh.v
theories/SpecInt.v
theories/ProofMesh.v
theories/ProofQuery.v
theories/ProofWrite.v
theories/ProofMeshFacts.v
theories/SampleMesh.v
theories/ProofStoi.v
theories/PropertiesMesh.v
theories/SpecShell.v
theories/ProofShell.v
theories/SpecSfun.v
theories/ProofSfun.v
theories/ProofShellFacts.v
theories/SampleShell.v
theories/PropertiesShell.v
theories/SpecGeom.v
theories/ProofGeom.v
theories/ProofInt.v
theories/ProofTri.v
theories/ProofGround.v
theories/PropertiesGeom.v
theories/SpecRib.v
theories/ProofSegArea.v
theories/ProofFlat.v
theories/ProofSample.v
theories/PropertiesFlat.v
theories/SpecShape.v
theories/ProofShape.v
theories/ProofShapeFacts.v
theories/PropertiesShape.v
theories/SpecPose.v
theories/ProofPose.v
theories/SamplePose.v
theories/PropertiesPose.v
theories/SpecAvg.v
theories/ProofAvg.v
theories/ProofPolar.v
theories/ProofMeshGeo.v
theories/ProofMeshEval.v
theories/ProofChord.v
theories/SampleMeshGeo.v
theories/SampleChord.v
theories/ProofSetupData.v
theories/PropertiesAvg.v
theories/SpecEuler.v
theories/ProofEuler.v
theories/SampleEuler.v
theories/PropertiesEuler.v
theories/SpecCut.v
theories/ProofCut.v
theories/ProofSetupOk.v
theories/PropertiesSetup.v
theories/Acme.v
theories/AcmeEntity.v
theories/SpecAcme.v
theories/ProofBox.v
theories/PropertiesBox.v
theories/ProofAcme.v
theories/ProofCross.v
theories/PropertiesAcme.v
theories/SpecEntity.v
theories/ProofEntity.v
theories/ProofPred.v
theories/ProofCollinear.v
theories/ProofCollection.v
theories/ProofDispatch.v
theories/PropertiesEntity.v
theories/SpecFrame.v
theories/ProofFrame.v
theories/ProofFrameMesh.v
theories/ProofFrameGeo.v
theories/ProofFrameShell.v
theories/ProofSpin.v
theories/PropertiesFrame.v
theories/Mex.v
theories/SpecMex.v
theories/ProofMex.v
theories/ProofMexB.v
theories/ProofMexC.v
theories/ProofMexD.v
theories/SpecMexFlat.v
theories/ProofMexE.v
theories/SampleMex.v
theories/PropertiesMex.v
theories/SpecRoof.v
theories/ProofRoof.v
theories/PropertiesRoof.v
theories/NearTree.v
theories/SpecNear.v
theories/ProofNear.v
theories/PropertiesNear.v
theories/SpecProfile.v
theories/ProofProfile.v
theories/SampleProfile.v
theories/PropertiesProfile.v
theories/AcmeCollection.v
theories/SpecCollection.v
theories/ProofKinds.v
theories/PropertiesCollection.v
theories/AcmeVector.v
theories/ProofVector.v
theories/PropertiesVector.v
theories/AcmeHeap.v
theories/SpecHeap.v
theories/ProofHeap.v
theories/ProofBoxes.v
theories/PropertiesHeap.v
theories/Matlab.v
theories/SpecMatlab.v
theories/ProofMatlab.v
theories/ProofMatlabB.v
theories/ProofMatlabC.v
theories/ProofMatlabD.v
theories/ProofMatlabE.v
theories/ProofMatlabF.v
theories/ProofMatlabG.v
theories/ProofMatlabH.v
theories/PropertiesMatlab.v
theories/ProofMexF.v
theories/PropertiesMexB.v
theories/SpecApprox.v
theories/ProofApprox.v
theories/PropertiesApprox.v
theories/Plot.v
theories/SfunRun.v
theories/SpecPlot.v
theories/SpecSfunRun.v
theories/ProofPlot.v
theories/ProofSfunRun.v
theories/PropertiesPlot.v
theories/PropertiesSfunRun.v
theories/Print.v
theories/SpecPrint.v
theories/ProofPrint.v
theories/PropertiesPrint.v
theories/Edit.v
theories/SpecEdit.v
theories/ProofEdit.v
theories/PropertiesEdit.v
theories/SpecSmooth.v
theories/ProofSmooth.v
theories/PropertiesSmooth.v
theories/SpecPaved.v
theories/ProofPaved.v
theories/SamplePaved.v
theories/PropertiesPaved.v
theories/SpecObj.v
theories/ProofObj.v
theories/PropertiesObj.v
theories/SpecDouble.v
theories/ProofDouble.v
theories/PropertiesDouble.v
theories/ProofMean.v
theories/PropertiesMean.v
theories/SpecPlaces.v
theories/ProofPlaces.v
theories/SamplePlaces.v
theories/PropertiesPlaces.v
theories/SpecRadius.v
theories/ProofRadius.v
theories/PropertiesRadius.v
theories/SpecAverage.v
theories/ProofAverage.v
theories/SampleAverage.v
theories/PropertiesAverage.v
theories/SpecResults.v
theories/ProofResults.v
theories/SpecVolume.v
theories/ProofVolume.v
theories/PropertiesVolume.v
theories/SpecLight.v
theories/ProofLight.v
theories/SampleLight.v
theories/PropertiesLight.v
theories/SpecCoplanar.v
theories/ProofCoplanar.v
theories/PropertiesCoplanar.v
theories/ProofTerrain.v
theories/SampleTerrain.v
theories/SampleTerrainFloor.v
theories/PropertiesTerrain.v
theories/ProofInside.v
theories/PropertiesInside.v
theories/ProofUpward.v
theories/PropertiesUpward.v
theories/ProofRibFrame.v
theories/PropertiesLevelAxle.v
theories/ProofHalf.v
theories/SampleStack.v
theories/PropertiesHalf.v
theories/ProofPress.v
theories/PropertiesPress.v
theories/SpecAbove.v
theories/ProofAbove.v
theories/PropertiesAbove.v
theories/SpecHull.v
theories/ProofHull.v
theories/PropertiesHull.v
theories/ProofBisector.v
theories/SampleRoad.v
theories/PropertiesBisector.v
theories/ProofReach.v
theories/PropertiesReach.v
