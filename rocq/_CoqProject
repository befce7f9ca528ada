-Q theories Verif
theories/Base.v
theories/F32.v
theories/F32Facts.v
theories/Vec.v
theories/RayModel.v
theories/AabbModel.v
theories/SpecGeom.v
theories/AabbProofs.v
theories/MeasureProofs.v
theories/SlabProofs.v
theories/NodeModel.v
theories/IterModel.v
theories/SpecTree.v
theories/SpecTraverse.v
theories/IterProofs.v
theories/TraverseProofs.v
theories/ClosestProofs.v
theories/PropBox.v
theories/SpecSlab.v
theories/Slab4Proofs.v
theories/PropSlab.v
theories/PropNode.v
theories/ShortProofs.v
theories/PropTraverse.v
theories/UtilsModel.v
theories/UtilsProofs.v
theories/MortonProofs.v
theories/PropUtils.v
theories/LocbModel.v
theories/LocbNN.v
theories/LocbMerge.v
theories/LocbForest.v
theories/LocbProofs.v
theories/PropLocb.v
theories/PropNoMiss.v
theories/MbvhModel.v
theories/SpecMbvh.v
theories/SpecQuad.v
theories/MbvhProofs.v
theories/MbvhMerge.v
theories/MbvhClient.v
theories/PropMbvh.v
theories/PropQuad.v
theories/PropNoMiss4.v
theories/AlignModel.v
theories/PropAlign.v
theories/BvhModel.v
theories/BvhProofs.v
theories/PropBvh.v
theories/SpawnModel.v
theories/SpawnProofs.v
theories/PropSpawn.v
theories/BinnedModel.v
theories/BinnedProofs.v
theories/BinnedFacts.v
theories/BinnedLeaf.v
theories/SpecBinned.v
theories/BinnedCost.v
theories/PropBinned.v
theories/TriModel.v
theories/SpecTri.v
theories/TriProofs.v
theories/TriError.v
theories/PropTri.v
theories/PropTriError.v
theories/FfiModel.v
theories/SpecFfi.v
theories/FfiProofs.v
theories/PropFfi.v
theories/LockModel.v
theories/SpecLock.v
theories/LockProofs.v
theories/LockCalls.v
theories/LockTrace.v
theories/PropLock.v
theories/SpatialModel.v
theories/SpecSpatial.v
theories/SpatialPlan.v
theories/SpatialProofs.v
theories/SpatialComplete.v
theories/SpatialShare.v
theories/SpatialBoxes.v
theories/SpatialLeaf.v
theories/SpecPlane.v
theories/PlaneProofs.v
theories/SpecCut.v
theories/SpatialCost.v
theories/SpecPanic.v
theories/SpatialPanic.v
theories/PropSpatial.v
theories/PropPanic.v
theories/PropSpatialBox.v
theories/SpatialDivide.v
theories/PropSpatialCut.v
theories/BinnedRoom.v
theories/PropNoMissBinned.v
theories/SpecMesh.v
theories/NearProofs.v
theories/MeshProofs.v
theories/PropMesh.v
theories/SpecShadow.v
theories/MonoProofs.v
theories/PropMono.v
theories/SpecBins.v
theories/BinOrder.v
theories/PropBins.v
theories/SpecLoc.v
theories/LocbRounds.v
theories/PropLoc.v
theories/SpecNext.v
theories/PropNext.v
theories/CameraModel.v
theories/SpecMeasure.v
theories/SpecCamera.v
theories/CameraProofs.v
theories/PropCamera.v
theories/PropMeasure.v
theories/SpecTransform.v
theories/PropTransform.v
theories/PropSplit.v
theories/PropView.v
theories/SpecOrder.v
theories/OrderProofs.v
theories/PropOrder.v
theories/SpecGrid.v
theories/GridProofs.v
theories/PropGrid.v
theories/SpecCarve.v
theories/CarveProofs.v
theories/PropCarve.v
theories/PropShadow.v
theories/SpecShade.v
theories/PropShade.v
theories/VisualModel.v
theories/PropVisual.v
theories/PropAverage.v
theories/SpecNormal.v
theories/PropNormal.v
theories/BenchModel.v
theories/PropBench.v
theories/PropBench4.v
theories/SameIter.v
theories/PropSame.v
theories/PropVisual4.v
theories/ControlModel.v
theories/PropControl.v
theories/PropControlMove.v
theories/StartModel.v
theories/PropStart.v
theories/PropBounds.v
