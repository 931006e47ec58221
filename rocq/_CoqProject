-Q theories Verif
theories/Prelude.v
theories/NestedVecModel.v
theories/NestedVecSpec.v
theories/NestedVecProofs.v
theories/PropNestedVec.v
theories/ParadisModel.v
theories/ParadisSpec.v
theories/ParadisProofs.v
theories/ColoringProofs.v
theories/ParadisSafety.v
theories/PropParadis.v
theories/VectorModel.v
theories/VectorSpec.v
theories/VectorProofs.v
theories/VectorParProofs.v
theories/VectorColors.v
theories/VectorAgree.v
theories/PropVector.v
theories/CsrModel.v
theories/CsrSpec.v
theories/CsrProofs.v
theories/CsrSerial.v
theories/CsrPattern.v
theories/CsrParPattern.v
theories/CsrPar.v
theories/CsrParAgree.v
theories/CsrAlgebra.v
theories/PropCsr.v
theories/DirichletModel.v
theories/DirichletSpec.v
theories/DirichletProofs.v
theories/PropDirichlet.v
theories/ReorderModel.v
theories/ReorderSpec.v
theories/ReorderProofs.v
theories/ReorderMeshProofs.v
theories/PropReorder.v
theories/MeshModel.v
theories/MeshSpec.v
theories/MeshProofs.v
theories/PropMesh.v
theories/FacesSpec.v
theories/PropFaces.v
theories/ElementModel.v
theories/ElementSpec.v
theories/ElementNodal.v
theories/ElementGrads.v
theories/ElementPoly.v
theories/ElementGeometry.v
theories/PropElement.v
theories/ConvertModel.v
theories/ConvertSpec.v
theories/ConvertProofs.v
theories/PropConvert.v
theories/ProcModel.v
theories/ProcSpec.v
theories/PropProc.v
theories/TableModel.v
theories/TableSpec.v
theories/PropTable.v
theories/InterpModel.v
theories/InterpSpec.v
theories/PropInterp.v
theories/CgModel.v
theories/CgSpec.v
theories/CgProofs.v
theories/PropCg.v
theories/OptModel.v
theories/OptSpec.v
theories/PropNewton.v
theories/PropFd.v
theories/AabbModel.v
theories/AabbSpec.v
theories/PropAabb.v
theories/PropFrame.v
theories/GeomModel.v
theories/GeomSpec.v
theories/PropSeg.v
theories/PropPolygon.v
theories/PropClip.v
theories/PropQuad.v
theories/PropPoly3.v
theories/PropDist.v
theories/PolyModel.v
theories/PolySpec.v
theories/PolyProofs.v
theories/PropPolyMesh.v
theories/PropPolyOps.v
theories/PropPolySplit.v
theories/PolyTriProofs.v
theories/PropPolyTri.v
theories/PropPolyConv.v
theories/PolyClipProofs.v
theories/PolyClipMesh.v
theories/PropPolyClip.v
theories/SolidModel.v
theories/SolidSpec.v
theories/PropVolume.v
theories/SolidMeshModel.v
theories/PropSolidClip.v
theories/PropSolidDist.v
theories/PropSolidPrim.v
theories/PropWinding.v
theories/MaterialModel.v
theories/PropMaterial.v
theories/PropObjective.v
theories/EllipticModel.v
theories/PropElliptic.v
theories/PropEllipticOps.v
theories/PropMass.v
theories/GlobalModel.v
theories/PropGlobal.v
theories/PropGlobalForms.v
theories/QuadratureModel.v
theories/QuadPoly.v
theories/LegendreProofs.v
theories/LegendreZeros.v
theories/PropGauss.v
theories/QuadPolyN.v
theories/RuleProofs.v
theories/PropTensor.v
theories/TriangleCells.v
theories/PropSubdivide.v
theories/GaussSharp.v
theories/ElementDegrees.v
theories/CanonicalModel.v
theories/CanonicalProofs.v
theories/PropCanonical.v
theories/PropCanonicalLimits.v
theories/PropCanonicalMatrices.v
theories/PolyquadModel.v
theories/PropPolyquadText.v
theories/PropPolyquadSelect.v
theories/PropPolyquadDecimal.v
theories/TableMoments.v
theories/TableCheck.v
theories/PolyquadData.v
theories/PropPolyquadTables.v
theories/IntegrateModel.v
theories/PropVolumeForm.v
theories/PropIntegrate.v
theories/PropError.v
theories/ClosestModel.v
theories/ClosestSpec.v
theories/ClosestProofs.v
theories/PropClosest.v
theories/PropClosestTet.v
theories/PropSearch.v
theories/PointInterpModel.v
theories/MeshSpaceModel.v
theories/PropPointInterp.v
theories/PropPointMesh.v
theories/InverseModel.v
theories/InverseSpec.v
theories/InverseProofs.v
theories/PropInverse.v
theories/PropInverseQuad.v
theories/PropInverseCycle.v
theories/LobattoData.v
theories/LobattoModel.v
theories/LobattoCheck.v
theories/PropLobatto.v
theories/IoModel.v
theories/IoSpec.v
theories/PropMsh.v
theories/PropVtk.v
theories/SdfModel.v
theories/PropSdf.v
theories/VoxelModel.v
theories/PropVoxel.v
theories/Tet20Model.v
theories/Tet20Spec.v
theories/Tet20Proofs.v
theories/PropTet20.v
theories/ApdModel.v
theories/ApdSpec.v
theories/PropApd.v
theories/SvdModel.v
theories/PropSvd.v
theories/LayoutModel.v
theories/PropLayout.v
theories/PrimModel.v
theories/PropPrim.v
theories/FloatModel.v
theories/FloatProofs.v
theories/PropFloatSum.v
theories/PropFloatQuad.v
theories/AdapterModel.v
theories/AdapterSpec.v
theories/AdapterProofs.v
theories/AdapterAggregate.v
theories/PropAdapter.v
theories/PropAdapterMap.v
theories/SizedPoly.v
theories/PropCanonicalTables.v
theories/LegendreSturm.v
theories/LegendreAngles.v
theories/GaussNewton.v
theories/PropGaussNewton.v
theories/SizedTensor.v
theories/PropCanonicalGauss.v
theories/OperatorModel.v
theories/SolveProofs.v
theories/PropSolve.v
theories/PropSolveMesh.v
theories/ElementSpaceModel.v
theories/PropBalance.v
theories/PropBalanceMesh.v
theories/UnisolventRules.v
theories/PropUnisolvent.v
theories/PropSolveSpaces.v
theories/PatchCells.v
theories/PatchHex.v
theories/PatchHexCells.v
theories/PropPatch.v
theories/GridProofs.v
theories/GridLinks.v
theories/PropGrid.v
theories/TetTables.v
theories/TetGrid.v
theories/TetFaces.v
theories/TetLinks.v
theories/PropTetMesh.v
theories/PropAffine.v
theories/PropAffineMesh.v
