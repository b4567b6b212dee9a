-Q theories Verif
theories/Base.v
theories/Rle.v
theories/RleProofs.v
theories/Blocks.v
theories/BlocksProofs.v
theories/TablesSpec.v
theories/TablesProofs.v
theories/PropsTables.v
theories/Foundation.v
theories/IndexProofs.v
theories/PositionProofs.v
theories/DanglingGraph.v
theories/DanglingProofs.v
theories/FinalProofs.v
theories/Scalar.v
theories/Lattice.v
theories/LatticeSpec.v
theories/LatticeProofs.v
theories/UnitCellProofs.v
theories/LatticeFacts.v
theories/PropsLattice.v
theories/FoundationSpec.v
theories/FoundationFacts.v
theories/PopulateFacts.v
theories/PropsFoundation.v
theories/Symmetry.v
theories/SymmetrySpec.v
theories/SymmetryProofs.v
theories/BoundaryProofs.v
theories/PropsSymmetry.v
theories/Geometry.v
theories/GeometrySpec.v
theories/GeometryProofs.v
theories/ShapeProofs.v
theories/PropsGeometry.v
theories/Hamiltonian.v
theories/HamiltonianSpec.v
theories/HamProofs.v
theories/HamElements.v
theories/HamFacts.v
theories/HamHermitian.v
theories/SystemBuild.v
theories/HamApi.v
theories/HamCor.v
theories/PropsHamiltonian.v
theories/Registry.v
theories/ModelState.v
theories/ModelProofs.v
theories/RegistryProofs.v
theories/PropsConfig.v
theories/PropsModel.v
theories/Leads.v
theories/LeadsSpec.v
theories/LeadRows.v
theories/LeadFill.v
theories/LeadAttach.v
theories/LeadBuild.v
theories/LeadStruct.v
theories/LeadMany.v
theories/BulkSpec.v
theories/BulkProofs.v
theories/LeadHam.v
theories/LeadCor.v
theories/PropsLeads.v
theories/Threads.v
theories/ThreadsSpec.v
theories/ThreadProofs.v
theories/ThreadLocal.v
theories/ParallelFor.v
theories/ForSpec.v
theories/ParallelForProofs.v
theories/ThreadPoolProofs.v
theories/PropsThreads.v
theories/Kpm.v
theories/KpmSpec.v
theories/KpmVec.v
theories/KpmLoops.v
theories/KpmMoments.v
theories/KpmReorder.v
theories/KpmOptimized.v
theories/KpmCheb.v
theories/KpmCore.v
theories/KpmRun.v
theories/KpmEnd.v
theories/KpmEll.v
theories/KpmEllProofs.v
theories/KpmBatch.v
theories/KpmBatchProofs.v
theories/GaussQ.v
theories/KpmFinal.v
theories/PropsKpm.v
theories/BlochProofs.v
theories/PropsBloch.v
theories/SystemMods.v
theories/ModsSpec.v
theories/ModsProofs.v
theories/ModsSystem.v
theories/WidenProofs.v
theories/GenProofs.v
theories/MakeProofs.v
theories/ExtendProofs.v
theories/SystemProofs.v
theories/SystemInv.v
theories/PropsSystem.v
theories/Feast.v
theories/FeastProofs.v
theories/PropsSolver.v
theories/Solver.v
theories/SolverProofs.v
theories/KpmState.v
theories/KpmStateProofs.v
theories/PropsSession.v
theories/RSum.v
theories/KpmGram.v
theories/Cplx.v
theories/RInt.v
theories/Spectral.v
theories/SpectralProofs.v
theories/SpectralLine.v
theories/SpectralKubo.v
theories/PropsSpectral.v
theories/ReserveProofs.v
theories/PropsReserve.v
theories/SolverPost.v
theories/SolverPostProofs.v
theories/PropsPost.v
theories/PropsProb.v
theories/Lanczos.v
theories/TridiagProofs.v
theories/LanczosProofs.v
theories/LanczosOrtho.v
theories/LanczosKrylov.v
theories/LanczosWitness.v
theories/PropsLanczos.v
theories/MakePath.v
theories/MakePathProofs.v
theories/PropsPath.v
theories/Materials.v
theories/MaterialsSpec.v
theories/MaterialsProofs.v
theories/GrapheneProofs.v
theories/PropsGraphene.v
theories/BlochTerms.v
theories/PropsDirac.v
theories/SuperProofs.v
theories/PropsSuper.v
theories/BilayerProofs.v
theories/PropsBilayer.v
theories/PropsDeclared.v
theories/PropsTmd.v
theories/PhosphoreneSpec.v
theories/PhosphoreneProofs.v
theories/PropsPhosphorene.v
theories/GrapheneModifiers.v
theories/MagneticProofs.v
theories/PropsMagnetic.v
theories/MassProofs.v
theories/PropsMass.v
theories/GaussInt.v
theories/PropsDos.v
theories/Reciprocal.v
theories/PropsReciprocal.v
theories/PropsBrillouin.v
theories/LeadBands.v
theories/PropsLeadBands.v
theories/PyShape.v
theories/PyShapeSpec.v
theories/PyShapeProofs.v
theories/PropsPyShape.v
theories/PropsNamedShapes.v
theories/NamedShapes.v
theories/PropsRegular.v
theories/ModifierLayout.v
theories/ModifierLayoutSpec.v
theories/ModifierLayoutProofs.v
theories/PropsModifierLayout.v
theories/PositionResult.v
theories/PropsPositionResult.v
theories/AliasNames.v
theories/PropsNames.v
theories/Sweep.v
theories/PropsSweep.v
theories/Kwant.v
theories/PropsKwant.v
theories/AddArgs.v
theories/PropsAddArgs.v
theories/GrapheneStrain.v
theories/PropsStrain.v
theories/PropsPotential.v
theories/StructureSlice.v
theories/SliceProofs.v
theories/PropsSlice.v
theories/SweepOps.v
theories/PropsSweepOps.v
theories/SweepConvolve.v
theories/PropsConvolve.v
theories/SpatialLdos.v
theories/PropsSpatial.v
theories/PyKpm.v
theories/PropsPyKpm.v
theories/Pickle.v
theories/PicklePr.v
theories/SaveLoad.v
theories/SaveLoadPr.v
theories/PropsPickle.v
theories/SpectralTheorem.v
theories/EigenProofs.v
theories/PropsEigen.v
theories/PropsStates.v
theories/Mean.v
theories/Random.v
theories/RandomProofs.v
theories/PropsRandom.v
theories/PlotPeriodic.v
theories/PlotPeriodicProofs.v
theories/PropsPlot.v
theories/Conductivity.v
theories/ConductivityProofs.v
theories/PropsConductivity.v
theories/Compress.v
theories/CompressProofs.v
theories/PropsEndToEnd.v
theories/ModifierArgs.v
theories/PropsModifierArgs.v
theories/CovarianceProofs.v
theories/PropsCovariance.v
theories/PropsCovarianceField.v
theories/PropsUnits.v
theories/CrystalSpec.v
theories/CrystalProofs.v
theories/CrystalWaves.v
theories/PropsCrystal.v
theories/FoldingProofs.v
theories/PropsFolding.v
theories/KpmStats.v
theories/KpmStatsProofs.v
theories/PropsKpmStats.v
theories/LocalProofs.v
theories/PropsLocality.v
theories/ProgressBar.v
theories/ProgressSpec.v
theories/ProgressProofs.v
theories/PropsProgress.v
theories/PropsOrder.v
theories/BoundaryExact.v
theories/PropsBoundary.v
theories/BlochMods.v
theories/PropsModified.v
theories/Durations.v
theories/DurationsProofs.v
theories/PropsDurations.v
theories/NormProofs.v
theories/Rounding.v
theories/RoundingProofs.v
theories/RoundingLoops.v
theories/RoundingMoments.v
theories/RoundingKernels.v
theories/RoundingReal.v
theories/PropsRounding.v
theories/Simd.v
theories/SimdProofs.v
theories/SimdKernels.v
theories/PropsSimd.v
theories/RIntMore.v
theories/Converge.v
theories/PropsConverge.v
theories/PlotSites.v
theories/PropsPlotSites.v
theories/ScalarType.v
theories/ScalarTypeProofs.v
theories/PropsScalarType.v
theories/ArrayRef.v
theories/PropsArrayRef.v
theories/PlotRadius.v
theories/PropsPlotRadius.v
theories/CsrLoop.v
theories/PropsCsrLoop.v
theories/VecCaster.v
theories/PropsVecCaster.v
theories/CallSig.v
theories/PropsCallSig.v
theories/PropsGenerated.v
theories/Deferred.v
theories/PropsDeferred.v
theories/Landau.v
theories/LandauProofs.v
theories/PropsLandau.v
theories/PlotOptions.v
theories/PropsPlotOptions.v
theories/HeatMap.v
theories/PropsHeatMap.v
theories/SmoothMap.v
theories/PropsSmoothMap.v
theories/LatticePlot.v
theories/PropsLatticePlot.v
theories/PropsEntry.v
