-Q theories Verif
theories/Base64.v
theories/Base64Proofs.v
theories/Base64Properties.v
theories/CMatrix.v
theories/CMatrixProofs.v
theories/CMatrixInv.v
theories/CMatrixSpec.v
theories/CMatrixRun.v
theories/CMatrixMul.v
theories/CMatrixFloat.v
theories/CMatrixProperties.v
theories/Parallel.v
theories/ParallelProofs.v
theories/ParallelProperties.v
theories/Newton.v
theories/NewtonProofs.v
theories/NewtonConv.v
theories/NewtonNum.v
theories/TimeMethods.v
theories/TimeMethodsProofs.v
theories/TimeOrder.v
theories/NewtonSpec.v
theories/NewtonUpdate.v
theories/NewtonReal.v
theories/TimeProperties.v
theories/NewtonProperties.v
theories/UpdateProperties.v
theories/StrMap.v
theories/EqTable.v
theories/EqTableProofs.v
theories/EqTableProperties.v
theories/NodeKeeper.v
theories/NodeKeeperProofs.v
theories/CircuitNodeProperties.v
theories/Numbering.v
theories/NumberingProofs.v
theories/NumberingProperties.v
theories/FloatLaws.v
theories/Assembly.v
theories/AssemblyProofs.v
theories/AssemblyResidual.v
theories/AssemblyJacobian.v
theories/AssemblyProperties.v
theories/Load.v
theories/LoadProofs.v
theories/LoadProperties.v
theories/Base64Exact.v
theories/Contact.v
theories/ContactProofs.v
theories/ContactJacobian.v
theories/ContactProperties.v
theories/Interface.v
theories/InterfaceProofs.v
theories/InterfaceProperties.v
theories/Circuit.v
theories/CircuitInv.v
theories/CircuitSpec.v
theories/CircuitProofs.v
theories/CircuitAC.v
theories/CircuitProperties.v
theories/Params.v
theories/ParamsProofs.v
theories/ParamsProperties.v
theories/Stale.v
theories/StaleProofs.v
theories/StaleSpec.v
theories/StaleEval.v
theories/StaleTerm.v
theories/StaleSys.v
theories/StaleProperties.v
theories/StaleExamples.v
theories/ModelData.v
theories/ModelDataProperties.v
theories/ModelExpr.v
theories/ModelExprSpec.v
theories/ModelExprProofs.v
theories/ModelExprProperties.v
theories/Sym.v
theories/SymSpec.v
theories/SymProofs.v
theories/SymUser.v
theories/SymProperties.v
theories/MeshLine.v
theories/MeshLineSpec.v
theories/MeshLineProofs.v
theories/MeshLineDevice.v
theories/GeomLine.v
theories/MeshLineProperties.v
theories/Mesh2.v
theories/Mesh2Spec.v
theories/Mesh2Grid.v
theories/Mesh2Proofs.v
theories/Mesh2Properties.v
theories/Adjacency.v
theories/LoaderSpec.v
theories/AdjacencySpec.v
theories/AdjacencyProofs.v
theories/AdjacencyFinal.v
theories/Loader.v
theories/LoaderProofs.v
theories/AdjacencyProperties.v
theories/LoaderGmsh.v
theories/ImportSpec.v
theories/LoaderImport.v
theories/LoaderProperties.v
theories/LoaderDevsimProperties.v
theories/Options.v
theories/OptionsSpec.v
theories/OptionsProofs.v
theories/OptionsProperties.v
theories/Bernoulli.v
theories/BernoulliSpec.v
theories/BernoulliProofs.v
theories/BernoulliProperties.v
theories/LoaderDeviceProperties.v
theories/Geometry.v
theories/GeometrySpec.v
theories/GeometryProofs.v
theories/Volume.v
theories/VolumeGeom.v
theories/VolumeSpec.v
theories/VolumeProofs.v
theories/VolumeMesh.v
theories/VolumeProperties.v
theories/VolumeMesh3.v
theories/Simplify.v
theories/SimplifySpec.v
theories/SimplifyProofs.v
theories/SimplifyTotal.v
theories/SimplifyProperties.v
theories/ConText.v
theories/ConTextProofs.v
theories/ConTextProperties.v
theories/ConTextMerge.v
theories/EdgeAverage.v
theories/EdgeAverageSpec.v
theories/EdgeAverageProperties.v
theories/EdgeAverageFloat.v
theories/VectorGradient.v
theories/VectorGradientSpec.v
theories/VectorGradientProperties.v
theories/ElementField.v
theories/ElementFieldProofs.v
theories/ElementFieldSpec.v
theories/ElementFieldLinear.v
theories/ElementFieldMesh.v
theories/ElementFieldProperties.v
theories/ElementField3.v
theories/ElementField3Proofs.v
theories/ElementField3Properties.v
theories/Surface.v
theories/SurfaceSpec.v
theories/SurfaceProofs.v
theories/SurfaceTriangles.v
theories/SurfaceProperties.v
theories/SurfaceRings.v
theories/Cylindrical.v
theories/CylindricalSpec.v
theories/CylindricalProofs.v
theories/CylindricalMesh.v
theories/CylindricalProperties.v
theories/Restart.v
theories/RestartWrite.v
theories/RestartSpec.v
theories/RestartProofs.v
theories/RestartRead.v
theories/RestartRead2.v
theories/RestartDeviceSpec.v
theories/RestartDevice.v
theories/RestartDevice2.v
theories/RestartDevice3.v
theories/RestartModelsSpec.v
theories/RestartModels.v
theories/RestartProperties.v
theories/RestartFailProperties.v
theories/RestartAgain.v
theories/RestartAgainProperties.v
theories/SmallSignal.v
theories/SmallSignalLoad.v
theories/SmallSignalUpdate.v
theories/SmallSignalNumbers.v
theories/SmallSignalProofs.v
theories/SmallSignalProperties.v
theories/NoiseProperties.v
theories/SmallSignalCases.v
theories/Gmres.v
theories/GmresProofs.v
theories/GmresArnoldi.v
theories/GmresLoop.v
theories/GmresStuck.v
theories/GmresProperties.v
theories/BlockPrec.v
theories/BlockPrecSpec.v
theories/BlockPrecProofs.v
theories/BlockPrecDrop.v
theories/BlockPrecProperties.v
theories/CustomEq.v
theories/CustomEqProofs.v
theories/CustomEqProperties.v
theories/Export.v
theories/ExportProofs.v
theories/ExportProperties.v
theories/RestartText.v
theories/RestartTextSpec.v
theories/RestartTextProofs.v
theories/RestartScan.v
theories/RestartScan2.v
theories/RestartScan3.v
theories/RestartScan4.v
theories/RestartTextProofs2.v
theories/RestartNumber.v
theories/RestartNumberProofs.v
theories/RestartNumberProofs2.v
theories/RestartTextProperties.v
theories/VtkArray.v
theories/VtkArraySpec.v
theories/VtkArrayProofs.v
theories/Vtk.v
theories/VtkSpec.v
theories/VtkProofs.v
theories/VtkProperties.v
theories/Tecplot.v
theories/TecplotSpec.v
theories/TecplotProofs.v
theories/TecplotFile.v
theories/TecplotNumber.v
theories/TecplotProperties.v
theories/SetValues.v
theories/SetValuesSpec.v
theories/SetValuesProofs.v
theories/SetValuesProperties.v
theories/InterfaceExpr.v
theories/InterfaceExprSpec.v
theories/InterfaceExprNames.v
theories/InterfaceExprProofs.v
theories/InterfaceExprSilent.v
theories/InterfaceExprProperties.v
theories/EqReport.v
theories/EqReportSpec.v
theories/EqReportProofs.v
theories/EqReportSteps.v
theories/EqReportQuery.v
theories/EqReportProperties.v
theories/EqReportSaved.v
theories/EqReportSavedProperties.v
theories/SavedModel.v
theories/SavedModelProperties.v
theories/SavedExpr.v
theories/SavedExprProperties.v
