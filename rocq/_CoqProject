-Q theories Verif
theories/TopologyModel.v
theories/TopologySpec.v
theories/TopologyProofs.v
theories/ExchangeProofs.v
theories/TangentProofs.v
theories/TopologyProps.v
theories/ShapeModel.v
theories/ShapeSpec.v
theories/ShapeProofs.v
theories/ShapeProps.v
theories/MpiModel.v
theories/MpiSpec.v
theories/MpiProofs.v
theories/MpiProps.v
theories/ConfigModel.v
theories/ConfigSpec.v
theories/ConfigProofs.v
theories/SchemaModel.v
theories/SchemaProofs.v
theories/ConfigProps.v
theories/ExprModel.v
theories/ExprSpec.v
theories/ExprProofs.v
theories/ExprProps.v
theories/SimModel.v
theories/SimSpec.v
theories/SimProofs.v
theories/SimProps.v
theories/FilesModel.v
theories/FilesSpec.v
theories/FilesProofs.v
theories/FilesProps.v
theories/StatsModel.v
theories/StatsSpec.v
theories/StatsProofs.v
theories/StatsProps.v
theories/AlphaModel.v
theories/AlphaSpec.v
theories/AlphaProofs.v
theories/AlphaProps.v
theories/EpiModel.v
theories/EpiSpec.v
theories/EpiProofs.v
theories/EpiProps.v
theories/RkModel.v
theories/RkSpec.v
theories/RkProofs.v
theories/RkProps.v
theories/VecTac.v
theories/StepModel.v
theories/StepSpec.v
theories/StepProofs.v
theories/StepOrder.v
theories/StepSplit.v
theories/StepWords.v
theories/StepExamples.v
theories/StepProps.v
theories/GeoModel.v
theories/GeoSpec.v
theories/GeoProofs.v
theories/GeoArea.v
theories/GeoAngles.v
theories/GeoTiles.v
theories/GeoWinds.v
theories/GeoPanels.v
theories/GeoMetric3.v
theories/GeoChristoffel.v
theories/GeoFinal.v
theories/GeoProps.v
theories/LayoutModel.v
theories/LayoutSpec.v
theories/LayoutProofs.v
theories/LayoutConvert.v
theories/LayoutItf.v
theories/LayoutFloor.v
theories/LayoutFinal.v
theories/LayoutProps.v
theories/OpModel.v
theories/OpSpec.v
theories/OpReduce.v
theories/OpLagrange.v
theories/OpLegendre.v
theories/OpDfr.v
theories/OpFilter.v
theories/OpTensor.v
theories/OpFinal.v
theories/OpProps.v
theories/QuadModel.v
theories/QuadSpec.v
theories/QuadProofs.v
theories/QuadProps.v
theories/FluxModel.v
theories/FluxSpec.v
theories/FluxProofs.v
theories/FluxFaces.v
theories/FluxLoops.v
theories/FluxFinal.v
theories/FluxProps.v
theories/RField.v
theories/RhsSpec.v
theories/OpDiverge.v
theories/RhsFlat.v
theories/RhsModel.v
theories/RhsProofs.v
theories/RhsGauss.v
theories/SwModel.v
theories/SwSpec.v
theories/SwEdges.v
theories/SwTotal.v
theories/SwForcing.v
theories/SwRest.v
theories/SwRhs.v
theories/SwGlobal.v
theories/SwParallel.v
theories/SwCutSpec.v
theories/SwParRhs.v
theories/FieldSpace.v
theories/SwSteps.v
theories/SwParProps.v
theories/RhsFinal.v
theories/RhsProps.v
theories/DiagModel.v
theories/DiagSpec.v
theories/DiagProofs.v
theories/DiagEnergy.v
theories/DiagProps.v
theories/DeviceModel.v
theories/DeviceSpec.v
theories/DeviceProofs.v
theories/DeviceProps.v
theories/KiopsModel.v
theories/KiopsSpec.v
theories/KiopsFloat.v
theories/KiopsProofs.v
theories/KiopsAug.v
theories/KiopsCases.v
theories/KiopsProps.v
theories/InnerSpec.v
theories/InnerFacts.v
theories/GcrotModel.v
theories/GcrotSpec.v
theories/GcrotProofs.v
theories/GcrotCases.v
theories/GcrotProps.v
theories/FgmresModel.v
theories/FgmresFacts.v
theories/FgmresProofs.v
theories/FgmresCycle.v
theories/FgmresOuter.v
theories/FgmresProps.v
theories/SmoothModel.v
theories/MgModel.v
theories/MgSpec.v
theories/MgProofs.v
theories/MgLinear.v
theories/SmoothProofs.v
theories/MgProps.v
theories/ButcherTables.v
theories/ButcherModel.v
theories/ButcherSpec.v
theories/ButcherCheck.v
theories/ButcherNum.v
theories/ButcherLinear.v
theories/ButcherProofs.v
theories/ButcherData.v
theories/ButcherRefute.v
theories/ButcherProps.v
theories/PmexSpec.v
theories/PmexModel.v
theories/PmexProofs.v
theories/ExpmFacts.v
theories/PmexKrylov.v
theories/PmexCases.v
theories/PmexRotation.v
theories/ExpmMore.v
theories/PmexDefect.v
theories/PmexProps.v
theories/KiopsStats.v
theories/KiopsStatsProps.v
theories/KiopsLinear.v
theories/KiopsKrylov.v
theories/KiopsCase.v
theories/KiopsKrylovProps.v
theories/InitModel.v
theories/InitSpec.v
theories/InitProofs.v
theories/InitWave.v
theories/InitProps.v
theories/AtmoModel.v
theories/AtmoSpec.v
theories/AtmoProofs.v
theories/AtmoProps.v
theories/StartModel.v
theories/StartSpec.v
theories/StartProofs.v
theories/StartProps.v
theories/EulModel.v
theories/EulRhs.v
theories/EulSpec.v
theories/EulEdges.v
theories/EulIntegral.v
theories/EulGlobal.v
theories/EulProps.v
theories/EulCutSpec.v
theories/EulParallel.v
theories/EulParRhs.v
theories/FieldSpace3.v
theories/EulSteps.v
theories/EulParProps.v
theories/RNum.v
theories/GeoSolve.v
theories/EulRestSpec.v
theories/EulRest.v
theories/EulSymbols.v
theories/EulStill.v
theories/EulQuiet.v
theories/EulQuietCases.v
theories/EulQuietProps.v
theories/EulSlopes.v
theories/EulSlopeSpec.v
theories/EulSlopePar.v
theories/EulSymPar.v
theories/EulTerrain.v
theories/EulTerrainSpec.v
theories/EulTerrainProofs.v
theories/EulFlatEdges.v
theories/EulFlat.v
theories/EulTerrainAll.v
theories/EulTerrainCases.v
theories/EulTerrainProps.v
theories/EulItf.v
theories/EulItfCases.v
theories/EulItfProps.v
theories/ParSolveModel.v
theories/ParSolveSpec.v
theories/ParSolve.v
theories/ParSolveInst.v
theories/ParSolveCase.v
theories/ParPmex.v
theories/ParEpi.v
theories/ParSolveAll.v
theories/ParSolveProps.v
theories/ParNewtonModel.v
theories/ParExpModel.v
theories/ParNewtonSpec.v
theories/ParNewton.v
theories/ParExp.v
theories/ParNewtonOne.v
theories/ParNewtonCase.v
theories/ParNewtonAll.v
theories/ParNewtonProps.v
theories/SwSplitModel.v
theories/SwSplitSpec.v
theories/SwSplitProofs.v
theories/SwSplitFinal.v
theories/SwSplitProps.v
theories/AdvModel.v
theories/AdvSpec.v
theories/AdvSides.v
theories/AdvEdges.v
theories/AdvFinal.v
theories/AdvExact.v
theories/AdvProps.v
theories/PlnModel.v
theories/PlnSpec.v
theories/PlnFaces.v
theories/PlnTotal.v
theories/PlnFinal.v
theories/PlnExact.v
theories/PlnVolumes.v
theories/PlnMean.v
theories/PlnCases.v
theories/PlnProps.v
theories/SelModel.v
theories/SelSpec.v
theories/SelProofs.v
theories/SelFinal.v
theories/SelProps.v
theories/ExsModel.v
theories/ExsSpec.v
theories/ExsProofs.v
theories/ExsProps.v
theories/ModSolve.v
theories/SrerkModel.v
theories/SrerkSpec.v
theories/SrerkProofs.v
theories/SrerkNodes.v
theories/SrerkFacts.v
theories/SrerkProps.v
theories/NewtonModel.v
theories/NewtonSpec.v
theories/NewtonProofs.v
theories/NewtonProps.v
theories/StableModel.v
theories/StableSpec.v
theories/StableProofs.v
theories/StableOrder.v
theories/StableDamp.v
theories/StableProps.v
theories/AssembleModel.v
theories/AssembleSpec.v
theories/AssembleProofs.v
theories/AssembleSets.v
theories/AssembleCases.v
theories/AssembleProps.v
theories/LowsyncModel.v
theories/LowsyncSpec.v
theories/LowsyncProofs.v
theories/LowsyncFacts.v
theories/LowsyncFiles.v
theories/LowsyncPairs.v
theories/LowsyncCases.v
theories/LowsyncGs.v
theories/LowsyncMain.v
theories/LowsyncProps.v
theories/StatModel.v
theories/StatSpec.v
theories/StatProofs.v
theories/StatRuns.v
theories/StatMain.v
theories/StatProps.v
