-Q theories Verif
theories/Base.v
theories/Lattice.v
theories/Paths.v
theories/RhgModel.v
theories/RhgSpec.v
theories/RhgProofs.v
theories/RhgDegree.v
theories/PropsRhg.v
theories/SurfaceModel.v
theories/SurfaceSpec.v
theories/SurfaceProofs.v
theories/SurfaceIncidence.v
theories/SurfaceTheorems.v
theories/SurfaceGauge.v
theories/StabGraphModel.v
theories/BackendModel.v
theories/BackendSpec.v
theories/BackendProofs.v
theories/Complex.v
theories/SurfaceComplex.v
theories/PropsSurface.v
theories/PropsBackend.v
theories/PropsBackend2.v
theories/MwpmModel.v
theories/MwpmProofs.v
theories/MwpmInst.v
theories/MwpmSides.v
theories/MwpmLemon.v
theories/PropsMwpm.v
theories/PropsMwpm2.v
theories/MwpmFloat.v
theories/MwpmApprox.v
theories/PropsLemon.v
theories/UfModel.v
theories/UfTrees.v
theories/UfSpec.v
theories/UfPeel.v
theories/PropsUfTrees.v
theories/UfGrow.v
theories/UfSync.v
theories/UfArcs.v
theories/UfDistance.v
theories/UfDecode.v
theories/UfInst.v
theories/PropsUf.v
theories/UfGeometry.v
theories/UfDet.v
theories/PropsUfDist.v
theories/GkpModel.v
theories/PropsGkp.v
theories/OpsModel.v
theories/PropsOps.v
theories/WeightModel.v
theories/PropsWeight.v
theories/LinModel.v
theories/LinSpec.v
theories/LinProofs.v
theories/LinNull.v
theories/LinLc.v
theories/PropsLin.v
theories/EgraphModel.v
theories/EgraphSpec.v
theories/EgraphProofs.v
theories/EgraphInv.v
theories/PropsEgraph.v
theories/MacroModel.v
theories/MacroSpec.v
theories/MacroArith.v
theories/MacroProofs.v
theories/MacroMain.v
theories/PropsMacro.v
theories/CvModel.v
theories/CvSpec.v
theories/CvProofs.v
theories/CvNoise.v
theories/PropsCv.v
theories/CvSurface.v
theories/PropsSlice.v
theories/PropsCv2.v
theories/CvMacroModel.v
theories/CvMacroLists.v
theories/CvMacroSpec.v
theories/CvMacroProofs.v
theories/CvMacroTrial.v
theories/CvMacroReduce.v
theories/CvMacroMath.v
theories/CvMacroSurface.v
theories/CvMacroInit.v
theories/CvMacroCode.v
theories/CvMacroGauge.v
theories/PropsCvMacro.v
theories/SimModel.v
theories/SimSpec.v
theories/SimProofs.v
theories/SimTrial.v
theories/PropsSim.v
theories/PropsSimUf.v
theories/PropsGauge.v
theories/Homology.v
theories/Homology2.v
theories/PropsHomology.v
theories/PropsCvDecode.v
theories/SimCsv.v
theories/PropsCsv.v
theories/GraphStateModel.v
theories/GraphStateSpec.v
theories/GraphStateProofs.v
theories/PropsGraphState.v
theories/DrawModel.v
theories/DrawProofs.v
theories/PropsDraw.v
theories/PropsCount.v
theories/CvTrial.v
theories/PropsCountCv.v
theories/TickModel.v
theories/PropsTicks.v
theories/VizModel.v
theories/PropsViz.v
theories/PropsViz2.v
theories/PropsViz3.v
theories/PropsCountState.v
theories/PropsText.v
theories/PropsText2.v
theories/PropsGkp2.v
theories/PropsCountCvState.v
theories/PropsMacroValues.v
theories/CvMacroCount.v
theories/PropsCountMacro.v
theories/FullModel.v
theories/PropsFull.v
theories/GetterModel.v
theories/PropsGetters.v
theories/LcPivot.v
theories/LcGraphs.v
theories/LcGraphs2.v
theories/LcNamedModel.v
theories/LcNamedSpec.v
theories/PropsLcNamed.v
theories/PropsThin.v
theories/CountDraws.v
theories/PropsIidRate.v
theories/PropsLimits.v
theories/ArgModel.v
theories/PropsArgs.v
theories/GkpFloat.v
theories/PropsGkpFloat.v
theories/PropsSwap.v
theories/PropsSwapMacro.v
theories/PropsGkp3.v
theories/SeedModel.v
theories/PropsSeed.v
theories/PropsBinomial.v
theories/OpsNdModel.v
theories/PropsOpsNd.v
theories/WeightedModel.v
theories/PropsWeighted.v
theories/Walks.v
theories/PropsThreshold.v
theories/PropsConverge.v
theories/PropsRounds.v
theories/PropsEnumerator.v
theories/ScriptModel.v
theories/PropsScript.v
theories/SymSpec.v
theories/SymProofs.v
theories/PropsSym.v
theories/ExampleModel.v
theories/PropsExample.v
