-Q theories Verif
theories/BallProofs.v
theories/BallProperties.v
theories/BallSpec.v
theories/BananaExamples.v
theories/BananaLegacyProofs.v
theories/BananaModel.v
theories/BananaProofs.v
theories/BananaProperties.v
theories/BananaRodProofs.v
theories/BananaShapeProofs.v
theories/BananaSpec.v
theories/BeadsChainProofs.v
theories/BeadsModel.v
theories/BeadsProofs.v
theories/BeadsProperties.v
theories/BeadsSpec.v
theories/BeadsTipProofs.v
theories/BinsAverageProofs.v
theories/BinsModel.v
theories/BinsProofs.v
theories/BinsProperties.v
theories/BinsSpec.v
theories/BinsTotalProofs.v
theories/BondModel.v
theories/BondOrderProofs.v
theories/BondProofs.v
theories/BondProperties.v
theories/BondSpec.v
theories/BoxModel.v
theories/BoxProofs.v
theories/BoxProperties.v
theories/BoxSpec.v
theories/CellArrangeProofs.v
theories/CellExamples.v
theories/CellKindProofs.v
theories/CellLatticeProofs.v
theories/CellModel.v
theories/CellProofs.v
theories/CellProperties.v
theories/CellSpec.v
theories/CollideBodyProofs.v
theories/CollideExamples.v
theories/CollideModel.v
theories/CollideProofs.v
theories/CollideProperties.v
theories/CollideSpec.v
theories/ConfigExamples.v
theories/ConfigFinalProofs.v
theories/ConfigModel.v
theories/ConfigProofs.v
theories/ConfigProperties.v
theories/ConfigSpec.v
theories/ConvexExamples.v
theories/ConvexMatchProofs.v
theories/ConvexMeanProofs.v
theories/ConvexModel.v
theories/ConvexProperties.v
theories/ConvexShapeProofs.v
theories/ConvexSpec.v
theories/CorrEnumProofs.v
theories/CorrEvolProofs.v
theories/CorrExamples.v
theories/CorrFindProofs.v
theories/CorrHistProofs.v
theories/CorrMeanProofs.v
theories/CorrModel.v
theories/CorrProofs.v
theories/CorrProperties.v
theories/CorrSelfProofs.v
theories/CorrSpec.v
theories/CorrWholeProofs.v
theories/DimsModel.v
theories/DimsProofs.v
theories/DimsProperties.v
theories/DimsSpec.v
theories/DistExamples.v
theories/DistModel.v
theories/DistProofs.v
theories/DistProperties.v
theories/DistSpec.v
theories/DomDecProofs.v
theories/DomExamples.v
theories/DomFinalProofs.v
theories/DomModel.v
theories/DomMoreProofs.v
theories/DomProofs.v
theories/DomProperties.v
theories/DomRunFinalProofs.v
theories/DomRunProofs.v
theories/DomSpec.v
theories/DynModel.v
theories/DynProofs.v
theories/DynProperties.v
theories/DynSpec.v
theories/FactoryExamples.v
theories/FactoryFinalProofs.v
theories/FactoryModel.v
theories/FactoryProofs.v
theories/FactoryProperties.v
theories/FactorySpec.v
theories/GeoAxisProofs.v
theories/GeoModel.v
theories/GeoProofs.v
theories/GeoProperties.v
theories/GeoShapesProofs.v
theories/GeoSpec.v
theories/GeomModel.v
theories/GeomProofs.v
theories/HistModel.v
theories/HistProofs.v
theories/HistProperties.v
theories/HistSpec.v
theories/InputCallProofs.v
theories/InputExamples.v
theories/InputModel.v
theories/InputParseProofs.v
theories/InputPartProofs.v
theories/InputProperties.v
theories/InputRunProofs.v
theories/InputSpec.v
theories/InterEnergyProofs.v
theories/InterExamples.v
theories/InterModel.v
theories/InterProofs.v
theories/InterProperties.v
theories/InterSpec.v
theories/LatticeExamples.v
theories/LatticeModel.v
theories/LatticeNormProofs.v
theories/LatticeProofs.v
theories/LatticeProperties.v
theories/LatticeSpec.v
theories/LegacyArrangeExamples.v
theories/LegacyArrangeModel.v
theories/LegacyArrangeProofs.v
theories/LegacyArrangeProperties.v
theories/LegacyArrangeSpec.v
theories/LegacyCommandProofs.v
theories/LegacyExamples.v
theories/LegacyFinalProofs.v
theories/LegacyModel.v
theories/LegacyProofs.v
theories/LegacyProperties.v
theories/LegacyShapeProofs.v
theories/LegacySpec.v
theories/LinesModel.v
theories/LinesProofs.v
theories/LinesProperties.v
theories/LinesSpec.v
theories/LoadExamples.v
theories/LoadHistoryProofs.v
theories/LoadModel.v
theories/LoadProofs.v
theories/LoadProperties.v
theories/LoadRunProofs.v
theories/LoadSpec.v
theories/MatchExamples.v
theories/MatchModel.v
theories/MatchProofs.v
theories/MatchProperties.v
theories/MatchSpec.v
theories/MeshExamples.v
theories/MeshHullProofs.v
theories/MeshListProofs.v
theories/MeshModel.v
theories/MeshProofs.v
theories/MeshProperties.v
theories/MeshSpec.v
theories/NGGeomProofs.v
theories/NGListProofs.v
theories/NGModel.v
theories/NGPairProofs.v
theories/NGProofs.v
theories/NGProperties.v
theories/NGSpec.v
theories/NematicModel.v
theories/NematicProofs.v
theories/NematicProperties.v
theories/NematicSpec.v
theories/ObsExamples.v
theories/ObsFinalProofs.v
theories/ObsModel.v
theories/ObsProofs.v
theories/ObsProperties.v
theories/ObsSpec.v
theories/OptModel.v
theories/OrthoExamples.v
theories/OrthoFinalProofs.v
theories/OrthoModel.v
theories/OrthoProofs.v
theories/OrthoProperties.v
theories/OrthoSpec.v
theories/PackContactProofs.v
theories/PackCountProofs.v
theories/PackExamples.v
theories/PackFinalProofs.v
theories/PackGridProofs.v
theories/PackHistProofs.v
theories/PackInvProofs.v
theories/PackModel.v
theories/PackProofs.v
theories/PackProperties.v
theories/PackSpec.v
theories/PackSumProofs.v
theories/PackTotalProofs.v
theories/ParModel.v
theories/ParProofs.v
theories/PbcDistProofs.v
theories/PbcDistSpec.v
theories/PbcModel.v
theories/PbcProofs.v
theories/PbcProperties.v
theories/PbcSpec.v
theories/PbcTotalModel.v
theories/PrintExamples.v
theories/PrintModel.v
theories/PrintObjProofs.v
theories/PrintParseProofs.v
theories/PrintProofs.v
theories/PrintProperties.v
theories/PrintSpec.v
theories/PyonExprProofs.v
theories/PyonFinalProofs.v
theories/PyonFloatProofs.v
theories/PyonLexProofs.v
theories/PyonModel.v
theories/PyonNumProofs.v
theories/PyonPrintProofs.v
theories/PyonPrintSpec.v
theories/PyonProofs.v
theories/PyonProperties.v
theories/PyonSoundProofs.v
theories/PyonSpec.v
theories/QuantityModel.v
theories/QuantityProofs.v
theories/QuantityProperties.v
theories/QuantitySpec.v
theories/RFloorModel.v
theories/RFloorProofs.v
theories/RamsnapExamples.v
theories/RamsnapFinalProofs.v
theories/RamsnapModel.v
theories/RamsnapProofs.v
theories/RamsnapProperties.v
theories/RamsnapSpec.v
theories/ReplayExamples.v
theories/ReplayModeProofs.v
theories/ReplayModel.v
theories/ReplayMoreProofs.v
theories/ReplayProofs.v
theories/ReplayProperties.v
theories/ReplaySpec.v
theories/ReplayStageProofs.v
theories/RotFlipProofs.v
theories/RotModel.v
theories/RotProofs.v
theories/RotProperties.v
theories/RotQuatProofs.v
theories/RotSpec.v
theories/ScalingBoxProofs.v
theories/ScalingModel.v
theories/ScalingProofs.v
theories/ScalingProperties.v
theories/ScalingSpec.v
theories/SegErrorProofs.v
theories/SegExamples.v
theories/SegModel.v
theories/SegProofs.v
theories/SegProperties.v
theories/SegSpec.v
theories/ShapesExamples.v
theories/ShapesModel.v
theories/ShapesProofs.v
theories/ShapesProperties.v
theories/ShapesSpec.v
theories/ShrinkCellProofs.v
theories/ShrinkExamples.v
theories/ShrinkLayerProofs.v
theories/ShrinkModel.v
theories/ShrinkProofs.v
theories/ShrinkProperties.v
theories/ShrinkSpec.v
theories/ShrinkWholeProofs.v
theories/SimCycleProofs.v
theories/SimEnvProofs.v
theories/SimExamples.v
theories/SimFinalProofs.v
theories/SimIntegrateProofs.v
theories/SimModel.v
theories/SimMoveProofs.v
theories/SimPlanProofs.v
theories/SimPropProofs.v
theories/SimProperties.v
theories/SimRunProofs.v
theories/SimRunSpec.v
theories/SimSpec.v
theories/SimStateProofs.v
theories/SmecticModel.v
theories/SmecticProofs.v
theories/SmecticProperties.v
theories/SmecticSpec.v
theories/StringsModel.v
theories/StringsProofs.v
theories/StringsProperties.v
theories/StringsSpec.v
theories/TextModel.v
theories/TextProofs.v
theories/TrackerExamples.v
theories/TrackerMaxProofs.v
theories/TrackerModel.v
theories/TrackerMoveProofs.v
theories/TrackerProofs.v
theories/TrackerProperties.v
theories/TrackerSpaceProofs.v
theories/TrackerSpec.v
theories/TrackerWholeProofs.v
theories/TransColumnProofs.v
theories/TransExamples.v
theories/TransLayerProofs.v
theories/TransModel.v
theories/TransProofs.v
theories/TransProperties.v
theories/TransSpec.v
theories/TransTurnProofs.v
theories/TransWholeProofs.v
theories/TrjExamples.v
theories/TrjModel.v
theories/TrjPlayProofs.v
theories/TrjProofs.v
theories/TrjPropProofs.v
theories/TrjProperties.v
theories/TrjRecProofs.v
theories/TrjSpec.v
theories/VolProofs.v
theories/VolSpec.v
theories/WallExamples.v
theories/WallHistProofs.v
theories/WallProofs.v
theories/WallProperties.v
theories/WallShapesProofs.v
theories/WallSpec.v
theories/WedgeFlatProofs.v
theories/WedgeModel.v
theories/WedgePartProofs.v
theories/WedgeProofs.v
theories/WedgeProperties.v
theories/WedgeSpec.v
theories/WedgeWholeProofs.v
theories/XcBuildProofs.v
theories/XcExamples.v
theories/XcMaxProofs.v
theories/XcModel.v
theories/XcOpProofs.v
theories/XcPrimProofs.v
theories/XcProperties.v
theories/XcRoundProofs.v
theories/XcSpec.v
theories/XyzCutProofs.v
theories/XyzExamples.v
theories/XyzHistProofs.v
theories/XyzModel.v
theories/XyzProperties.v
theories/XyzRecProofs.v
theories/XyzSpec.v
theories/XyzTextProofs.v
