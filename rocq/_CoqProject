-Q theories Verif
theories/Base.v
theories/LocModel.v
theories/LocSpec.v
theories/LocProofs.v
theories/LocProps.v
theories/Assoc.v
theories/RegModel.v
theories/RegSpec.v
theories/RegProofs.v
theories/RegProps.v
theories/AssetModel.v
theories/AssetSpec.v
theories/AssetProofs.v
theories/AssetHeapProofs.v
theories/AssetLoadProofs.v
theories/AssetExamples.v
theories/AssetProps.v
theories/CodecModel.v
theories/CodecSpec.v
theories/CodecProofs.v
theories/CodecProps.v
theories/SerialModel.v
theories/SerialSpec.v
theories/SerialProofs.v
theories/SerialProps.v
theories/JsonModel.v
theories/JsonSpec.v
theories/JsonProofs.v
theories/JsonProps.v
theories/SceneModel.v
theories/SceneSpec.v
theories/SceneProofs.v
theories/SceneOpsProofs.v
theories/RBase.v
theories/SelectModel.v
theories/SelectProofs.v
theories/SceneProps.v
theories/SceneCheckProofs.v
theories/SceneCheckProps.v
theories/ParModel.v
theories/ParSpec.v
theories/ParProofs.v
theories/ParProps.v
theories/SchedModel.v
theories/SchedSpec.v
theories/SchedProofs.v
theories/SchedProps.v
theories/VecBase.v
theories/CasModel.v
theories/CasSpec.v
theories/CasProofs.v
theories/CasProps.v
theories/FilmModel.v
theories/FilmSpec.v
theories/FilmProofs.v
theories/FilmProps.v
theories/DistModel.v
theories/DistSpec.v
theories/DistProofs.v
theories/DistProps.v
theories/GeoModel.v
theories/GeoSpec.v
theories/GeoProofs.v
theories/GeoProps.v
theories/BvhModel.v
theories/BvhSpec.v
theories/BvhProofs.v
theories/BvhQueryProofs.v
theories/BvhDeepProofs.v
theories/BvhProps.v
theories/SurfModel.v
theories/SurfSpec.v
theories/SurfProofs.v
theories/SurfWarpProofs.v
theories/SurfProps.v
theories/LogModel.v
theories/LogSpec.v
theories/LogProofs.v
theories/LogProps.v
theories/ObjModel.v
theories/ObjSpec.v
theories/ObjProofs.v
theories/ObjLoadProofs.v
theories/MeshModel.v
theories/MeshSpec.v
theories/MeshProofs.v
theories/ObjProps.v
theories/MeshProps.v
theories/MatModel.v
theories/MatSpec.v
theories/MatProofs.v
theories/MatProps.v
theories/CamModel.v
theories/CamSpec.v
theories/CamProofs.v
theories/CamProps.v
theories/TexModel.v
theories/TexProps.v
theories/LightModel.v
theories/LightSpec.v
theories/LightProofs.v
theories/LightProps.v
theories/PhaseModel.v
theories/PhaseProps.v
theories/PathModel.v
theories/PathSpec.v
theories/PathProofs.v
theories/PathProps.v
theories/VolModel.v
theories/VolSpec.v
theories/VolProofs.v
theories/VolMediaProofs.v
theories/VolProps.v
theories/VolExpectSpec.v
theories/VolExpectProofs.v
theories/VolPieceProofs.v
theories/VolRayProofs.v
theories/VolTrackProofs.v
theories/VolExpectProps.v
theories/VisModel.v
theories/VisSpec.v
theories/VisProofs.v
theories/VisHitProofs.v
theories/VisProps.v
theories/BidirModel.v
theories/BidirSpec.v
theories/BidirProofs.v
theories/BidirProps.v
theories/BdptModel.v
theories/BdptSpec.v
theories/BdptProofs.v
theories/BdptWeights.v
theories/UnitProps.v
theories/BdptScene.v
theories/BdptProps.v
theories/BdptSampleProps.v
theories/AreaProps.v
theories/RenderModel.v
theories/ExpSpec.v
theories/ExpProofs.v
theories/PtProofs.v
theories/PtToy.v
theories/PtProps.v
theories/RenderSpec.v
theories/RenderProps.v
theories/ClassModel.v
theories/ClassSpec.v
theories/ClassProps.v
theories/SaveModel.v
theories/SaveSpec.v
theories/SaveProps.v
theories/ObjAssetModel.v
theories/ObjAssetSpec.v
theories/ObjAssetProps.v
theories/ContrbSpec.v
theories/ContrbProofs.v
theories/ContrbProps.v
theories/RngModel.v
theories/RngSpec.v
theories/RngProofs.v
theories/RngProps.v
theories/AccelModel.v
theories/AccelSpec.v
theories/AccelProofs.v
theories/AccelProps.v
theories/PbrtModel.v
theories/PbrtSpec.v
theories/PbrtProofs.v
theories/PbrtProps.v
theories/PathRendModel.v
theories/PathRendSpec.v
theories/PathRendProofs.v
theories/PathRendProps.v
theories/VolPtSpec.v
theories/VolPtProofs.v
theories/VolPtProps.v
theories/LtProofs.v
theories/LtProps.v
theories/ImageModel.v
theories/ImageSpec.v
theories/ImageProps.v
theories/PyModel.v
theories/PySpec.v
theories/PyProofs.v
theories/PyProps.v
theories/UnderModel.v
theories/UnderSpec.v
theories/UnderProps.v
theories/TreeModel.v
theories/TreeSpec.v
theories/TreeProps.v
theories/MarchModel.v
theories/MarchSpec.v
theories/MarchProps.v
theories/TrampModel.v
theories/TrampSpec.v
theories/TrampProps.v
theories/HoldSpec.v
theories/HoldModel.v
theories/HoldProps.v
theories/GilModel.v
theories/GilSpec.v
theories/GilProps.v
theories/ViewModel.v
theories/ViewSpec.v
theories/ViewProps.v
theories/AoModel.v
theories/AoSpec.v
theories/AoProps.v
theories/FltModel.v
theories/FltProofs.v
theories/FDistModel.v
theories/FDistSpec.v
theories/FDistProofs.v
theories/FDistProps.v
theories/FBoundModel.v
theories/FBoundSpec.v
theories/FBoundProofs.v
theories/FBoundProps.v
theories/FFilmModel.v
theories/FFilmSpec.v
theories/FFilmProofs.v
theories/FFilmProps.v
theories/FBvhModel.v
theories/FBvhSpec.v
theories/FBvhProofs.v
theories/FBvhProps.v
theories/FDirModel.v
theories/FDirSpec.v
theories/FDirProofs.v
theories/FDirProps.v
theories/FMathModel.v
theories/FMathProofs.v
theories/FMathProps.v
theories/CallModel.v
theories/CallSpec.v
theories/CallProofs.v
theories/CallProps.v
theories/FTreeModel.v
theories/FTreeProofs.v
theories/FTreeProps.v
theories/FRasterModel.v
theories/FRasterSpec.v
theories/FRasterProofs.v
theories/FRasterProps.v
theories/PMeshModel.v
theories/PMeshSpec.v
theories/PMeshProps.v
theories/FCamModel.v
theories/FCamSpec.v
theories/FCamProofs.v
theories/FCamProps.v
theories/RGilModel.v
theories/RGilSpec.v
theories/RGilProofs.v
theories/RGilProps.v
theories/JupModel.v
theories/JupSpec.v
theories/JupProps.v
theories/FTriModel.v
theories/FTriSpec.v
theories/FTriProofs.v
theories/FTriProps.v
theories/FGtermModel.v
theories/FGtermSpec.v
theories/FGtermProofs.v
theories/FGtermProps.v
theories/FTexModel.v
theories/FTexSpec.v
theories/FTexProofs.v
theories/FTexProps.v
theories/VdbModel.v
theories/VdbSpec.v
theories/VdbProofs.v
theories/VdbProps.v
theories/FHitSpec.v
theories/FHitProofs.v
theories/FHitProps.v
theories/EmbModel.v
theories/EmbSpec.v
theories/EmbProps.v
theories/ArgsModel.v
theories/ArgsSpec.v
theories/ArgsProofs.v
theories/ArgsProps.v
theories/FSaveModel.v
theories/FSaveSpec.v
theories/FSaveProofs.v
theories/FSaveProps.v
theories/TinyModel.v
theories/TinySpec.v
theories/TinyProofs.v
theories/TinyProps.v
theories/FMultiModel.v
theories/FMultiSpec.v
theories/FMultiProofs.v
theories/FMultiProps.v
theories/FPdfModel.v
theories/FPdfSpec.v
theories/FPdfProps.v
theories/EtaModel.v
theories/EtaSpec.v
theories/EtaProps.v
theories/FGaussModel.v
theories/FGaussSpec.v
theories/FGaussProps.v
