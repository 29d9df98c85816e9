-Q theories Verif
theories/Np.v
theories/NpFacts.v
theories/MeshModel.v
theories/MeshSpec.v
theories/MeshProofs.v
theories/CompletionProofs.v
theories/FaceProofs.v
theories/FacialProofs.v
theories/MeshExamples.v
theories/MeshProps.v
theories/MeshStateModel.v
theories/MeshStateSpec.v
theories/MeshStateProofs.v
theories/MeshStateProps.v
theories/PartModel.v
theories/PartSpec.v
theories/PartProofs.v
theories/PartFilterProofs.v
theories/PartAdjProofs.v
theories/PartMainProofs.v
theories/PartProps.v
theories/Lin.v
theories/ProcModel.v
theories/ProcSpec.v
theories/MergeProofs.v
theories/SplitProofs.v
theories/UnusedProofs.v
theories/FlipProofs.v
theories/OrientProofs.v
theories/BoxMapProofs.v
theories/ProcProps.v
theories/AffineModel.v
theories/AffineSpec.v
theories/AffineProofs.v
theories/GridProofs.v
theories/AffineProps.v
theories/Ord.v
theories/PointModel.v
theories/PointSpec.v
theories/PointProofs.v
theories/PointProps.v
theories/GlueModel.v
theories/GlueSpec.v
theories/GlueProofs.v
theories/GlueProps.v
theories/RefineModel.v
theories/RefineSpec.v
theories/RefineProofs.v
theories/TessProofs.v
theories/RefineProps.v
theories/DofModel.v
theories/DofSpec.v
theories/DofProofs.v
theories/DofProps.v
theories/ConnModel.v
theories/ConnSpec.v
theories/ConnProofs.v
theories/ConnMatProofs.v
theories/ConnFlatProofs.v
theories/ConnMoreProofs.v
theories/ConnProps.v
theories/FaceConnModel.v
theories/FaceConnSpec.v
theories/RestrProofs.v
theories/FaceValProofs.v
theories/FaceEmbProofs.v
theories/FaceConnProps.v
theories/CrossProofs.v
theories/OppProofs.v
theories/OppMainProofs.v
theories/OppValProofs.v
theories/OppProps.v
theories/PartConnSpec.v
theories/PartConnProofs.v
theories/PartValProofs.v
theories/PartOutProofs.v
theories/PartConnProps.v
theories/DistModel.v
theories/DistSpec.v
theories/DistProofs.v
theories/DistNetProofs.v
theories/DistGraphProofs.v
theories/DistMainProofs.v
theories/DistProps.v
theories/BoxModel.v
theories/BoxSpec.v
theories/BoxIndexProofs.v
theories/BoxConfProofs.v
theories/BoxTagProofs.v
theories/BoxProofs.v
theories/BoxMeshProofs.v
theories/BoxGeomProofs.v
theories/BoxTileProofs.v
theories/QcOrd.v
theories/BoxProps.v
theories/SurfModel.v
theories/SurfSpec.v
theories/SurfProofs.v
theories/SurfRevProofs.v
theories/SurfGeomProofs.v
theories/SurfProps.v
theories/QcMean.v
theories/VisModel.v
theories/VisSpec.v
theories/VisProofs.v
theories/VisProps.v
theories/GmshModel.v
theories/GmshSpec.v
theories/GmshProofs.v
theories/GmshMeshProofs.v
theories/GmshProps.v
theories/ModalModel.v
theories/ModalSpec.v
theories/ModalProofs.v
theories/ModalSumProofs.v
theories/ModalL2Proofs.v
theories/ModalProps.v
theories/ModalMoreProps.v
theories/ConsistModel.v
theories/ConsistSpec.v
theories/ConsistProofs.v
theories/ConsistMainProofs.v
theories/ConsistForcedProofs.v
theories/ConsistAffProofs.v
theories/ConsistProps.v
theories/FdModel.v
theories/FdSpec.v
theories/FdProofs.v
theories/FdImportProofs.v
theories/FdFacialProofs.v
theories/FdMainProofs.v
theories/FdProps.v
theories/FdConnModel.v
theories/FdConnSpec.v
theories/FdConnProofs.v
theories/FdConnMainProofs.v
theories/FdConnExportProofs.v
theories/FdConnFromProofs.v
theories/FdConnRefProofs.v
theories/FdConnProps.v
theories/ROrd.v
theories/GenModel.v
theories/GenSpec.v
theories/GenGroupProofs.v
theories/GenSphereProofs.v
theories/GenRefineProofs.v
theories/GenSphereMain.v
theories/GenCurveProofs.v
theories/GenIoProofs.v
theories/GenProps.v
theories/GenExamples.v
theories/VisIoModel.v
theories/VisIoSpec.v
theories/VisIoFieldProofs.v
theories/VisIoXdmfProofs.v
theories/VisIoFileProofs.v
theories/VisIoMakeProofs.v
theories/VisIoVertexProofs.v
theories/VisIoProps.v
theories/TFlipModel.v
theories/TFlipSpec.v
theories/TFlipProofs.v
theories/TFlipProps.v
theories/RGeoModel.v
theories/RGeoSpec.v
theories/RGeoProofs.v
theories/RGeoMainProofs.v
theories/RGeoProps.v
theories/GNModel.v
theories/GNSpec.v
theories/GNProofs.v
theories/GNProps.v
theories/LoopyModel.v
theories/LoopySpec.v
theories/LoopyProofs.v
theories/LoopyProps.v
theories/IbopModel.v
theories/IbopSpec.v
theories/IbopProofs.v
theories/IbopProps.v
theories/LookupModel.v
theories/LookupSpec.v
theories/LookupProofs.v
theories/LookupProps.v
theories/CheckModel.v
theories/CheckProps.v
theories/CurveModel.v
theories/CurveSpec.v
theories/CurveProofs.v
theories/CurveProps.v
theories/QuadModel.v
theories/QuadSpec.v
theories/QuadProofs.v
theories/QuadProps.v
theories/FactoryModel.v
theories/FactorySpec.v
theories/FactoryProofs.v
theories/FactoryProps.v
theories/ShapeModel.v
theories/ShapeSpec.v
theories/ShapeProofs.v
theories/ShapeProps.v
theories/NdgModel.v
theories/NdgSpec.v
theories/NdgProofs.v
theories/NdgProps.v
theories/NadjModel.v
theories/NadjSpec.v
theories/NadjProofs.v
theories/NadjProps.v
theories/FdValModel.v
theories/FdFactoryModel.v
theories/FdValSpec.v
theories/FdValProofs.v
theories/FdValProps.v
theories/EqModel.v
theories/EqSpec.v
theories/EqProofs.v
theories/EqProps.v
theories/DrawModel.v
theories/DrawSpec.v
theories/DrawProofs.v
theories/DrawProps.v
theories/GmshRunModel.v
theories/GmshRunSpec.v
theories/GmshRunProofs.v
theories/GmshRunProps.v
theories/ShowModel.v
theories/ShowSpec.v
theories/ShowProofs.v
theories/ShowProps.v
theories/TightProps.v
theories/NodesModel.v
theories/NodesSpec.v
theories/NodesProofs.v
theories/NodesProps.v
theories/AsPyModel.v
theories/AsPySpec.v
theories/AsPyProofs.v
theories/AsPyProps.v
theories/MiscModel.v
theories/MiscSpec.v
theories/MiscProofs.v
theories/MiscProps.v
theories/GridTightProps.v
theories/LawsSpec.v
theories/LawsProofs.v
theories/LawsProps.v
theories/IterProofs.v
theories/IterProps.v
theories/OnePartProofs.v
theories/OnePartProps.v
theories/ReunionProofs.v
theories/ReunionProps.v
theories/PartLawsProofs.v
theories/PartLawsProps.v
theories/MergeLawsProps.v
theories/QueryLawsProps.v
