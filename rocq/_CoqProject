-Q theories Verif
theories/AngleModel.v
theories/AngleProps.v
theories/AnimChannelProofs.v
theories/AnimLoadProofs.v
theories/AnimModel.v
theories/AnimProps.v
theories/AnimReadProofs.v
theories/AnimRoundProofs.v
theories/AnimSafeProps.v
theories/AnimSpec.v
theories/AnimWriteProofs.v
theories/AssetModel.v
theories/AssetProofs.v
theories/AssetProps.v
theories/AssetSpec.v
theories/AssetWriteProofs.v
theories/AxisAgainProofs.v
theories/AxisAgainProps.v
theories/AxisAssetProps.v
theories/AxisEntityProofs.v
theories/AxisModel.v
theories/AxisNodeProofs.v
theories/AxisProofs.v
theories/AxisProps.v
theories/AxisSceneProofs.v
theories/AxisSpec.v
theories/AxisWorldProofs.v
theories/Base64Model.v
theories/Base64Proofs.v
theories/Base64Props.v
theories/Base64Spec.v
theories/BodyModel.v
theories/BodyProps.v
theories/BoxModel.v
theories/BoxProofs.v
theories/BoxProps.v
theories/BuilderModel.v
theories/BuilderProofs.v
theories/BuilderProps.v
theories/BuilderSpec.v
theories/ColorModel.v
theories/ColorProps.v
theories/ControlModel.v
theories/ControlProofs.v
theories/ControlProps.v
theories/ControlSpec.v
theories/ControlSteps.v
theories/CrcModel.v
theories/CrcProps.v
theories/CrcSpec.v
theories/CurveModel.v
theories/CurveMoreProofs.v
theories/CurveProofs.v
theories/CurveProps.v
theories/CurveSpec.v
theories/CustomModel.v
theories/CustomNoteProofs.v
theories/CustomProofs.v
theories/CustomProps.v
theories/CustomReadProofs.v
theories/CustomSpec.v
theories/DaeDocSpec.v
theories/DaeImportProofs.v
theories/DaeImportProps.v
theories/DaeInputProofs.v
theories/DaeMainProofs.v
theories/DaeModel.v
theories/DaeProofs.v
theories/DaeProps.v
theories/DaeReadProofs.v
theories/DaeRoundProofs.v
theories/DaeSpec.v
theories/EnumModel.v
theories/EnumProps.v
theories/EventModel.v
theories/EventProps.v
theories/ExtraModel.v
theories/ExtraProps.v
theories/FileModel.v
theories/FileProps.v
theories/FitModel.v
theories/FitProps.v
theories/FloatModel.v
theories/FloatProofs.v
theories/FloatProps.v
theories/FloatSpec.v
theories/FloatWrite.v
theories/IdModel.v
theories/IdProofs.v
theories/IdProps.v
theories/InterleaveProofs.v
theories/JointModel.v
theories/JointProps.v
theories/JointSpec.v
theories/LampCameraProofs.v
theories/LampCameraProps.v
theories/LampModel.v
theories/LampProofs.v
theories/LampProps.v
theories/LampSafeProofs.v
theories/LampSpec.v
theories/LampWriteProofs.v
theories/MatrixModel.v
theories/MatrixProps.v
theories/MeshCopyModel.v
theories/MeshCopyProps.v
theories/MeshModel.v
theories/MeshProps.v
theories/MeshReadProofs.v
theories/MeshSpec.v
theories/MeshWriteProofs.v
theories/NodeFindProofs.v
theories/NodeLibProofs.v
theories/NodeLoadProofs.v
theories/NodeModel.v
theories/NodeProps.v
theories/NodeRoundProofs.v
theories/NodeSafeProofs.v
theories/NodeSpec.v
theories/NodeTextProofs.v
theories/NodeWriteProofs.v
theories/OwnerModel.v
theories/OwnerProofs.v
theories/OwnerProps.v
theories/OwnerSpec.v
theories/PackModel.v
theories/PackProps.v
theories/ParamModel.v
theories/ParamProofs.v
theories/ParamProps.v
theories/ParamRun.v
theories/ParamSpec.v
theories/ParamSteps.v
theories/PolyModel.v
theories/PolyProofs.v
theories/PolyProps.v
theories/PolySpec.v
theories/QuatModel.v
theories/QuatProps.v
theories/RefModel.v
theories/RefProofs.v
theories/RefProps.v
theories/ReindexModel.v
theories/ReindexProofs.v
theories/ReindexProps.v
theories/RigModel.v
theories/RigProofs.v
theories/RigProps.v
theories/RigSafeProps.v
theories/RigSpec.v
theories/RigTextProofs.v
theories/RigWriteProofs.v
theories/RotDecompose.v
theories/RotModel.v
theories/RotProofs.v
theories/RotProps.v
theories/RotView.v
theories/ScalarModel.v
theories/ScalarProps.v
theories/SceneIterProofs.v
theories/SceneModel.v
theories/SceneProofs.v
theories/SceneProps.v
theories/SceneSpec.v
theories/ShadeImportProps.v
theories/ShadeModel.v
theories/ShadeProofs.v
theories/ShadeProps.v
theories/ShadeSpec.v
theories/ShadeWriteProofs.v
theories/SkinModel.v
theories/SkinProps.v
theories/SolidModel.v
theories/SolidProps.v
theories/SolidSpec.v
theories/SolidVolumeProps.v
theories/SortModel.v
theories/SortProofs.v
theories/SortProps.v
theories/SphereModel.v
theories/SphereProofs.v
theories/SphereProps.v
theories/SplineModel.v
theories/SplineProps.v
theories/StringModel.v
theories/StringProofs.v
theories/StringProps.v
theories/StringSpec.v
theories/SubIdModel.v
theories/SubIdProofs.v
theories/SubIdProps.v
theories/TargetModel.v
theories/TargetProps.v
theories/TextModel.v
theories/TextProofs.v
theories/TextProps.v
theories/TextSpec.v
theories/TrackerModel.v
theories/TrackerProofs.v
theories/TrackerProps.v
theories/TrackerSpec.v
theories/TransformModel.v
theories/TransformProps.v
theories/TreeModel.v
theories/TreeProofs.v
theories/TreeProps.v
theories/TreeSpec.v
theories/TriModel.v
theories/TriProps.v
theories/TypeModel.v
theories/TypeProps.v
theories/UniqueModel.v
theories/UniqueProofs.v
theories/UniqueProps.v
theories/UniqueSpec.v
theories/UriModel.v
theories/UriProofs.v
theories/UriProps.v
theories/UriSpec.v
theories/VectorModel.v
theories/VectorProofs.v
theories/VectorProps.v
theories/VectorSpec.v
theories/WireModel.v
theories/WireProofs.v
theories/WireProps.v
theories/WireSpec.v
theories/WireWriteProofs.v
theories/XmlModel.v
theories/XmlProofs.v
theories/XmlProps.v
