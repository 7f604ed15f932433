-Q theories Verif
theories/Base/Num.v
theories/Base/Py.v
theories/Base/Vec.v
theories/Model/Assembly.v
theories/Model/AssemblyTree.v
theories/Model/Boundary.v
theories/Model/BundleHeap.v
theories/Model/DishGui.v
theories/Model/Engine.v
theories/Model/Geometry.v
theories/Model/HeapTrace.v
theories/Model/Lens.v
theories/Model/Mesh.v
theories/Model/Models.v
theories/Model/Objects.v
theories/Model/Optics.v
theories/Model/OpticsCallables.v
theories/Model/RayBundle.v
theories/Model/Scene.v
theories/Model/SharingEngine.v
theories/Model/Sources.v
theories/Model/Spatial.v
theories/Model/Surface.v
theories/Model/TestCase.v
theories/Model/Tower.v
theories/Model/TowerGui.v
theories/Model/TraceTree.v
theories/Model/Triangulated.v
theories/Model/TwoMirrors.v
theories/Model/View.v
theories/Proof/AccountProof.v
theories/Proof/ActProof.v
theories/Proof/AimProof.v
theories/Proof/AnswerProof.v
theories/Proof/AssemblyTreeProof.v
theories/Proof/BackCase.v
theories/Proof/BackProof.v
theories/Proof/BallCase.v
theories/Proof/BallProof.v
theories/Proof/BallTop.v
theories/Proof/BeamCase.v
theories/Proof/BeamProof.v
theories/Proof/BoundLedger.v
theories/Proof/BoundMore.v
theories/Proof/BoxWay.v
theories/Proof/BundleProof.v
theories/Proof/CallProof.v
theories/Proof/CollectProof.v
theories/Proof/CollectTop.v
theories/Proof/ConstructProof.v
theories/Proof/ConstructTop.v
theories/Proof/DishGuiProof.v
theories/Proof/DishProof.v
theories/Proof/DishScene.v
theories/Proof/DrawProof.v
theories/Proof/DropCase.v
theories/Proof/DropProof.v
theories/Proof/DropTop.v
theories/Proof/EnergyKindProof.v
theories/Proof/EngineExamples.v
theories/Proof/EngineMore.v
theories/Proof/EngineTop.v
theories/Proof/FadeCase.v
theories/Proof/FadeProof.v
theories/Proof/FateProof.v
theories/Proof/FitProof.v
theories/Proof/FlatProof.v
theories/Proof/FluxProof.v
theories/Proof/FoundCase.v
theories/Proof/FoundProof.v
theories/Proof/FrameExample.v
theories/Proof/FrameHistory.v
theories/Proof/FrameProof.v
theories/Proof/FrameTop.v
theories/Proof/GeomCases.v
theories/Proof/GeomProof.v
theories/Proof/GeomTop.v
theories/Proof/GlassCase.v
theories/Proof/GlassProof.v
theories/Proof/GlassTop.v
theories/Proof/GrowProof.v
theories/Proof/HeapGet.v
theories/Proof/HeapOptics.v
theories/Proof/HeapProof.v
theories/Proof/HeapShare.v
theories/Proof/HeapTraceCase.v
theories/Proof/HeapTraceProof.v
theories/Proof/HelioExamples.v
theories/Proof/HelioProof.v
theories/Proof/HiddenCase.v
theories/Proof/HiddenProof.v
theories/Proof/HiddenRows.v
theories/Proof/HiddenTop.v
theories/Proof/HistProof.v
theories/Proof/ImageCase.v
theories/Proof/ImageProof.v
theories/Proof/IntersectProof.v
theories/Proof/IterProof.v
theories/Proof/KaleidoMeets.v
theories/Proof/KaleidoProof.v
theories/Proof/KeptProof.v
theories/Proof/LawProof.v
theories/Proof/LedgerProof.v
theories/Proof/LensExamples.v
theories/Proof/LensProof.v
theories/Proof/LibraryTop.v
theories/Proof/LineageCase.v
theories/Proof/LineageProof.v
theories/Proof/ListLemmas.v
theories/Proof/MeasureProof.v
theories/Proof/MeshProof.v
theories/Proof/MisuseProof.v
theories/Proof/ModelExamples.v
theories/Proof/ModelProof.v
theories/Proof/ModelTop.v
theories/Proof/MoveBundle.v
theories/Proof/MoveCase.v
theories/Proof/MoveGeom.v
theories/Proof/MoveOptics.v
theories/Proof/MoveScale.v
theories/Proof/MoveScene.v
theories/Proof/MoveTop.v
theories/Proof/NumLemmas.v
theories/Proof/ObjectProof.v
theories/Proof/ObjectTrace.v
theories/Proof/OpticsProof.v
theories/Proof/OpticsTop.v
theories/Proof/OrderBooks.v
theories/Proof/OrderCase.v
theories/Proof/OrderProof.v
theories/Proof/PathProof.v
theories/Proof/PlaceProof.v
theories/Proof/PlaceTop.v
theories/Proof/ProcessProof.v
theories/Proof/ProgressProof.v
theories/Proof/QuadProof.v
theories/Proof/ReceiverProof.v
theories/Proof/ReceiverTop.v
theories/Proof/RefractProof.v
theories/Proof/RelayProof.v
theories/Proof/ResumeCase.v
theories/Proof/ResumeProof.v
theories/Proof/ReturnCase.v
theories/Proof/ReturnProof.v
theories/Proof/SceneProof.v
theories/Proof/SceneViewProof.v
theories/Proof/SelectProof.v
theories/Proof/SetterProof.v
theories/Proof/ShapeProof.v
theories/Proof/SharedProof.v
theories/Proof/SharingCase.v
theories/Proof/SharingProof.v
theories/Proof/SightCase.v
theories/Proof/SightProof.v
theories/Proof/SimProof.v
theories/Proof/SourceProof.v
theories/Proof/SpatialProof.v
theories/Proof/SpotProof.v
theories/Proof/StaggerProof.v
theories/Proof/SurfaceProof.v
theories/Proof/SymmetryCases.v
theories/Proof/SymmetryProof.v
theories/Proof/TestCaseProof.v
theories/Proof/TestCaseTop.v
theories/Proof/TowerField.v
theories/Proof/TowerFlux.v
theories/Proof/TowerGuiProof.v
theories/Proof/TowerProof.v
theories/Proof/TowerScene.v
theories/Proof/TraceProof.v
theories/Proof/TraceTop.v
theories/Proof/TreeArgProof.v
theories/Proof/TreeProof.v
theories/Proof/TriangleExamples.v
theories/Proof/TriangleProof.v
theories/Proof/TubeCase.v
theories/Proof/TubeProof.v
theories/Proof/TubeTop.v
theories/Proof/TurnProof.v
theories/Proof/TwoMirrorsProof.v
theories/Proof/TwoMirrorsTop.v
theories/Proof/TwoScene.v
theories/Proof/VecLemmas.v
theories/Proof/ViewProof.v
theories/Props/AccountProps.v
theories/Props/AssemblyTreeProps.v
theories/Props/BackProps.v
theories/Props/BallProps.v
theories/Props/BeamProps.v
theories/Props/BundleProps.v
theories/Props/ConstructProps.v
theories/Props/DishGuiProps.v
theories/Props/DishProps.v
theories/Props/DropProps.v
theories/Props/EngineProps.v
theories/Props/FadeProps.v
theories/Props/FoundProps.v
theories/Props/FrameProps.v
theories/Props/GeometryProps.v
theories/Props/GlassProps.v
theories/Props/HeapProps.v
theories/Props/HeapTraceProps.v
theories/Props/HiddenProps.v
theories/Props/ImageProps.v
theories/Props/KaleidoProps.v
theories/Props/LawProps.v
theories/Props/MeshProps.v
theories/Props/MisuseProps.v
theories/Props/ModelProps.v
theories/Props/MoveProps.v
theories/Props/OpticsProps.v
theories/Props/OrderProps.v
theories/Props/ResumeProps.v
theories/Props/ReturnProps.v
theories/Props/SharingProps.v
theories/Props/SightProps.v
theories/Props/SolidProps.v
theories/Props/SourceProps.v
theories/Props/SunProps.v
theories/Props/TestCaseProps.v
theories/Props/TowerGuiProps.v
theories/Props/TowerProps.v
theories/Props/TubeProps.v
theories/Props/TwoMirrorsProps.v
theories/Props/ViewProps.v
theories/Spec/AccountSpec.v
theories/Spec/AssemblyTreeSpec.v
theories/Spec/BackSpec.v
theories/Spec/BallSpec.v
theories/Spec/BeamSpec.v
theories/Spec/BundleSpec.v
theories/Spec/DishGuiSpec.v
theories/Spec/DishSpec.v
theories/Spec/DropSpec.v
theories/Spec/EngineSpec.v
theories/Spec/FadeSpec.v
theories/Spec/FoundSpec.v
theories/Spec/FrameSpec.v
theories/Spec/GeomIface.v
theories/Spec/GeometrySpec.v
theories/Spec/GlassSpec.v
theories/Spec/HeapSpec.v
theories/Spec/HeapTraceSpec.v
theories/Spec/HiddenSpec.v
theories/Spec/ImageSpec.v
theories/Spec/KaleidoSpec.v
theories/Spec/LawSpec.v
theories/Spec/LensSpec.v
theories/Spec/LibrarySpec.v
theories/Spec/MeshSpec.v
theories/Spec/MisuseSpec.v
theories/Spec/ModelSpec.v
theories/Spec/MoveSpec.v
theories/Spec/OpticsSpec.v
theories/Spec/OrderSpec.v
theories/Spec/PathSpec.v
theories/Spec/ResumeSpec.v
theories/Spec/ReturnSpec.v
theories/Spec/SceneSpec.v
theories/Spec/SceneViewSpec.v
theories/Spec/SharingSpec.v
theories/Spec/SightSpec.v
theories/Spec/SourceSpec.v
theories/Spec/SpatialSpec.v
theories/Spec/SunSpec.v
theories/Spec/TestCaseSpec.v
theories/Spec/TowerGuiSpec.v
theories/Spec/TowerSpec.v
theories/Spec/TriangleSpec.v
theories/Spec/TubeSpec.v
theories/Spec/TwoMirrorsSpec.v
theories/Spec/ViewSpec.v
