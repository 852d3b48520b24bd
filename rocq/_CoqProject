-Q theories Verif
theories/AdExamples.v
theories/AdModel.v
theories/AdModel2.v
theories/AdProof.v
theories/AdProof2.v
theories/AdProof3.v
theories/AdProof4.v
theories/AdRefute.v
theories/AdSpec.v
theories/AppendProof.v
theories/AssemblyExamples.v
theories/AssemblyModel.v
theories/AssemblyProof.v
theories/AssemblySpec.v
theories/AssignProof.v
theories/Base.v
theories/BaseProof.v
theories/BcProof.v
theories/BcProof2.v
theories/BcProof3.v
theories/BcSpec.v
theories/Box3Proof.v
theories/BoxProof.v
theories/BuilderExamples.v
theories/BuilderModel.v
theories/BuilderProof.v
theories/BuilderProof2.v
theories/BuilderProof3.v
theories/BuilderProof4.v
theories/BuilderProof5.v
theories/BuilderProof6.v
theories/BuilderProof7.v
theories/BuilderSpec.v
theories/CircEnds.v
theories/CircProof.v
theories/ColorModel.v
theories/ColorProof.v
theories/CutExamples.v
theories/CutModel.v
theories/CutProof.v
theories/CutProof2.v
theories/CutProof3.v
theories/CutProof4.v
theories/CutSpec.v
theories/DataExamples.v
theories/DataModel.v
theories/DataProof.v
theories/DiffProof.v
theories/DiscreteExamples.v
theories/DiscreteProof.v
theories/DiscreteProof2.v
theories/DiscreteSpec.v
theories/DofExamples.v
theories/DofModel.v
theories/DofProof1.v
theories/DofProof2.v
theories/DofSpec.v
theories/DomProof.v
theories/DomainExamples.v
theories/DomainModel.v
theories/DomainProof.v
theories/DomainProof2.v
theories/DomainProof3.v
theories/DomainProof4.v
theories/DomainSpec.v
theories/DualBcExamples.v
theories/DualBcModel.v
theories/DualBcProof.v
theories/DualBcProof2.v
theories/DualBcRefute.v
theories/DualBcSpec.v
theories/DualExamples.v
theories/DualModel.v
theories/DualProof.v
theories/DualProof2.v
theories/DualProof3.v
theories/DualProof4.v
theories/DualProof5.v
theories/DualProof6.v
theories/DualProof7.v
theories/DualProof8.v
theories/DualProof9.v
theories/DualSpec.v
theories/EdgeOpsExamples.v
theories/EdgeOpsModel.v
theories/EdgeOpsProof.v
theories/EdgeOpsProof2.v
theories/EdgeOpsSpec.v
theories/ElementExamples.v
theories/ElementExamples2.v
theories/ElementModel.v
theories/ElementProof.v
theories/ElementProof2.v
theories/ElementProof3.v
theories/ElementProof4.v
theories/ElementProof5.v
theories/ElementProof6.v
theories/ElementProof7.v
theories/ElementProof8.v
theories/ElementSpec.v
theories/EmbedExamples.v
theories/EmbedModel.v
theories/EmbedProof.v
theories/EmbedProof2.v
theories/EmbedProof3.v
theories/EmbedSpec.v
theories/ExportExamples.v
theories/ExportModel.v
theories/ExportProof.v
theories/ExportProof2.v
theories/ExportProof3.v
theories/ExportProof4.v
theories/ExportProof5.v
theories/ExportProof6.v
theories/ExportRefute.v
theories/ExportSpec.v
theories/FaceCutExamples.v
theories/FaceCutModel.v
theories/FaceCutProof.v
theories/FaceCutSpec.v
theories/FaceEdgeExamples.v
theories/FaceEdgeModel.v
theories/FaceEdgeProof.v
theories/FaceTangentExamples.v
theories/FaceTangentProof.v
theories/FaceTangentProof2.v
theories/FaceTangentSpec.v
theories/FormExamples.v
theories/FormModel.v
theories/FormProof.v
theories/FormProof2.v
theories/FormSpec.v
theories/FracCutExamples.v
theories/FracCutModel.v
theories/FracCutProof.v
theories/FracCutProof2.v
theories/FracCutProof3.v
theories/FracCutProof4.v
theories/FracCutSpec.v
theories/FracExamples.v
theories/FracModel.v
theories/FracProof.v
theories/FracProof2.v
theories/FracSpec.v
theories/GeoExamples.v
theories/GeoModel.v
theories/GeoProof.v
theories/GeoProof2.v
theories/GeoSpec.v
theories/GraphModel.v
theories/GraphOpsModel.v
theories/GraphOpsProof.v
theories/GraphOpsSpec.v
theories/GraphProof.v
theories/GraphProof2.v
theories/IntersectExamples.v
theories/IntersectModel.v
theories/IntersectProof.v
theories/IntersectProof2.v
theories/IntersectProof3.v
theories/IntersectProof4.v
theories/IntersectProof5.v
theories/IntersectSpec.v
theories/JacProof.v
theories/LineCutExamples.v
theories/LineCutModel.v
theories/LineCutProof.v
theories/LineCutProof2.v
theories/LineCutProof3.v
theories/LineCutProof4.v
theories/LineCutProof5.v
theories/LineCutProof6.v
theories/LineCutProof7.v
theories/LineCutProof8.v
theories/LineCutSpec.v
theories/LineExamples.v
theories/LineModel.v
theories/LineProof.v
theories/LineProof2.v
theories/LineProof3.v
theories/LineProof4.v
theories/LineProof5.v
theories/LineSpec.v
theories/LinesExamples.v
theories/LinesModel.v
theories/LinesProof.v
theories/LinesProof2.v
theories/LinesProof3.v
theories/LinesProof4.v
theories/LinesProof5.v
theories/LinesProof6.v
theories/LinesSpec.v
theories/LoopExamples.v
theories/LoopModel.v
theories/LoopProof.v
theories/LoopSpec.v
theories/MapExamples.v
theories/MapModel.v
theories/MapProof.v
theories/MapSpec.v
theories/MdBoxExamples.v
theories/MdBoxModel.v
theories/MdBoxProof.v
theories/MdBoxProof2.v
theories/MdBoxProof3.v
theories/MdBoxProof4.v
theories/MdBoxProof5.v
theories/MdBoxProof6.v
theories/MdBoxProof7.v
theories/MdBoxSpec.v
theories/MdSpaceExamples.v
theories/MdSpaceModel.v
theories/MdSpaceProof.v
theories/MemberProof.v
theories/MeshExamples.v
theories/MeshFileExamples.v
theories/MeshFileModel.v
theories/MeshFileProof.v
theories/MeshFileSpec.v
theories/MeshModel.v
theories/MeshProof1.v
theories/MeshProof2.v
theories/MeshProof3.v
theories/MeshProof4.v
theories/MeshProof5.v
theories/MeshSpec.v
theories/MesherExamples.v
theories/MesherModel.v
theories/MesherProof.v
theories/MesherProof2.v
theories/MesherProof3.v
theories/MesherProof4.v
theories/MesherProof5.v
theories/MesherSpec.v
theories/MetricExamples.v
theories/MetricModel.v
theories/MetricProof.v
theories/MetricProof2.v
theories/MetricSpec.v
theories/MixExamples.v
theories/MixProof.v
theories/MixProof2.v
theories/MixProof3.v
theories/MixSpec.v
theories/NetProof.v
theories/OrientExamples.v
theories/OrientModel.v
theories/OrientProof.v
theories/OrientSpec.v
theories/P_Assembly.v
theories/P_Boundary.v
theories/P_BoxLines.v
theories/P_Builder.v
theories/P_Color.v
theories/P_Cut.v
theories/P_Data.v
theories/P_Discrete.v
theories/P_Dof.v
theories/P_Domain.v
theories/P_Dual.v
theories/P_DualBoundary.v
theories/P_EdgeOps.v
theories/P_Elastic.v
theories/P_Element.v
theories/P_Embed.v
theories/P_Export.v
theories/P_FaceCut.v
theories/P_FaceTangent.v
theories/P_Forms.v
theories/P_FracCut.v
theories/P_Fracture.v
theories/P_Geometry.v
theories/P_Graph.v
theories/P_Intersect.v
theories/P_Laplace.v
theories/P_LineCut.v
theories/P_Lines.v
theories/P_Loop.v
theories/P_Map.v
theories/P_MdBox.v
theories/P_MdSpace.v
theories/P_Mesh.v
theories/P_MeshFile.v
theories/P_Mesher.v
theories/P_Metric.v
theories/P_Mixed.v
theories/P_Ops.v
theories/P_Orient.v
theories/P_Planes.v
theories/P_Polygon.v
theories/P_Post.v
theories/P_Query.v
theories/P_Report.v
theories/P_Riesz.v
theories/P_ScaledDual.v
theories/P_Shape.v
theories/P_Snap.v
theories/P_Solid.v
theories/P_Space.v
theories/P_Surfaces.v
theories/P_Tags.v
theories/P_Trace.v
theories/P_Triangles.v
theories/P_Vertex.v
theories/PlanesModel.v
theories/PlanesProof.v
theories/PlanesSpec.v
theories/PolyExamples.v
theories/PolyModel.v
theories/PolyProof.v
theories/PolyProof2.v
theories/PolyProof3.v
theories/PolyProof4.v
theories/PolyProof5.v
theories/PolySpec.v
theories/PostExamples.v
theories/PostModel.v
theories/PostProof.v
theories/PostProof2.v
theories/PostReal.v
theories/PostRealSpec.v
theories/PostRefute.v
theories/PostSpec.v
theories/ProjectorModel.v
theories/ProjectorProof.v
theories/ProjectorSpec.v
theories/QueryExamples.v
theories/QueryModel.v
theories/QueryProof.v
theories/QuerySpec.v
theories/RegistryModel.v
theories/RegistryProof.v
theories/ReportExamples.v
theories/ReportModel.v
theories/ReportProof.v
theories/ReportSpec.v
theories/SegModel.v
theories/SegProof.v
theories/ShapeExamples.v
theories/ShapeModel.v
theories/ShapeProof.v
theories/ShapeSpec.v
theories/SnapExamples.v
theories/SnapModel.v
theories/SnapProof.v
theories/SnapSpec.v
theories/SolidExamples.v
theories/SolidProof.v
theories/SolidProof2.v
theories/SolidProof3.v
theories/SolidSpec.v
theories/SpaceExamples.v
theories/SpaceModel.v
theories/SpaceProof.v
theories/SpaceProof2.v
theories/SpaceSpec.v
theories/SurfExamples.v
theories/SurfModel.v
theories/SurfProof.v
theories/SurfProof2.v
theories/SurfProof3.v
theories/SurfSpec.v
theories/TagExamples.v
theories/TagModel.v
theories/TagProof.v
theories/TagSpec.v
theories/TraceExamples.v
theories/TraceModel.v
theories/TraceProof.v
theories/TraceProof2.v
theories/TraceProof3.v
theories/TraceProof4.v
theories/TraceSpec.v
theories/TriExamples.v
theories/TriModel.v
theories/TriProof.v
theories/TriProof2.v
theories/TriProof3.v
theories/TriProof4.v
theories/TriProof5.v
theories/TriProof6.v
theories/TriProof7.v
theories/TriSpec.v
theories/VecBase.v
theories/VecProof.v
theories/VertexExamples.v
theories/VertexModel.v
theories/VertexProof.v
theories/VertexSpec.v
theories/WhereProof.v
