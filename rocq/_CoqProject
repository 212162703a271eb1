-Q theories Verif
theories/Base.v
theories/Vec.v
theories/Interp.v
theories/DistModel.v
theories/DistSpec.v
theories/DistProofs.v
theories/DistProps.v
theories/MaterialModel.v
theories/MaterialSpec.v
theories/MaterialProofs.v
theories/MaterialProps.v
theories/OpticsModel.v
theories/OpticsProofs.v
theories/OpticsProps.v
theories/PhaseModel.v
theories/PhaseProofs.v
theories/PhaseProps.v
theories/TransformModel.v
theories/TransformProofs.v
theories/TransformProps.v
theories/GeomModel.v
theories/GeomProofs.v
theories/GeomProps.v
theories/TracerModel.v
theories/TracerProofs.v
theories/TracerProps.v
theories/KernelModel.v
theories/KernelProofs.v
theories/KernelSim.v
theories/KernelProps.v
theories/LogProofs.v
theories/LogProps.v
theories/TallyModel.v
theories/TallyProofs.v
theories/TallyProps.v
theories/RngModel.v
theories/RngProps.v
theories/BundleModel.v
theories/BundleProofs.v
theories/BundleProps.v
theories/StreamModel.v
theories/StreamProps.v
theories/CliModel.v
theories/CliProofs.v
theories/CliProps.v
theories/ColourModel.v
theories/ColourProps.v
theories/SpecModel.v
theories/SpecProofs.v
theories/SpecProps.v
theories/StudioProps.v
theories/LscModel.v
theories/LscProps.v
theories/RendererModel.v
theories/RendererProps.v
theories/CompilerModel.v
theories/CompilerProofs.v
theories/CompilerProps.v
theories/LiveModel.v
theories/LiveProofs.v
theories/LiveProps.v
theories/CliOutModel.v
theories/CliOutProps.v
theories/DyeModel.v
theories/DyeProps.v
theories/PlaceModel.v
theories/PlaceProps.v
theories/FilesModel.v
theories/FilesProps.v
theories/BrowserModel.v
theories/BrowserProps.v
theories/FaceProps.v
theories/LightModel.v
theories/LightProps.v
theories/MemModel.v
theories/MemLayoutModel.v
theories/MemProofs.v
theories/MemProps.v
theories/ComponentModel.v
theories/ComponentProps.v
theories/LawProps.v
theories/PageModel.v
theories/PageProps.v
theories/MatrixModel.v
theories/MatrixProofs.v
theories/MatrixProps.v
theories/MatrixProps2.v
theories/PrimeProofs.v
theories/PeriodProps.v
theories/MemberProps.v
theories/ErfProofs.v
theories/ErfProps.v
theories/WidthModel.v
theories/WidthProps.v
theories/LscSceneModel.v
theories/LscSceneProps.v
theories/LookupModel.v
theories/LookupProps.v
theories/ViewModel.v
theories/ViewProps.v
theories/SyncModel.v
theories/SyncProps.v
theories/MeshcatModel.v
theories/MeshcatProps.v
theories/NameModel.v
theories/NameProps.v
theories/EndModel.v
theories/EndProofs.v
theories/EndProps.v
theories/MeshModel.v
theories/MeshProofs.v
theories/MeshProps.v
theories/BoxMeshProps.v
theories/DrawnModel.v
theories/DrawnProps.v
theories/TextModel.v
theories/TextProps.v
theories/InspectModel.v
theories/InspectProofs.v
theories/InspectHeap.v
theories/InspectProps.v
theories/EndTallyProps.v
theories/RaiseProofs.v
theories/RaiseProps.v
theories/PanelModel.v
theories/PanelProps.v
theories/CountProps.v
theories/ShutModel.v
theories/ShutProps.v
theories/AccountProps.v
theories/SequenceModel.v
theories/SequenceProps.v
theories/LscTableModel.v
theories/LscTableProps.v
theories/BarModel.v
theories/BarProps.v
theories/InitProps.v
theories/VisitModel.v
theories/VisitProps.v
theories/ApartModel.v
theories/ApartProofs.v
theories/ApartProps.v
theories/ApartProps2.v
theories/EdgesModel.v
theories/EdgesProps.v
