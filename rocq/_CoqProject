-Q theories Verif
theories/Base.v
theories/BaseFacts.v
theories/Linalg.v
theories/LinalgFacts.v
theories/SectionModel.v
theories/FlexModel.v
theories/LoadModel.v
theories/LoadSpec.v
theories/LoadFacts.v
theories/DiagFacts.v
theories/ClampFacts.v
theories/LMFacts.v
theories/ReleaseFacts.v
theories/Prop_Loads.v
theories/FoundationModel.v
theories/ElementModel.v
theories/ElementSpec.v
theories/ElementFacts.v
theories/ElementFacts2.v
theories/TimoFacts.v
theories/ConstSectFacts.v
theories/ElementFacts3.v
theories/Prop_Element.v
theories/UtilsModel.v
theories/UtilsSpec.v
theories/UtilsFacts.v
theories/BeamModel.v
theories/BeamSpec.v
theories/CtorFacts.v
theories/AnalysisModel.v
theories/AnalysisSpec.v
theories/LinearFacts.v
theories/AnalysisFacts.v
theories/AnalysisFacts2.v
theories/SuperFacts.v
theories/BalanceFacts.v
theories/MechFacts.v
theories/HistoryFacts.v
theories/AnalysisFacts3.v
theories/Prop_Analysis.v
theories/ResultsModel.v
theories/EnvelopeModel.v
theories/EnvelopeSpec.v
theories/EnvelopeFacts.v
theories/EnvHeapModel.v
theories/EnvHeapSpec.v
theories/EnvHeapFacts.v
theories/Prop_Envelope.v
theories/ResultsSpec.v
theories/ResultsFacts.v
theories/Prop_Results.v
theories/LoadCasesModel.v
theories/LoadCasesSpec.v
theories/LoadCasesFacts.v
theories/SegmentFacts.v
theories/CaseExample.v
theories/Prop_LoadCases.v
theories/CombFacts.v
theories/CombCases.v
theories/CombExample.v
theories/Prop_Combination.v
theories/CollModel.v
theories/CollSpec.v
theories/CollFacts.v
theories/CollTheorems.v
theories/Prop_Collection.v
theories/ShapeFacts.v
theories/PatternModel.v
theories/PatternSpec.v
theories/PatternFacts.v
theories/Prop_Pattern.v
theories/VehicleModel.v
theories/VehicleSpec.v
theories/VehicleFacts.v
theories/Prop_Vehicle.v
theories/BridgeModel.v
theories/BridgeSpec.v
theories/BridgeFacts.v
theories/CritFacts.v
theories/BridgeFacts2.v
theories/BridgeFacts3.v
theories/BridgeFacts4.v
theories/RatioFacts.v
theories/Prop_Bridge.v
theories/PrestressModel.v
theories/PrestressSpec.v
theories/PrestressFacts.v
theories/PrestressFacts2.v
theories/PrestressFacts3.v
theories/PrestressFacts4.v
theories/PrestressFacts5.v
theories/PrestressFacts6.v
theories/Prop_Prestress.v
theories/InfModel.v
theories/InfSpec.v
theories/InfFacts.v
theories/InfFacts2.v
theories/InfFacts3.v
theories/InfFacts4.v
theories/InfFacts5.v
theories/Prop_Inf.v
theories/SpanModel.v
theories/SpanSpec.v
theories/SpanFacts.v
theories/Prop_Span.v
theories/UnitsModel.v
theories/UnitsSpec.v
theories/UnitsFacts.v
theories/Prop_Units.v
theories/SectBuildModel.v
theories/SectBuildSpec.v
theories/SectBuildFacts.v
theories/SectBuildFacts2.v
theories/SectBuildFacts3.v
theories/Prop_Sect.v
theories/ModalModel.v
theories/FoundSpec.v
theories/FoundFacts.v
theories/FoundFacts2.v
theories/FoundFacts3.v
theories/FoundFacts4.v
theories/Prop_Found.v
theories/ModalSpec.v
theories/EigFacts.v
theories/ModalFacts.v
theories/ModalFacts2.v
theories/ModalFacts3.v
theories/Prop_Modal.v
theories/NonlinModel.v
theories/NonlinSpec.v
theories/NonlinFacts.v
theories/NonlinFacts2.v
theories/NonlinFacts3.v
theories/NonlinFacts4.v
theories/NonlinFacts5.v
theories/NonlinFacts6.v
theories/NonlinFacts7.v
theories/NonlinFacts8.v
theories/NonlinFacts9.v
theories/NonlinFacts10.v
theories/NonlinFacts11.v
theories/NonlinFacts12.v
theories/NonlinFacts13.v
theories/Prop_Nonlin.v
theories/BedSpec.v
theories/BedFacts.v
theories/BedFacts2.v
theories/BedFacts3.v
theories/BedFacts4.v
theories/BedFacts5.v
theories/Prop_Bed.v
theories/DetSpec.v
theories/DetFacts.v
theories/DetFacts2.v
theories/Prop_Det.v
theories/ExactSpec.v
theories/ExactFacts.v
theories/ExactFacts2.v
theories/ExactFacts3.v
theories/Prop_Exact.v
theories/MeshSpec.v
theories/MeshFacts.v
theories/MeshFacts2.v
theories/MeshFacts3.v
theories/Prop_Mesh.v
theories/MirrorSpec.v
theories/MirrorFacts.v
theories/MirrorFacts2.v
theories/Prop_Mirror.v
theories/RenderModel.v
theories/RenderSpec.v
theories/RenderFacts.v
theories/RenderFacts2.v
theories/RenderFacts3.v
theories/RenderFacts4.v
theories/RenderFacts5.v
theories/Prop_Render.v
theories/TikzSpec.v
theories/RenderFacts6.v
theories/Prop_Tikz.v
theories/SessionModel.v
theories/SessionSpec.v
theories/SessionFacts.v
theories/SessionExample.v
theories/Prop_Session.v
theories/TemplateFacts.v
theories/Prop_Template.v
theories/EnvReadModel.v
theories/EnvReadSpec.v
theories/EnvReadFacts.v
theories/EnvReadFacts2.v
theories/SpanSample.v
theories/EnvReadExample.v
theories/Prop_EnvRead.v
theories/CombObjModel.v
theories/CombObjSpec.v
theories/CombObjFacts.v
theories/CombObjFacts2.v
theories/CollEnvFacts.v
theories/CombObjExample.v
theories/Prop_CombObj.v
theories/StiffSpec.v
theories/StiffFacts.v
theories/StiffFacts2.v
theories/StiffExample.v
theories/Prop_Stiff.v
theories/UnitChangeSpec.v
theories/UnitChangeFacts.v
theories/UnitChangeFacts2.v
theories/UnitChangeFacts3.v
theories/UnitChangeFacts4.v
theories/UnitChangeFacts5.v
theories/UnitChangeExample.v
theories/Prop_UnitChange.v
theories/ConvSpec.v
theories/ConvFacts.v
theories/ConvFacts2.v
theories/ConvFacts3.v
theories/ConvFacts4.v
theories/ConvFacts5.v
theories/Prop_Conv.v
theories/RefineSpec.v
theories/RefineFacts.v
theories/RefineFacts2.v
theories/RefineFacts3.v
theories/RefineFacts4.v
theories/RefineUnit.v
theories/RefineFacts5.v
theories/RefineExample.v
theories/Prop_Refine.v
theories/ExportModel.v
theories/ExportSpec.v
theories/ExportFacts.v
theories/Prop_Export.v
theories/MuellerSpec.v
theories/MuellerFacts.v
theories/MuellerFacts2.v
theories/Prop_Mueller.v
theories/PlotModel.v
theories/PlotSpec.v
theories/PlotFacts.v
theories/PlotFacts2.v
theories/PlotFacts3.v
theories/PlotFacts4.v
theories/PlotFacts5.v
theories/PlotExample.v
theories/Prop_Plot.v
theories/LoadEqSpec.v
theories/LoadEqFacts.v
theories/LoadEqFacts2.v
theories/LoadEqFacts3.v
theories/LoadEqFacts4.v
theories/LoadEqFacts5.v
theories/LoadEqBed.v
theories/LoadEqFacts6.v
theories/LoadEqExample.v
theories/Prop_LoadEq.v
theories/PatPlotModel.v
theories/PatPlotSpec.v
theories/PatPlotFacts.v
theories/Prop_PatPlot.v
theories/BrSessionModel.v
theories/BrSessionSpec.v
theories/BrSessionFacts.v
theories/BrSessionExample.v
theories/Prop_BrSession.v
theories/NlPlotModel.v
theories/NlPlotSpec.v
theories/NlPlotFacts.v
theories/NlPlotExample.v
theories/Prop_NlPlot.v
theories/RestrSpec.v
theories/RestrFacts.v
theories/RestrFacts2.v
theories/RestrExample.v
theories/Prop_Restr.v
theories/InPlotModel.v
theories/InPlotSpec.v
theories/InPlotFacts.v
theories/InPlotFacts2.v
theories/InPlotExample.v
theories/Prop_InPlot.v
theories/ThreeSpec.v
theories/ThreeFacts.v
theories/ThreeExample.v
theories/Prop_Three.v
theories/FreqSpec.v
theories/FreqFacts.v
theories/FreqFacts2.v
theories/FreqFacts3.v
theories/FreqFacts4.v
theories/EigExist.v
theories/FreqFacts5.v
theories/Prop_Freq.v
theories/MorePlotModel.v
theories/MorePlotSpec.v
theories/MorePlotFacts.v
theories/Prop_MorePlot.v
theories/SchemModel.v
theories/SchemSpec.v
theories/SchemFacts.v
theories/SchemFacts2.v
theories/SchemFacts3.v
theories/SchemFacts4.v
theories/Prop_Schem.v
theories/SymbolModel.v
theories/SymbolSpec.v
theories/SymbolFacts.v
theories/SymbolFacts2.v
theories/SymbolFacts3.v
theories/Prop_Symbol.v
theories/SaveModel.v
theories/SaveSpec.v
theories/SaveFacts.v
theories/SaveFacts2.v
theories/SaveFacts3.v
theories/Prop_Save.v
theories/PatRunModel.v
theories/PatRunSpec.v
theories/PatRunFacts.v
theories/Prop_PatRun.v
theories/JackSpec.v
theories/JackFacts.v
theories/Prop_Jack.v
theories/JointSpec.v
theories/JointFacts.v
theories/Prop_Joint.v
