-Q theories Verif
theories/Base.v
theories/IdModel.v
theories/TypeModel.v
theories/IrModel.v
theories/LayoutModel.v
theories/BuilderModel.v
theories/WorldModel.v
theories/IdSpec.v
theories/TypeSpec.v
theories/UsesSpec.v
theories/DfgSpec.v
theories/WorldSpec.v
theories/IdProofs.v
theories/TypeProofs.v
theories/UsesProofs.v
theories/DfgProofs.v
theories/WorldProofs.v
theories/DfgOps.v
theories/ProgLayoutProofs.v
theories/WorldChecks.v
theories/CoreProperties.v
theories/LayoutSpec.v
theories/LayoutProofs.v
theories/LayoutProperties.v
theories/EqSpec.v
theories/EqProofs.v
theories/SkelProofs.v
theories/EqHistory.v
theories/EqProperties.v
theories/TypingSpec.v
theories/TypingProofs.v
theories/TypingHistory.v
theories/TypingProperties.v
theories/ParamSpec.v
theories/ParamProofs.v
theories/ParamProperties.v
theories/NameModel.v
theories/NameSpec.v
theories/NameProofs.v
theories/NameProperties.v
theories/PassModel.v
theories/PassSpec.v
theories/PassProofs.v
theories/DumpModel.v
theories/DumpProperties.v
theories/ArithModel.v
theories/ArithSpec.v
theories/ArithProofs.v
theories/ArithProperties.v
theories/LexerModel.v
theories/TextModel.v
theories/LexerSpec.v
theories/LexerProofs.v
theories/LexerFwdProofs.v
theories/LexerRunProofs.v
theories/LexerProperties.v
theories/ParserModel.v
theories/ParserSpec.v
theories/ParserProofs.v
theories/PrintSpec.v
theories/PieceProofs.v
theories/RoundProofs.v
theories/BackProofs.v
theories/FrontModel.v
theories/FrontProofs.v
theories/DriverModel.v
theories/DriverSpec.v
theories/DriverProofs.v
theories/TypeTextProofs.v
theories/ParserProperties.v
theories/DriverProperties.v
theories/FlowSpec.v
theories/FlowProofs.v
theories/BlockListProofs.v
theories/CleanProofs.v
theories/BuildCleanProofs.v
theories/FunCleanProofs.v
theories/FlowBuildProofs.v
theories/FrontProperties.v
theories/HistoryProofs.v
theories/HistoryProperties.v
theories/KoopaModel.v
theories/LlvmModel.v
theories/LlvmSpec.v
theories/PrintProofs.v
theories/LlvmProofs.v
theories/LlvmNameProofs.v
theories/LayBuildProofs.v
theories/PresProofs.v
theories/OrderProofs.v
theories/LlvmSigilProofs.v
theories/LlvmProperties.v
theories/DceModel.v
theories/DceSpec.v
theories/DceGraphProofs.v
theories/DceSweepProofs.v
theories/DceParamProofs.v
theories/DceProofs.v
theories/DceTotalProofs.v
theories/DcePassProofs.v
theories/FrontShapeProofs.v
theories/DceFrontProofs.v
theories/DceProperties.v
theories/FaithSpec.v
theories/ViewProofs.v
theories/FaithProofs.v
theories/FaithFunProofs.v
theories/FaithTopProofs.v
theories/FaithProperties.v
theories/CanonSpec.v
theories/TreeTextProofs.v
theories/CanonNameProofs.v
theories/TreeWfProofs.v
theories/CanonProofs.v
theories/CanonReadProofs.v
theories/RetreeNameProofs.v
theories/RetreeProofs.v
theories/RetreeFunProofs.v
theories/RetreeTopProofs.v
theories/RetreeProgProofs.v
theories/CanonProperties.v
theories/AgainProperties.v
theories/RawModel.v
theories/RawSpec.v
theories/RawBuildProofs.v
theories/RawWalkProofs.v
theories/RawInvProofs.v
theories/RawStepProofs.v
theories/RawBlockProofs.v
theories/RawGenProofs.v
theories/RawTopProofs.v
theories/RawTotalSpec.v
theories/RawCheckProofs.v
theories/RawMakeProofs.v
theories/RawFormSpec.v
theories/RawFormProofs.v
theories/RawGoProofs.v
theories/RawProperties.v
theories/AcceptSpec.v
theories/AcceptProofs.v
theories/AcceptFunProofs.v
theories/AcceptTopProofs.v
theories/AcceptProperties.v
theories/ScopeSpec.v
theories/ScopeProofs.v
theories/ScopeProperties.v
theories/SizedProofs.v
theories/RewellProofs.v
theories/ResizeProofs.v
theories/ReadAgainProofs.v
theories/TameSpec.v
theories/SourceProofs.v
theories/ExactProperties.v
theories/InterpModel.v
theories/InterpSimProofs.v
theories/InterpOptProofs.v
theories/InterpDceProofs.v
theories/InterpFuelProofs.v
theories/InterpProperties.v
theories/FoldModel.v
theories/FoldSpec.v
theories/InterpFoldProofs.v
theories/FoldProperties.v
theories/FoldGraphProofs.v
theories/OptModel.v
theories/OptProofs.v
theories/OptProperties.v
theories/BrainfuckModel.v
theories/BrainfuckSpec.v
theories/BrainfuckSimProofs.v
theories/BrainfuckBuildProofs.v
theories/BrainfuckRunProofs.v
theories/BrainfuckProperties.v
theories/CompleteSpec.v
theories/CompleteProofs.v
theories/RegularProofs.v
theories/CompleteProperties.v
theories/DominSpec.v
theories/DiscoverProofs.v
theories/LaidProofs.v
theories/BuildableProofs.v
theories/WalkOnceProofs.v
theories/WalkOrderProofs.v
theories/DominCheckProofs.v
theories/DominProperties.v
theories/CapiModel.v
theories/CapiSpec.v
theories/CapiProofs.v
theories/CapiTextProofs.v
theories/CapiProperties.v
theories/SpanModel.v
theories/SpanSpec.v
theories/SpanProofs.v
theories/SpanPosProofs.v
theories/SpanProperties.v
theories/IsoRunSpec.v
theories/IsoRunProofs.v
theories/IsoProgProofs.v
theories/RawApartProofs.v
theories/IsoRunProperties.v
theories/SameTreeProofs.v
theories/SameRunProofs.v
theories/SameProgProofs.v
theories/SameReadProofs.v
theories/SameRunProperties.v
theories/SoundSpec.v
theories/SoundProofs.v
theories/SoundRunProofs.v
theories/SoundTopProofs.v
theories/SoundProperties.v
theories/KeepSpec.v
theories/KeepProofs.v
theories/KeepRunProofs.v
theories/KeepTopProofs.v
theories/KeepProperties.v
theories/LeakSpec.v
theories/LeakProofs.v
theories/LeakProperties.v
theories/FallSpec.v
theories/FallProofs.v
theories/FallProperties.v
theories/StoreSpec.v
theories/StoreProofs.v
theories/StoreProperties.v
theories/ElemSpec.v
theories/ElemProofs.v
theories/ElemProperties.v
