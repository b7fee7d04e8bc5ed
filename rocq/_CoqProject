-Q theories Verif
theories/Base.v
theories/Num.v
theories/Dict.v
theories/CoordModel.v
theories/CoordSpec.v
theories/CoordProofs.v
theories/CoordProps.v
theories/Ast.v
theories/StateModel.v
theories/StateSpec.v
theories/StateProofs.v
theories/StateProps.v
theories/GeomModel.v
theories/ExprModel.v
theories/ExprSpec.v
theories/ExprProofs.v
theories/ExprProps.v
theories/CompilerModel.v
theories/LayerSpec.v
theories/LayerProofs.v
theories/LayerInv.v
theories/LayerOut.v
theories/LayerProps.v
theories/NumReal.v
theories/DrawSpec.v
theories/DrawProofs.v
theories/DrawProps.v
theories/PlaceSpec.v
theories/PlaceProofs.v
theories/PlaceProps.v
theories/FlashSpec.v
theories/FlashProofs.v
theories/FlashProps.v
theories/MacroSpec.v
theories/MacroProofs.v
theories/MacroProps.v
theories/BoxModel.v
theories/VmModel.v
theories/BoxSpec.v
theories/BoxProofs.v
theories/BoxProps.v
theories/VmSpec.v
theories/VmProofs.v
theories/VmInv.v
theories/VmSim.v
theories/VmAccept.v
theories/VmProps.v
theories/GeoSpec.v
theories/GeoProofs.v
theories/ShapeProofs.v
theories/SimilarProofs.v
theories/PolyProofs.v
theories/OutlineProofs.v
theories/OutlineMore.v
theories/ArcModel.v
theories/ArcProofs.v
theories/FigSpec.v
theories/FigProofs.v
theories/PolyMore.v
theories/RangeProofs.v
theories/GeoProps.v
theories/ArcProps.v
theories/FigProps.v
theories/ColorModel.v
theories/ColorSpec.v
theories/ColorProofs.v
theories/ColorProps.v
theories/RvmcModel.v
theories/RvmcSpec.v
theories/RvmcProofs.v
theories/RvmcProps.v
theories/GbModel.v
theories/GbSpec.v
theories/GbProofs.v
theories/GbInv.v
theories/GbStep.v
theories/GbRead.v
theories/GbAttr.v
theories/GbFits.v
theories/GbProps.v
theories/PegModel.v
theories/GramAst.v
theories/GramModel.v
theories/FmtModel.v
theories/GramText.v
theories/GramExpr.v
theories/GramExprRt.v
theories/GramExprSpec.v
theories/GramExplicit.v
theories/NumTextModel.v
theories/NumTextSpec.v
theories/NumTextProofs.v
theories/NumTextProps.v
theories/GramNum.v
theories/GramExprProps.v
theories/GramTok.v
theories/GramWf.v
theories/GramPieces.v
theories/GramFileSpec.v
theories/GramRead.v
theories/GramReadAttr.v
theories/GramMacroRt.v
theories/GramTidy.v
theories/GramRt.v
theories/GramExact.v
theories/GramProps.v
theories/LinterModel.v
theories/LinterSpec.v
theories/LinterProofs.v
theories/LinterProps.v
theories/FinderModel.v
theories/FinderSpec.v
theories/FinderProofs.v
theories/FinderProps.v
theories/ApiModel.v
theories/ApiSpec.v
theories/ApiProofs.v
theories/ApiProps.v
theories/CompositeModel.v
theories/CompositeSpec.v
theories/CompositeProofs.v
theories/CompositeProps.v
theories/JobModel.v
theories/JobSpec.v
theories/JobProofs.v
theories/JobProps.v
theories/LockModel.v
theories/LockSpec.v
theories/LockProofs.v
theories/LoopProofs.v
theories/LsModel.v
theories/LsSpec.v
theories/LsProofs.v
theories/LockProps.v
theories/PaintModel.v
theories/PaintSpec.v
theories/PaintProofs.v
theories/PaintProps.v
theories/CacheModel.v
theories/CacheProps.v
theories/MarkProps.v
theories/NameProps.v
theories/RenderSpec.v
theories/RenderProofs.v
theories/RenderProps.v
theories/WidthProps.v
theories/ResModel.v
theories/ResSpec.v
theories/ResProofs.v
theories/ResProps.v
theories/HoverModel.v
theories/HoverSpec.v
theories/HoverProofs.v
theories/HoverProps.v
theories/HashModel.v
theories/HashProps.v
theories/PosModel.v
theories/PosProps.v
theories/GramExplFile.v
theories/LinkModel.v
theories/LinkProofs.v
theories/LinkProps.v
theories/BlockSpec.v
theories/BlockProofs.v
theories/BlockProps.v
theories/LocModel.v
theories/LocSpec.v
theories/LocTexts.v
theories/LocProofs.v
theories/LocErase.v
theories/LocTiles.v
theories/LocProps.v
theories/LintLocModel.v
theories/LintLocProofs.v
theories/LintLocProps.v
theories/CliModel.v
theories/CliSpec.v
theories/CliProofs.v
theories/CliProps.v
theories/ImageModel.v
theories/ImageProps.v
theories/DumpModel.v
theories/DumpSpec.v
theories/DumpProofs.v
theories/DumpRead.v
theories/DumpProps.v
theories/SvgModel.v
theories/SvgSpec.v
theories/SvgProofs.v
theories/SvgProps.v
theories/LexModel.v
theories/LexProps.v
theories/FloatModel.v
theories/FloatSpec.v
theories/FloatProofs.v
theories/FloatFile.v
theories/FloatProps.v
theories/DepictSpec.v
theories/DepictNodes.v
theories/DepictTrack.v
theories/DepictPads.v
theories/DepictProofs.v
theories/DepictProps.v
theories/LaidSpec.v
theories/LaidProofs.v
theories/LaidProps.v
theories/AcceptSpec.v
theories/AcceptMacro.v
theories/AcceptProofs.v
theories/AcceptProps.v
theories/AgreeSpec.v
theories/AgreeBuild.v
theories/AgreeProofs.v
theories/AgreeProps.v
theories/WalkModel.v
theories/WalkSpec.v
theories/WalkProofs.v
theories/WalkProps.v
theories/InkSpec.v
theories/InkVm.v
theories/InkProofs.v
theories/InkProps.v
theories/InkBuildSpec.v
theories/InkBuild.v
theories/InkBuildProps.v
theories/PixelSpec.v
theories/PixelProofs.v
theories/PixelProps.v
theories/PresetModel.v
theories/SettleSpec.v
theories/SettleProofs.v
theories/SettleProps.v
theories/InkBlockSpec.v
theories/InkBlockProofs.v
theories/InkBlockProps.v
theories/MetaSpec.v
theories/MetaProofs.v
theories/MetaProps.v
theories/LenModel.v
theories/LenSpec.v
theories/LenSafe.v
theories/LenGram.v
theories/LenFuel.v
theories/LenProofs.v
theories/LenProps.v
theories/ResLine.v
theories/ResLineProps.v
theories/JsonModel.v
theories/JsonSpec.v
theories/JsonProofs.v
theories/JsonProps.v
theories/StopBlock.v
theories/StopBlockProps.v
theories/StaleSpec.v
theories/Stale.v
theories/StaleProps.v
theories/FirstFlash.v
theories/FirstFlashProps.v
theories/RedefSpec.v
theories/RedefProofs.v
theories/RedefProps.v
theories/RedefInk.v
theories/SpotModel.v
theories/SpotSpec.v
theories/SpotProofs.v
theories/SpotTrace.v
theories/SpotProps.v
theories/TermModel.v
theories/TermSpec.v
theories/TermProofs.v
theories/TermProps.v
theories/MdModel.v
theories/MdSpec.v
theories/MdProps.v
theories/OpMdModel.v
theories/OpMdProps.v
theories/PrimMdModel.v
theories/PrimMdProps.v
theories/MdEffectProps.v
theories/CompModel.v
theories/CompSpec.v
theories/CompProofs.v
theories/CompProps.v
theories/CompFileProps.v
theories/CompServeProps.v
