-Q theories Verif

theories/MediaModel.v
theories/MediaSpec.v
theories/MediaPrintProofs.v
theories/MediaCustomModel.v
theories/MediaShapeProofs.v
theories/MediaWfProofs.v
theories/MediaBoolProofs.v
theories/MediaCustomProofs.v
theories/MediaProps.v
theories/VisitorModel.v
theories/VisitorSpec.v
theories/VisitorProofs.v
theories/VisitorProps.v
theories/ValueModel.v
theories/ValueSpec.v
theories/ValueProofs.v
theories/NumTextModel.v
theories/NumTextSpec.v
theories/NumTextProofs.v
theories/ValueProps.v
theories/BundleModel.v
theories/BundleSpec.v
theories/BundleLoadProofs.v
theories/BundleCondProofs.v
theories/BundleOrderProofs.v
theories/BundleInlineProofs.v
theories/BundleBrowserProofs.v
theories/BundleRenameProofs.v
theories/BundleFuelProofs.v
theories/BundleProofs.v
theories/BundleMainProofs.v
theories/BundleLayerProofs.v
theories/BundleSchedProofs.v
theories/BundleExamples.v
theories/BundleProps.v
theories/VendorPrefixModel.v
theories/PropertyTable.v
theories/SupportsModel.v
theories/SupportsSpec.v
theories/SupportsProofs.v
theories/SupportsParseProofs.v
theories/SupportsMeaningProofs.v
theories/SupportsExamples.v
theories/SupportsProps.v
theories/BundleCondProps.v
theories/BloomModel.v
theories/SelectorModel.v
theories/SelectorSpec.v
theories/SelectorMatchProofs.v
theories/SelectorBuildProofs.v
theories/BloomProofs.v
theories/SpecificityProofs.v
theories/SelectorMainProofs.v
theories/SelectorExamples.v
theories/SelectorProps.v
theories/IdentModel.v
theories/IdentSpec.v
theories/IdentProofs.v
theories/PatternModel.v
theories/PatternSpec.v
theories/PatternProofs.v
theories/PrinterModel.v
theories/PrinterSpec.v
theories/PrinterPosProofs.v
theories/PrinterLayoutProofs.v
theories/PrinterNameProofs.v
theories/PrinterExamples.v
theories/PrinterProps.v
theories/ShorthandTable.v
theories/DeclModel.v
theories/DeclSpec.v
theories/DeclProofs.v
theories/DeclSetProofs.v
theories/DeclGetProofs.v
theories/DeclRemoveProofs.v
theories/DeclDecide.v
theories/DeclExamples.v
theories/DeclProps.v
theories/DeclTextModel.v
theories/DeclTextSpec.v
theories/DeclTextProofs.v
theories/DeclTextBlockProofs.v
theories/DeclTextRoundProofs.v
theories/DeclTextExamples.v
theories/DeclTextProps.v
theories/SideModel.v
theories/SideSpec.v
theories/SideProofs.v
theories/SideOrderProofs.v
theories/SideExamples.v
theories/SideProps.v
theories/ShortModel.v
theories/ShortSpec.v
theories/ShortProofs.v
theories/ShortExamples.v
theories/ShortProps.v
theories/PrefixModel.v
theories/PrefixSpec.v
theories/PrefixProofs.v
theories/PrefixExamples.v
theories/PrefixProps.v
theories/TargetsTable.v
theories/TargetsModel.v
theories/TargetsSpec.v
theories/TargetsProofs.v
theories/TargetsExamples.v
theories/TargetsProps.v
theories/PrinterOptSpec.v
theories/PrinterOptProofs.v
theories/PrinterOptProps.v
theories/ColorModel.v
theories/ColorSpec.v
theories/ColorProofs.v
theories/ColorProps.v
theories/MinifyModel.v
theories/MinifySpec.v
theories/MinifyTree.v
theories/MinifyProofs.v
theories/MinifyCalm.v
theories/MinifyFuel.v
theories/MinifyExamples.v
theories/MinifyProps.v
theories/NestModel.v
theories/NestSpec.v
theories/NestProofs.v
theories/NestExamples.v
theories/NestProps.v
theories/CalcModel.v
theories/CalcSpec.v
theories/CalcArithProofs.v
theories/CalcProofs.v
theories/CalcTypeProofs.v
theories/CalcFuelProofs.v
theories/CalcAcceptProofs.v
theories/CalcPrintProofs.v
theories/CalcFinalProofs.v
theories/CalcExamples.v
theories/CalcProps.v
theories/BlockModel.v
theories/BlockSpec.v
theories/BlockProofs.v
theories/BlockIndexProofs.v
theories/BlockRestProofs.v
theories/BlockUsedProofs.v
theories/BlockHandlers.v
theories/BlockValueSpec.v
theories/BlockPartProofs.v
theories/BlockBoxProofs.v
theories/BlockPrefixProofs.v
theories/BlockPrefixUsedProofs.v
theories/BlockAllProofs.v
theories/BlockFreeProofs.v
theories/BlockExamples.v
theories/BlockProps.v
theories/BlockDirSpec.v
theories/BlockDirProofs.v
theories/BlockDirProps.v
theories/UrangeModel.v
theories/UrangeSpec.v
theories/UrangeProofs.v
theories/UrangeProps.v
theories/PlaceModel.v
theories/PlaceSpec.v
theories/PlaceProofs.v
theories/PlaceProps.v
theories/AnimModel.v
theories/AnimSpec.v
theories/AnimProofs.v
theories/AnimPrintProofs.v
theories/AnimProps.v
theories/MatrixModel.v
theories/MatrixProofs.v
theories/TransformModel.v
theories/TransformSpec.v
theories/TransformProofs.v
theories/DecomposeModel.v
theories/DecomposeProofs.v
theories/TransformBlockModel.v
theories/TransformBlockSpec.v
theories/TransformBlockProofs.v
theories/TransformProps.v
theories/TransformMoreProofs.v
theories/TransformMoreProps.v
theories/MatrixProps.v
theories/TransformBlockProps.v
theories/AnbModel.v
theories/AnbSpec.v
theories/AnbProofs.v
theories/AnbProps.v
theories/SelTextModel.v
theories/SelTextSpec.v
theories/SelTextProofs.v
theories/SelTextLayout.v
theories/SelTextBack.v
theories/SelTextFns.v
theories/SelTextMeaning.v
theories/SelTextRoot.v
theories/SelTextCases.v
theories/SelTextProps.v
theories/SelGramSpec.v
theories/SelGramWords.v
theories/SelGramParts.v
theories/SelGramNames.v
theories/SelGramProofs.v
theories/SelGramCases.v
theories/SelGramProps.v
theories/ColorSpaceModel.v
theories/ColorMixModel.v
theories/ColorMixSpec.v
theories/ColorMixProofs.v
theories/ColorMixProps.v
theories/ColorSpaceSpec.v
theories/ColorSpaceProofs.v
theories/ColorConvertProofs.v
theories/ColorConvertProps.v
theories/ColorTextModel.v
theories/ColorTextSpec.v
theories/ColorTextProofs.v
theories/ColorTextProps.v
theories/BorderModel.v
theories/BorderSpec.v
theories/BorderProofs.v
theories/BorderOrderProofs.v
theories/BorderImageProofs.v
theories/BorderExamples.v
theories/BorderProps.v
theories/TokSpec.v
theories/TokModel.v
theories/TokListSpec.v
theories/TokNumProofs.v
theories/TokProofs.v
theories/TokListProofs.v
theories/TokReadProofs.v
theories/TokSpacedProofs.v
theories/TokExamples.v
theories/TokProps.v
theories/SubstModel.v
theories/SubstSpec.v
theories/SubstProofs.v
theories/SubstExamples.v
theories/SubstProps.v
theories/GridModel.v
theories/GridSpec.v
theories/GridReadProofs.v
theories/GridTemplateProofs.v
theories/GridVarProofs.v
theories/GridPrintProofs.v
theories/GridShortProofs.v
theories/GridBlockProofs.v
theories/GridOneProofs.v
theories/GridAcceptProofs.v
theories/GridExamples.v
theories/GridProps.v
theories/SyntaxModel.v
theories/SyntaxSpec.v
theories/SyntaxProofs.v
theories/SyntaxValueProofs.v
theories/SyntaxExamples.v
theories/SyntaxProps.v
theories/FlexModel.v
theories/FlexSpec.v
theories/FlexProofs.v
theories/FlexBlockProofs.v
theories/FlexExamples.v
theories/FlexMoreProofs.v
theories/FlexProps.v
theories/PositionModel.v
theories/PositionSpec.v
theories/PositionProofs.v
theories/PositionProps.v
