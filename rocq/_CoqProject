-Q theories Verif
theories/AtlasModel.v
theories/AtlasProofs.v
theories/AtlasProps.v
theories/AtlasSpec.v
theories/AtlasTextProofs.v
theories/Base.v
theories/BaseFacts.v
theories/BinarySearchModel.v
theories/BinarySearchProofs.v
theories/BinarySearchProps.v
theories/BitmapModel.v
theories/BitmapProofs.v
theories/BitmapProps.v
theories/BitmapSpec.v
theories/BlinkModel.v
theories/BlinkProofs.v
theories/BlinkProps.v
theories/BlinkSpec.v
theories/BuilderBreakProofs.v
theories/BuilderDemo.v
theories/BuilderDocProofs.v
theories/BuilderEndProofs.v
theories/BuilderItemProofs.v
theories/BuilderLineProofs.v
theories/BuilderModel.v
theories/BuilderProps.v
theories/BuilderShapeProofs.v
theories/BuilderSpec.v
theories/BuilderTileProofs.v
theories/BuilderVisualProofs.v
theories/BuiltBoxDemo.v
theories/BuiltDemo.v
theories/BuiltProofs.v
theories/BuiltProps.v
theories/BuiltSpec.v
theories/CaseMapModel.v
theories/CaseMapProofs.v
theories/CaseMapProps.v
theories/CaseMapSpec.v
theories/ClickProofs.v
theories/ClickProps.v
theories/ClickSpec.v
theories/ClipModel.v
theories/ClipProofs.v
theories/ClipProps.v
theories/ClipSpec.v
theories/ColorModel.v
theories/ColorProofs.v
theories/ColorProps.v
theories/CostModel.v
theories/CostProofs.v
theories/CostProps.v
theories/CostSpec.v
theories/CursorModel.v
theories/CursorProofs.v
theories/CursorProps.v
theories/CursorSpec.v
theories/DragProps.v
theories/DragSpec.v
theories/DrawModel.v
theories/DrawProofs.v
theories/DrawProps.v
theories/DrawSpec.v
theories/EventModel.v
theories/EventProofs.v
theories/EventProps.v
theories/EventSpec.v
theories/FileModel.v
theories/FileProofs.v
theories/FileProps.v
theories/FileSpec.v
theories/FloatAgreeProofs.v
theories/FloatAgreeProps.v
theories/FloatAgreeSpec.v
theories/FloatHitModel.v
theories/FloatHitProofs.v
theories/FloatHitProps.v
theories/FloatIntProofs.v
theories/FloatLayoutModel.v
theories/FloatLayoutProofs.v
theories/FloatLayoutProps.v
theories/FloatLayoutSpec.v
theories/FloatModel.v
theories/FloatProofs.v
theories/FloatRealProofs.v
theories/FloatSelectModel.v
theories/FloatSelectProofs.v
theories/FloatSelectProps.v
theories/FloatSelectSpec.v
theories/FontCacheProofs.v
theories/FontFallProofs.v
theories/FontHistProofs.v
theories/FontModel.v
theories/FontProofs.v
theories/FontProps.v
theories/FontSizeModel.v
theories/FontSizeProofs.v
theories/FontSizeProps.v
theories/FontSpec.v
theories/FormattingAttrProofs.v
theories/FormattingIterModel.v
theories/FormattingIterProofs.v
theories/FormattingIterProps.v
theories/FormattingIterSpec.v
theories/FormattingLexProofs.v
theories/FormattingModel.v
theories/FormattingProofs.v
theories/FormattingProps.v
theories/FormattingSpec.v
theories/FtModel.v
theories/FtProofs.v
theories/FtProps.v
theories/FtSpec.v
theories/GlModel.v
theories/GpuModel.v
theories/GpuProofs.v
theories/GpuProps.v
theories/GpuSpec.v
theories/GrowProps.v
theories/GrowSpec.v
theories/HashModel.v
theories/HashProofs.v
theories/HashProps.v
theories/HashSpec.v
theories/HbFontModel.v
theories/HbFontProofs.v
theories/HbFontProps.v
theories/HbFontSpec.v
theories/ImmediateModel.v
theories/ImmediateProps.v
theories/ImmediateSpec.v
theories/JsonModel.v
theories/JsonProofs.v
theories/JsonProps.v
theories/JsonSpec.v
theories/JsonTextModel.v
theories/JsonTextProps.v
theories/JsonTextSpec.v
theories/KeyCaretProofs.v
theories/KeyCaretProps.v
theories/KeyCaretSpec.v
theories/LayoutCaretProofs.v
theories/LayoutCursorProofs.v
theories/LayoutGeomProofs.v
theories/LayoutHitProofs.v
theories/LayoutModel.v
theories/LayoutProofs.v
theories/LayoutProps.v
theories/LayoutSpec.v
theories/LayoutTableProofs.v
theories/LifeModel.v
theories/LifeProofs.v
theories/LifeProps.v
theories/LifeShape.v
theories/LifeSpec.v
theories/LockModel.v
theories/LockProofs.v
theories/LockProps.v
theories/LockSpec.v
theories/MainModel.v
theories/MainProofs.v
theories/MainProps.v
theories/MainSpec.v
theories/MetricsModel.v
theories/MetricsProofs.v
theories/MetricsProps.v
theories/MetricsSpec.v
theories/MsdfAtlasProofs.v
theories/MsdfFloatProofs.v
theories/MsdfModel.v
theories/MsdfProofs.v
theories/MsdfProps.v
theories/MsdfSpec.v
theories/MultiClickProps.v
theories/MultiClickSpec.v
theories/NameModel.v
theories/NameProofs.v
theories/NameProps.v
theories/NameSpec.v
theories/PackingModel.v
theories/PackingProofs.v
theories/PackingProps.v
theories/RasterModel.v
theories/RasterProofs.v
theories/RasterProps.v
theories/RasterSpec.v
theories/ReadModel.v
theories/ReadOrderProofs.v
theories/ReadOrderProps.v
theories/ReadOrderSpec.v
theories/ReadProps.v
theories/RequestModel.v
theories/RequestProofs.v
theories/RequestProps.v
theories/RequestSpec.v
theories/RichBoxProps.v
theories/RichModel.v
theories/RichProofs.v
theories/RichProps.v
theories/RichSpec.v
theories/RunBuilderModel.v
theories/RunBuilderProofs.v
theories/RunBuilderProps.v
theories/RunBuilderSpec.v
theories/ScreenModel.v
theories/ScreenProofs.v
theories/ScreenProps.v
theories/ScreenSpec.v
theories/ScriptRunModel.v
theories/ScriptRunProofs.v
theories/ScriptRunProps.v
theories/ScriptRunSpec.v
theories/SettingsModel.v
theories/SettingsProofs.v
theories/SettingsProps.v
theories/SettingsSpec.v
theories/ShaderModel.v
theories/ShaderProofs.v
theories/ShaderProps.v
theories/ShaderSpec.v
theories/StyleModel.v
theories/StyleProofs.v
theories/StyleProps.v
theories/StyleSpec.v
theories/TableModel.v
theories/TableProofs.v
theories/TableProps.v
theories/TableSpec.v
theories/TextBoxExample.v
theories/TextBoxLayoutProofs.v
theories/TextBoxModel.v
theories/TextBoxProofs.v
theories/TextBoxProps.v
theories/TextBoxSpec.v
theories/TextBoxUtfProofs.v
theories/TextureByteProofs.v
theories/TextureModel.v
theories/TextureProofs.v
theories/TextureProps.v
theories/TextureShownProofs.v
theories/TextureSpec.v
theories/ToolModel.v
theories/ToolProofs.v
theories/ToolProps.v
theories/ToolSpec.v
theories/TreeModel.v
theories/TreeProofs.v
theories/TreeProps.v
theories/TreeSpec.v
theories/UiModel.v
theories/UiProofs.v
theories/UiProps.v
theories/UiSpec.v
theories/UndoProps.v
theories/ValueRunsModel.v
theories/ValueRunsProofs.v
theories/ValueRunsProps.v
theories/ValueRunsSpec.v
theories/VariantModel.v
theories/VariantProps.v
theories/VariantSpec.v
theories/WindowModel.v
theories/WindowProofs.v
theories/WindowProps.v
theories/WindowSpec.v
theories/WorkModel.v
theories/WorkProofs.v
theories/WorkProps.v
theories/WorkSpec.v
