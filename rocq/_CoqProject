-Q theories Verif
theories/Base/Str.v
theories/Css/LexerModel.v
theories/Css/LexerSpec.v
theories/Css/LexerProofs.v
theories/Css/LexerProps.v
theories/Css/ParserModel.v
theories/Css/ParserSpec.v
theories/Css/ParserProofs.v
theories/Css/ParserRoundTrip.v
theories/Css/ParserProps.v
theories/Style/AnBModel.v
theories/Style/AnBProofs.v
theories/Style/AnBProps.v
theories/Style/CascadeModel.v
theories/Style/CascadeSpec.v
theories/Style/CascadeProofs.v
theories/Style/CascadeProps.v
theories/Style/SelectorModel.v
theories/Style/SelectorSpec.v
theories/Style/SelectorProofs.v
theories/Style/SelectorProps.v
theories/Style/SelectorParseModel.v
theories/Style/SelectorParseSpec.v
theories/Style/AnBParseProofs.v
theories/Style/SelectorTree.v
theories/Style/SelectorParseProofs.v
theories/Style/SelectorParseTotal.v
theories/Style/SelectorParseProps.v
theories/Style/IndexModel.v
theories/Style/IndexSpec.v
theories/Style/IndexProofs.v
theories/Style/IndexProps.v
theories/Base/Outcome.v
theories/Style/CounterModel.v
theories/Style/CounterSpec.v
theories/Style/CounterProofs.v
theories/Style/CounterResolve.v
theories/Style/CounterProps.v
theories/Values/Number.v
theories/Values/LengthModel.v
theories/Values/LengthSpec.v
theories/Values/LengthProps.v
theories/Values/CalcModel.v
theories/Values/CalcProps.v
theories/Values/ColorModel.v
theories/Values/ColorSpec.v
theories/Values/ColorProofs.v
theories/Values/ColorProofs2.v
theories/Values/ColorProofs3.v
theories/Values/ColorProps.v
theories/Style/MediaModel.v
theories/Style/MediaSpec.v
theories/Style/MediaProofs.v
theories/Style/MediaProps.v
theories/Dom/TreeModel.v
theories/Dom/TreeSpec.v
theories/Dom/TreeProofs.v
theories/Dom/TreeProps.v
theories/Dom/TokenListModel.v
theories/Dom/TokenListProps.v
theories/Html/Entities.v
theories/Html/LexerModel.v
theories/Html/LexerInv.v
theories/Html/LexerTac.v
theories/Html/LexerSteps.v
theories/Html/LexerSteps2.v
theories/Html/LexerFrame.v
theories/Html/LexerProofs.v
theories/Html/RefProofs.v
theories/Html/SerialModel.v
theories/Html/SerialSpec.v
theories/Html/SerialProofs.v
theories/Html/NumProofs.v
theories/Html/AttrProofs.v
theories/Html/DoctypeProofs.v
theories/Html/HtmlProps.v
theories/Print/PageModel.v
theories/Print/PageProps.v
theories/Print/MarginModel.v
theories/Print/MarginProps.v
theories/Print/RunningModel.v
theories/Print/RunningProps.v
theories/Layout/BreakModel.v
theories/Layout/BlockModel.v
theories/Layout/PaginateModel.v
theories/Layout/PaginateSpec.v
theories/Layout/PaginateProofs.v
theories/Layout/RenderProofs.v
theories/Layout/DiscoverProofs.v
theories/Layout/ForcedProofs.v
theories/Layout/PaginateProps.v
theories/Layout/BreakProps.v
theories/Layout/BlockProps.v
theories/Layout/SizingModel.v
theories/Layout/SizingProps.v
theories/Layout/PositionModel.v
theories/Layout/PositionProps.v
theories/Table/GridModel.v
theories/Table/GridSpec.v
theories/Table/GridProofs.v
theories/Table/GridProps.v
theories/Table/RecordProps.v
theories/Table/BorderModel.v
theories/Table/BorderProps.v
theories/Table/WidthModel.v
theories/Table/WidthProofs.v
theories/Table/WidthProps.v
theories/Table/HeightModel.v
theories/Table/HeightProps.v
theories/Table/CellProps.v
theories/Flex/FlexModel.v
theories/Flex/LineProps.v
theories/Flex/FlexProps.v
theories/Flex/FillProps.v
theories/Flex/JustifyProps.v
theories/Flex/CrossModel.v
theories/Flex/CrossProps.v
theories/Driver/DriverModel.v
theories/Driver/DriverProofs.v
theories/Driver/DriverProps.v
theories/Script/ScriptModel.v
theories/Script/ScriptProofs.v
theories/Script/ScriptProps.v
theories/Script/LexModel.v
theories/Script/LexProps.v
theories/Xml/XmlModel.v
theories/Xml/XmlSpec.v
theories/Xml/XmlLoose.v
theories/Xml/XmlProofs.v
theories/Xml/XmlRead.v
theories/Xml/XmlTotal.v
theories/Xml/XmlSound.v
theories/Xml/XmlProps.v
theories/Batch/BatchModel.v
theories/Batch/BatchSpec.v
theories/Batch/BatchProofs.v
theories/Batch/BatchProps.v
theories/Batch/DecoratorModel.v
theories/Batch/DecoratorProps.v
theories/Html/SvgNames.v
theories/Html/BuildModel.v
theories/Html/BuildSpec.v
theories/Html/BuildDom.v
theories/Html/BuildSteps.v
theories/Html/BuildTags.v
theories/Html/BuildStart.v
theories/Html/BuildEnd.v
theories/Html/BuildMono.v
theories/Html/BuildRun.v
theories/Html/BuildTable.v
theories/Html/BuildTree.v
theories/Html/LexerSink.v
theories/Html/BuildDoc.v
theories/Html/BuildFrag.v
theories/Html/OmitSpec.v
theories/Html/OmitSteps.v
theories/Html/OmitTree.v
theories/Html/OmitDoc.v
theories/Html/OmitLex.v
theories/Html/OmitProps.v
theories/Html/FromSpec.v
theories/Html/BuildInv.v
theories/Html/BuildFrom.v
theories/Html/BuildProps.v
theories/Boxes/BoxModel.v
theories/Boxes/BoxSpec.v
theories/Boxes/BoxProofs.v
theories/Boxes/BoxShape.v
theories/Boxes/BoxText.v
theories/Boxes/BoxProps.v
theories/Paint/PaintModel.v
theories/Paint/PaintSpec.v
theories/Paint/PaintProofs.v
theories/Paint/PaintOnce.v
theories/Paint/PaintOrder.v
theories/Paint/PaintHolders.v
theories/Paint/PaintProps.v
theories/Props/VarModel.v
theories/Props/VarSpec.v
theories/Props/VarProofs.v
theories/Props/VarProps.v
theories/Props/EngineModel.v
theories/Props/EngineSpec.v
theories/Props/EngineProofs.v
theories/Props/EngineProofs2.v
theories/Props/BoxPropModel.v
theories/Props/BoxPropProofs.v
theories/Props/EngineProofs3.v
theories/Props/BoxPropSpec.v
theories/Props/BoxPropProofs2.v
theories/Props/BoxPropProofs3.v
theories/Props/BoxPropProofs4.v
theories/Props/BoxPropProofs5.v
theories/Props/BoxPropProps.v
theories/Sheet/SheetModel.v
theories/Sheet/SheetSpec.v
theories/Sheet/SheetProofs.v
theories/Sheet/SheetProps.v
theories/Sheet/SheetProps2.v
theories/Transform/TransformModel.v
theories/Transform/TransformSpec.v
theories/Transform/TransformProofs.v
theories/Transform/TransformProofs2.v
theories/Transform/TransformProofs3.v
theories/Transform/TransformProps.v
theories/Style/CascadeDecisive.v
theories/Props/EngineProofs4.v
theories/Props/LonghandModel.v
theories/Props/LonghandSpec.v
theories/Props/LonghandProofs.v
theories/Props/LonghandProofs2.v
theories/Props/LonghandProps.v
theories/Props/LonghandProps2.v
theories/Font/FontModel.v
theories/Font/FontSpec.v
theories/Font/FontProofs.v
theories/Font/FontProofs2.v
theories/Font/FontProps.v
theories/Font/FontProps2.v
theories/Clip/ClipModel.v
theories/Clip/ClipSpec.v
theories/Clip/ClipProofs.v
theories/Clip/ClipProofs2.v
theories/Clip/ClipProps.v
theories/Style/RestyleModel.v
theories/Style/RestyleProps.v
theories/Batch/WindowModel.v
theories/Batch/WindowProps.v
