-Q theories Verif
theories/AfmModel.v
theories/AfmProps.v
theories/AfmProps2.v
theories/AfmProps3.v
theories/AfmSpec.v
theories/ArcModel.v
theories/ArcProofs.v
theories/ArcProps.v
theories/ArcSpec.v
theories/ArcSpeedProps.v
theories/AttrModel.v
theories/AttrProofs.v
theories/AttrProps.v
theories/AttrSpec.v
theories/AxisModel.v
theories/AxisPaintModel.v
theories/AxisPaintProps.v
theories/AxisPaintProps2.v
theories/AxisPaintProps3.v
theories/AxisPaintProps4.v
theories/AxisPaintSpec.v
theories/AxisProps.v
theories/AxisProps2.v
theories/AxisSpec.v
theories/BarProps.v
theories/BboxModel.v
theories/BboxProps.v
theories/BboxSpec.v
theories/BitmapModel.v
theories/BitmapProofs.v
theories/BitmapProps.v
theories/BitmapSpec.v
theories/BoxAlign.v
theories/BoxCircleModel.v
theories/BoxCircleProps.v
theories/BoxModel.v
theories/BoxProps.v
theories/BraceModel.v
theories/BraceProps.v
theories/BraceProps2.v
theories/CanvasBoxModel.v
theories/CanvasBoxProps.v
theories/CanvasModel.v
theories/CanvasProofs.v
theories/CanvasProofs2.v
theories/CanvasProofs3.v
theories/CanvasProps.v
theories/CanvasSpec.v
theories/ColorModel.v
theories/ColorProps.v
theories/ConfigModel.v
theories/ConfigProps.v
theories/ConfigProps2.v
theories/ConfigProps3.v
theories/ConfigSpec.v
theories/ConnectorModel.v
theories/ConnectorProps.v
theories/ConnectorProps2.v
theories/ConnectorProps3.v
theories/CurveArclenModel.v
theories/CurveArclenProps.v
theories/CurveLenModel.v
theories/CurveLenProofs.v
theories/CurveLenProps.v
theories/CurveLenSpec.v
theories/CurveModel.v
theories/CurveProofs.v
theories/CurveProofs2.v
theories/CurveProofs3.v
theories/CurveProofs4.v
theories/CurveProps.v
theories/CurveSpec.v
theories/CycloidModel.v
theories/CycloidProps.v
theories/CycloidProps2.v
theories/DataModel.v
theories/DataProps.v
theories/DataProps2.v
theories/DecoModel.v
theories/DecoProps.v
theories/DecoProps2.v
theories/DecoSpec.v
theories/DeformModel.v
theories/DeformProps.v
theories/DeformProps2.v
theories/DeformProps3.v
theories/DeformProps4.v
theories/DeformProps5.v
theories/DviModel.v
theories/DviProofs.v
theories/DviProps.v
theories/DviSpec.v
theories/EncProps.v
theories/EpsModel.v
theories/EpsProps.v
theories/EpsProps2.v
theories/EpsProps3.v
theories/ExcludeModel.v
theories/ExcludeProps.v
theories/FinishModel.v
theories/FinishProps.v
theories/FontLoadModel.v
theories/FontLoadProps.v
theories/FormModel.v
theories/FormProps.v
theories/FunctionDataModel.v
theories/FunctionDataProps.v
theories/GradientModel.v
theories/GradientProps.v
theories/GradientStyleModel.v
theories/GradientStyleProps.v
theories/Graph2dModel.v
theories/Graph2dProps.v
theories/Graph2dSpec.v
theories/Graph3dModel.v
theories/Graph3dProps.v
theories/Graph3dProps2.v
theories/Graph3dProps3.v
theories/Graph3dSpec.v
theories/GraphAxesModel.v
theories/GraphAxesProofs.v
theories/GraphAxesProps.v
theories/GraphAxesProps2.v
theories/GraphAxesProps3.v
theories/GraphBar3dProps.v
theories/GraphBarModel.v
theories/GraphBarProps.v
theories/GraphBarSpec.v
theories/GraphLineModel.v
theories/GraphLineProps.v
theories/GridModel.v
theories/GridProps.v
theories/GridProps2.v
theories/GridSpec.v
theories/GridStyleModel.v
theories/GridStyleProps.v
theories/HexModel.v
theories/HexProps.v
theories/HistogramModel.v
theories/HistogramProps.v
theories/HistogramProps2.v
theories/HistogramProps3.v
theories/ImagePlaceModel.v
theories/ImagePlaceProps.v
theories/ImagePlaceSpec.v
theories/JpegModel.v
theories/JpegProps.v
theories/KeyModel.v
theories/KeyProps.v
theories/KpseModel.v
theories/KpseProps.v
theories/LayerModel.v
theories/LayerProps.v
theories/LineSmoothModel.v
theories/LineSmoothProps.v
theories/MapModel.v
theories/MapProps.v
theories/MapSpec.v
theories/MeshModel.v
theories/MeshProps.v
theories/MeshSpec.v
theories/MpModel.v
theories/MpPathProps.v
theories/MpProofs.v
theories/MpProofs2.v
theories/MpProofs3.v
theories/MpProofs4.v
theories/MpProofs5.v
theories/MpProofs6.v
theories/MpProofs7.v
theories/MpProps.v
theories/MpProps2.v
theories/MpSpec.v
theories/NormpathModel.v
theories/NormpathProofs.v
theories/NormpathProps.v
theories/NormpathProps2.v
theories/NormpathProps3.v
theories/NormpathSpec.v
theories/NormpathSplitProps.v
theories/NormsubModel.v
theories/NormsubProofs.v
theories/NormsubProofs2.v
theories/NormsubProofs3.v
theories/NormsubProofs4.v
theories/NormsubProofs5.v
theories/NormsubProofs6.v
theories/NormsubProps.v
theories/NormsubProps2.v
theories/NormsubSpec.v
theories/OutputModel.v
theories/OutputProps.v
theories/PageModel.v
theories/PageProps.v
theories/ParterModel.v
theories/ParterProofs.v
theories/ParterProofs2.v
theories/ParterProofs3.v
theories/ParterProofs4.v
theories/ParterProofs5.v
theories/ParterProps.v
theories/ParterProps2.v
theories/ParterProps3.v
theories/ParterSpec.v
theories/PathArcProps.v
theories/PathArcSpec.v
theories/PathBbox.v
theories/PathEndProps.v
theories/PathLenProps.v
theories/PathModel.v
theories/PathNormModel.v
theories/PathNormProofs.v
theories/PathNormProps.v
theories/PathNormSpec.v
theories/PathPdfArcProps.v
theories/PathProps.v
theories/PathSpec.v
theories/PatternModel.v
theories/PatternProps.v
theories/PdfModel.v
theories/PdfProofs.v
theories/PdfProofs2.v
theories/PdfProofs3.v
theories/PdfProps.v
theories/PdfSpec.v
theories/PfmModel.v
theories/PfmProps.v
theories/PlotModel.v
theories/PlotProps.v
theories/PlotProps2.v
theories/PlotProps3.v
theories/PngProps.v
theories/PointStyleModel.v
theories/PointStyleProps.v
theories/PosModel.v
theories/PosProps.v
theories/PyDict.v
theories/RangeModel.v
theories/RangeProps.v
theories/RangeProps2.v
theories/RaterProps.v
theories/ReaderModel.v
theories/ReaderProps.v
theories/ReaderSpec.v
theories/RootsModel.v
theories/RootsProofs.v
theories/RootsProps.v
theories/RootsSpec.v
theories/SegmentProps.v
theories/SpecialModel.v
theories/SpecialProps.v
theories/SpecialProps2.v
theories/SpecialProps3.v
theories/SpecialSpec.v
theories/StrokeModel.v
theories/StrokeProps.v
theories/SubpathArclenModel.v
theories/SubpathArclenProps.v
theories/SubpathArclenProps2.v
theories/SubpathLenModel.v
theories/SubpathLenProps.v
theories/SurfaceModel.v
theories/SurfaceProps.v
theories/SurfaceProps2.v
theories/SurfaceProps3.v
theories/SurfaceProps4.v
theories/SurfaceProps5.v
theories/SurfaceSpec.v
theories/SvgArcProps.v
theories/SvgArcProps2.v
theories/SvgArcProps3.v
theories/SvgColorProps.v
theories/SvgFileModel.v
theories/SvgFileProps.v
theories/SvgInModel.v
theories/SvgInProofs.v
theories/SvgInProofs2.v
theories/SvgInProps.v
theories/SvgInProps2.v
theories/SvgInProps3.v
theories/SvgInSpec.v
theories/SvgTextModel.v
theories/SvgTextProps.v
theories/SvgTextProps2.v
theories/SvgTextSpec.v
theories/SvgTrafoProps.v
theories/SvgUnitProps.v
theories/SvgWriterModel.v
theories/SvgWriterProps.v
theories/SvgWriterSpec.v
theories/SymbolProps.v
theories/T1CodeStringProps.v
theories/T1FileModel.v
theories/T1FileProps.v
theories/T1FileSpec.v
theories/T1Model.v
theories/T1Proofs.v
theories/T1Proofs2.v
theories/T1Props.v
theories/T1Props2.v
theories/T1Spec.v
theories/T1codeModel.v
theories/T1codeProofs.v
theories/T1codeProps.v
theories/TexAnswerProps.v
theories/TexBracketProps.v
theories/TexEngineModel.v
theories/TexEngineProps.v
theories/TexEngineProps2.v
theories/TexEngineProps3.v
theories/TexEngineProps4.v
theories/TexEngineProps5.v
theories/TexLoadProps.v
theories/TexMonitorModel.v
theories/TexMonitorProps.v
theories/TexMsgModel.v
theories/TexMsgProps.v
theories/TextEncModel.v
theories/TextEncProps.v
theories/TextEncProps2.v
theories/TextPosModel.v
theories/TextPosProps.v
theories/TextPosProps2.v
theories/TextPosSpec.v
theories/TextStyleModel.v
theories/TextStyleProps.v
theories/TexterModel.v
theories/TexterProofs.v
theories/TexterProofs2.v
theories/TexterProofs3.v
theories/TexterProofs4.v
theories/TexterProps.v
theories/TexterSpec.v
theories/TfmModel.v
theories/TfmProps.v
theories/TfmProps2.v
theories/TfmSpec.v
theories/TickModel.v
theories/TickProofs.v
theories/TickProofs2.v
theories/TickProps.v
theories/TickSpec.v
theories/TimeAxisModel.v
theories/TimeAxisProps.v
theories/TrafoModel.v
theories/TrafoProps.v
theories/TrafoSpec.v
theories/UnicodeTextModel.v
theories/UnicodeTextProps.v
theories/UnicodeTextSpec.v
theories/UnitModel.v
theories/UnitProps.v
theories/UnitSpec.v
theories/UtilsModel.v
theories/UtilsProofs.v
theories/UtilsProps.v
theories/VfModel.v
theories/VfProps.v
