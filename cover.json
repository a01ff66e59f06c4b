[["__init__.py", [], ["pyxinfo"], [], 76], ["attr.py", ["mergeattrs", "getattrs", "checkattrs", "refineattrs", "attr.merge", "exclusiveattr.__init__", "exclusiveattr.merge", "sortbeforeattr.__init__", "sortbeforeattr.merge", "sortbeforeexclusiveattr.__init__", "sortbeforeexclusiveattr.merge", "clearclass.__init__", "clearclass.merge", "_clear.merge", "selectattrs", "selectattr", "changeattr.select", "changelist.__init__", "changelist.select", "multichangeattr.__init__", "multichangeattr.select"], [], ["AttrModel.v", "AxisPaintModel.v", "StrokeModel.v", "anchor"], 263], ["baseclasses.py", ["canvasitem.requiretextregion", "canvasitem.processPS", "canvasitem.processPDF", "deformer.deform"], ["canvasitem.bbox"], ["CanvasModel.v"], 75], ["bbox.py", ["bbox_pt.__init__", "bbox_pt.__bool__", "bbox_pt.__add__", "bbox_pt.__iadd__", "bbox_pt.__mul__", "bbox_pt.__imul__", "bbox_pt.copy", "bbox_pt.set", "bbox_pt.lowrestuple_pt", "bbox_pt.highrestuple_pt", "bbox_pt.intersects", "bbox_pt.includepoint_pt", "bbox_pt.transform", "bbox_pt.transformed", "bbox_pt.enlarge_pt", "bbox_pt.enlarged_pt", "bbox_pt.enlarge", "bbox_pt.enlarged", "bbox_pt.rect", "bbox_pt.height_pt", "bbox_pt.width_pt", "bbox_pt.top_pt", "bbox_pt.bottom_pt", "bbox_pt.left_pt", "bbox_pt.right_pt", "bbox_pt.center_pt", "bbox_pt.height", "bbox_pt.width", "bbox_pt.top", "bbox_pt.bottom", "bbox_pt.left", "bbox_pt.right", "bbox_pt.center", "bbox.__init__", "empty.__init__"], [], ["BboxModel.v"], 344], ["bitmap.py", ["ascii85lines", "ascii85stream", "asciihexlines", "asciihexstream", "image.__init__", "image.split", "image.save", "jpegimage.__init__", "PSimagedata.__init__", "PSimagedata.output", "PDFimage.write", "bitmap_trafo.imagedata", "bitmap_trafo.bbox", "bitmap_trafo.processPS", "bitmap_trafo.processPDF", "bitmap_trafo.processSVG", "bitmap_pt.__init__"], ["palette.__init__", "palette.getdata", "image.tobytes", "image.convert", "jpegimage.save", "PDFimagepalettedata.__init__", "PDFimagepalettedata.write", "PDFimage.__init__", "bitmap_trafo.__init__", "bitmap.__init__"], ["BitmapModel.v", "ImagePlaceModel.v", "JpegModel.v", "JpegProps.v", "PngProps.v", "anchor"], 618], ["box.py", ["polygon_pt.__init__", "polygon_pt._ensurecenter", "polygon_pt.path", "polygon_pt.transform", "polygon_pt.reltransform", "polygon_pt.successivepointnumbers", "polygon_pt.successivepoints", "polygon_pt.circlealignlinevector_pt", "polygon_pt.linealignlinevector_pt", "polygon_pt.circlealignpointvector_pt", "polygon_pt.linealignpointvector_pt", "polygon_pt.alignvector_pt", "polygon_pt.circlealignvector_pt", "polygon_pt.linealignvector_pt", "polygon_pt.circlealign_pt", "polygon_pt.linealign_pt", "polygon_pt.circlealign", "polygon_pt.linealign", "polygon_pt.extent_pt", "polygon_pt.extent", "polygon_pt.pointdistance_pt", "polygon_pt.pointdistance", "polygon_pt.boxdistance_pt", "polygon_pt.boxdistance", "polygon_pt.bbox", "genericalignequal_pt", "circlealignequal_pt", "linealignequal_pt", "circlealignequal", "linealignequal", "tile_pt", "polygon.__init__", "rect_pt.__init__", "rect.__init__"], ["polygon_pt.circlealignvector", "polygon_pt.linealignvector", "tile"], ["AxisPaintModel.v", "BoxCircleModel.v", "BoxModel.v", "KeyModel.v", "anchor"], 327], ["canvas.py", ["_wrappedindocument", "SVGclippath.__init__", "SVGclippath.output", "clip.__init__", "clip.processPS", "clip.processPDF", "clip.processSVGattrs", "canvas.__init__", "canvas.__len__", "canvas.__getitem__", "canvas.clear", "canvas._repr_png_", "canvas._repr_svg_", "canvas.bbox", "canvas.processPS", "canvas.processPDF", "canvas.processSVG", "canvas.layer", "canvas.insert", "canvas.draw", "canvas.stroke", "canvas.fill", "canvas.settextengine", "canvas.text", "canvas.text_pt", "canvas._gscmd", "canvas.writeGSfile", "canvas.pipeGS"], [], ["AxisModel.v", "CanvasBoxModel.v", "CanvasModel.v", "FinishModel.v", "GridStyleModel.v", "LayerModel.v", "anchor"], 519], ["color.py", ["_UCRc", "_UCRm", "_UCRy", "_BG", "set", "color.__init__", "color.processSVGattrs", "gray.__init__", "gray.processPS", "gray.processPDF", "gray.cmyk", "gray.gray", "gray.hsb", "gray.rgb", "gray.colorspacestring", "gray.to8bitbytes", "rgb.__init__", "rgb.processPS", "rgb.processPDF", "rgb.cmyk", "rgb.gray", "rgb.hsb", "rgb.rgb", "rgb.colorspacestring", "rgb.to8bitbytes", "rgb.tohexstring", "rgbfromhexstring", "hsb.__init__", "hsb.processPS", "hsb.processPDF", "hsb.cmyk", "hsb.gray", "hsb.hsb", "hsb.rgb", "hsb.colorspacestring", "cmyk.__init__", "cmyk.processPS", "cmyk.processPDF", "cmyk.cmyk", "cmyk.gray", "cmyk.hsb", "cmyk.rgb", "cmyk.colorspacestring", "cmyk.to8bitbytes", "gradient.getcolor", "gradient.select", "functiongradient_gray.__init__", "functiongradient_gray.getcolor", "functiongradient_cmyk.__init__", "functiongradient_cmyk.getcolor", "functiongradient_hsb.__init__", "functiongradient_hsb.getcolor", "functiongradient_rgb.__init__", "functiongradient_rgb.getcolor", "lineargradient_cmyk", "lineargradient_gray", "lineargradient_hsb", "lineargradient_rgb", "rgbgradient.__init__", "rgbgradient.getcolor", "cmykgradient.__init__", "cmykgradient.getcolor", "jet_r", "jet_g", "jet_b", "PDFextgstate.__init__", "PDFextgstate.write", "transparency.__init__", "transparency.processPS", "transparency.processPDF", "transparency.processSVGattrs"], [], ["AttrProps.v", "CanvasModel.v", "ColorModel.v", "GradientModel.v", "HexModel.v", "MeshModel.v", "SpecialModel.v", "SvgTextModel.v", "anchor"], 620], ["config.py", ["format.__init__", "full_filenames", "local.openers", "recursivedir.__init__", "recursivedir.openers", "ls_R.__init__", "ls_R.openers", "pykpathsea.openers", "fix_cygwin", "kpsewhich.__init__", "kpsewhich.openers", "getlist", "open"], ["internal.openers", "Popen", "locate.__init__", "locate.openers", "get", "getint", "getfloat", "getboolean"], ["ConfigModel.v", "KpseModel.v", "anchor"], 403], ["connector.py", ["connector_pt.omitends", "connector_pt.shortenpath", "line_pt.__init__", "arc_pt.__init__", "curve_pt.__init__", "twolines_pt.__init__", "twolines_pt._middle_a", "twolines_pt._middle_b", "twolines_pt._missinglength"], ["line.__init__", "curve.__init__", "arc.__init__", "twolines.__init__"], ["ConnectorModel.v", "anchor"], 402], ["data/lfs/createlfs.py", [], [], [], 37], ["deco.py", ["decoratedpath.__init__", "decoratedpath.ensurenormpath", "decoratedpath.excluderange", "decoratedpath.bbox", "decoratedpath.strokepath", "decoratedpath.processPS", "decoratedpath.processPDF", "decoratedpath.processSVG", "_stroked.__init__", "_filled.__init__", "_filled.__call__", "_filled.decorate", "_arrowhead", "arrow.__init__", "arrow.__call__", "arrow.decorate", "text.__init__", "text.decorate", "curvedtext.__init__", "curvedtext.decorate", "shownormpath.__init__", "shownormpath.decorate", "linehatched.__init__", "linehatched.__call__", "linehatched._decocanvas", "linehatched.decorate", "linehatched.merge", "colorgradient.__init__", "colorgradient.decorate", "brace.__init__", "brace.__call__", "brace._halfbracepath_pt", "brace._bracepath", "brace.decorate"], ["deco.decorate", "_stroked.__call__", "_stroked.decorate"], ["AttrModel.v", "BraceModel.v", "CanvasModel.v", "CanvasSpec.v", "DecoModel.v", "ExcludeModel.v", "PatternModel.v", "StrokeModel.v", "anchor"], 1197], ["deformer.py", ["curvescontrols_from_endlines_pt", "controldists_from_endgeometry_pt", "normcurve_from_endgeometry_pt", "intersection", "cycloid.__init__", "cycloid.__call__", "cycloid.deform", "cycloid.deformsubpath", "cornersmoothed.deformsubpath", "linesmoothed.__init__", "linesmoothed.__call__", "linesmoothed.deform", "linesmoothed.deformsubpath"], ["InvalidParamException.__init__", "cornersmoothed.__init__", "cornersmoothed.__call__", "cornersmoothed.deform", "mynormpathparam.__init__", "mynormpathparam.__str__", "mynormpathparam.__eq__", "mynormpathparam.__lt__", "mynormpathparam.__hash__", "mynormpathparam.smaller_equiv", "mynormpathparam.larger_equiv", "mynormpathparam.is_equiv", "mynormpathparam.is_beg_of_nspitem", "mynormpathparam.is_end_of_nspitem", "mynormpathparam.is_beg_of_nsp", "mynormpathparam.is_end_of_nsp", "_length_pt", "parallel.__init__", "parallel.__call__", "parallel.deform", "parallel.deformsubpath", "parallel.deformsubpathitem", "parallel.deformnicecurve", "parallel._path_around_corner", "parallel._distchecked", "parallel._distcrossingparameters", "parallel._get_angles", "parallel.rebuild_intersected_normpath", "parallel.normpath_selfintersections", "parallel.normpath_origintersections", "parallel._can_continue", "parallel._skip_intersection_doublet", "parallel._elim_intersection_doublets", "parallel._between_paths"], ["CycloidModel.v", "DeformModel.v", "LineSmoothModel.v", "anchor"], 1799], ["document.py", ["page.__init__", "page._process", "page.processPS", "page.processPDF", "_noclose.__init__", "_noclose.__enter__", "_noclose.__exit__", "_outputstream", "document.__init__", "document.append", "document.writeEPSfile", "document.writePSfile", "document.writePDFfile", "document.writeSVGfile", "document.writetofile"], ["paperformat.__init__", "_paperformatfromstring", "page.processSVG"], ["FinishModel.v", "OutputModel.v", "PageModel.v", "anchor"], 211], ["dvi/__init__.py", [], [], [], 1], ["dvi/dvifile.py", ["DVIfile.__init__", "DVIfile.beginsubpage", "DVIfile.endsubpage", "DVIfile.flushtext", "DVIfile.putrule", "DVIfile.putchar", "DVIfile.usefont", "DVIfile.definefont", "DVIfile.special", "DVIfile._push_dvistring", "DVIfile._pop_dvistring", "DVIfile._read_pre", "DVIfile.readpage"], [], ["DviModel.v", "SpecialModel.v", "TexEngineModel.v", "anchor"], 616], ["dvi/encfile.py", ["ENCfile.__init__"], [], ["MapModel.v", "anchor"], 52], ["dvi/mapfile.py", ["MAPline.__init__", "MAPline.getfontname", "MAPline.getfont", "MAPline.getencoding", "MAPline.__str__", "readfontmap"], [], ["FontLoadModel.v", "MapModel.v", "anchor"], 187], ["dvi/texfont.py", ["TeXfont.__init__", "TeXfont.__str__", "TeXfont.getsize_pt", "TeXfont._convert_tfm_to_dvi", "TeXfont._convert_tfm_to_pt", "TeXfont.getwidth_dvi", "TeXfont.getheight_dvi", "TeXfont.getdepth_dvi", "TeXfont.getitalic_dvi", "TeXfont.getwidth_pt", "TeXfont.getheight_pt", "TeXfont.getdepth_pt", "TeXfont.getitalic_pt", "TeXfont.text_pt", "TeXfont.getMAPline", "virtualfont.__init__", "virtualfont.getfonts", "virtualfont.getchar", "virtualfont.text_pt", "TeXtext_pt.__init__", "TeXtext_pt.bbox", "TeXtext_pt._text", "TeXtext_pt.textpath", "TeXtext_pt.processPS", "TeXtext_pt.processPDF", "TeXtext_pt.processSVG"], [], ["DviModel.v", "TfmModel.v"], 198], ["dvi/tfmfile.py", ["char_info_word.__init__", "TFMfile.__init__"], [], ["TfmModel.v"], 210], ["dvi/vffile.py", ["vffile.__init__", "vffile.getfonts", "vffile.getchar"], [], ["VfModel.v", "anchor"], 114], ["epsfile.py", ["linefilereader.__init__", "linefilereader.read", "linefilereader.readline", "_readbbox", "epsfile.__init__", "epsfile.open", "epsfile.bbox"], ["epsfile.processPS", "epsfile.processPDF"], ["EpsModel.v", "EpsProps.v", "EpsProps2.v", "EpsProps3.v", "anchor"], 356], ["font/__init__.py", [], [], [], 28], ["font/afmfile.py", ["_parseint", "_parsehex", "_parsefloat", "_parsefloats", "_parsestr", "_parsebool", "AFMcharmetrics.__init__", "AFMtrackkern.__init__", "AFMkernpair.__init__", "AFMcomposite.__init__", "AFMfile.__init__", "AFMfile._processline_start", "AFMfile._processline_main", "AFMfile._processline_direction", "AFMfile._processline_charmetrics", "AFMfile._processline_kerndata", "AFMfile._processline_trackkern", "AFMfile._processline_kernpairs", "AFMfile._processline_composites", "AFMfile.parse", "AFMfile.width_ds", "AFMfile.width_pt", "AFMfile.height_pt", "AFMfile.depth_pt", "AFMfile.resolveligatures", "AFMfile.resolvekernings", "AFMfile.writePDFfontinfo"], [], ["AfmModel.v", "TextEncModel.v", "TextPosModel.v", "anchor"], 1458], ["font/font.py", ["PST1file.__init__", "PST1file.merge", "PST1file.output", "PSreencodefont.__init__", "PSreencodefont.output", "PSchangefontmatrix.__init__", "PSchangefontmatrix.output", "PDFfont.__init__", "PDFfont.merge", "PDFfont.write", "PDFstdfont.__init__", "PDFstdfont.write", "PDFfontdescriptor.__init__", "PDFfontdescriptor.write", "PDFfontfile.__init__", "PDFfontfile.merge", "PDFfontfile.write", "PDFencoding.__init__", "PDFencoding.getvector", "PDFencoding.write", "SVGT1mapping.__init__", "SVGT1mapping.merge_glyphnames", "SVGT1mapping.merge_charcodes", "SVGT1file.__init__", "SVGT1file.merge", "SVGT1file.output", "selectedfont.outputPDF", "text_pt.requiretextregion", "T1text_pt.__init__", "T1text_pt.bbox", "T1text_pt.getencodingname", "T1text_pt.textpath", "T1text_pt.processPS", "T1text_pt.processPDF", "T1text_pt.processSVG"], ["font.text", "T1font.__init__", "T1font.text_pt", "T1builtinfont.__init__", "selectedfont.__init__", "selectedfont.__ne__", "selectedfont.outputPS"], ["CanvasModel.v", "SvgWriterModel.v", "TextEncModel.v", "TextPosModel.v", "UnicodeTextModel.v", "anchor"], 761], ["font/metric.py", ["metric.resolvekernings"], ["metric.width_ds", "metric.width_pt", "metric.height_pt", "metric.depth_pt", "metric.resolveligatures"], ["TextPosModel.v"], 45], ["font/pfmfile.py", ["_readNullString", "PFMfile.__init__", "PFMfile.width_ds", "PFMfile.width_pt", "PFMfile.resolvekernings", "PFMfile.resolvekernings", "PFMfile.writePDFfontinfo"], ["PFMfile.height_pt", "PFMfile.depth_pt"], ["PfmModel.v", "PfmProps.v", "anchor"], 402], ["font/t1code.py", ["decoder", "encoder"], [], ["T1codeModel.v", "anchor"], 42], ["font/t1file.py", ["T1context.__init__", "T1cmd.__init__", "T1cmd.__str__", "T1cmd.updatepath", "T1cmd.gathercalls", "_T1endchar.__init__", "_T1endchar.__str__", "_T1endchar.updatepath", "_T1hsbw.__init__", "_T1hsbw.__str__", "_T1hsbw.updatepath", "_T1seac.__init__", "_T1seac.__str__", "_T1seac.updatepath", "_T1seac.gathercalls", "_T1sbw.__init__", "_T1sbw.__str__", "_T1sbw.updatepath", "_T1closepath.__init__", "_T1closepath.__str__", "_T1closepath.updatepath", "_T1hlineto.__init__", "_T1hlineto.__str__", "_T1hlineto.updatepath", "_T1hmoveto.__init__", "_T1hmoveto.__str__", "_T1hmoveto.updatepath", "_T1hvcurveto.__init__", "_T1hvcurveto.__str__", "_T1hvcurveto.updatepath", "_T1rlineto.__init__", "_T1rlineto.__str__", "_T1rlineto.updatepath", "_T1rmoveto.__init__", "_T1rmoveto.__str__", "_T1rmoveto.updatepath", "_T1rrcurveto.__init__", "_T1rrcurveto.__str__", "_T1rrcurveto.updatepath", "_T1vlineto.__init__", "_T1vlineto.__str__", "_T1vlineto.updatepath", "_T1vmoveto.__init__", "_T1vmoveto.__str__", "_T1vmoveto.updatepath", "_T1vhcurveto.__init__", "_T1vhcurveto.__str__", "_T1vhcurveto.updatepath", "_T1dotsection.__init__", "_T1dotsection.__str__", "_T1dotsection.updatepath", "_T1hstem.__init__", "_T1hstem.__str__", "_T1hstem.updatepath", "_T1hstem3.__init__", "_T1hstem3.__str__", "_T1hstem3.updatepath", "_T1vstem.__init__", "_T1vstem.__str__", "_T1vstem.updatepath", "_T1vstem3.__init__", "_T1vstem3.__str__", "_T1vstem3.updatepath", "_T1div.__init__", "_T1div.__str__", "_T1div.updatepath", "_T1div.gathercalls", "_T1callothersubr.__init__", "_T1callothersubr.__str__", "_T1callothersubr.updatepath", "_T1callothersubr.gathercalls", "_T1callsubr.__init__", "_T1callsubr.__str__", "_T1callsubr.updatepath", "_T1callsubr.gathercalls", "_T1pop.__init__", "_T1pop.__str__", "_T1pop.updatepath", "_T1pop.gathercalls", "_T1return.__init__", "_T1return.__str__", "_T1return.updatepath", "_T1setcurrentpoint.__init__", "_T1setcurrentpoint.__str__", "_T1setcurrentpoint.updatepath", "T1File.__init__", "T1File._charstringdecode", "T1File._charstringencode", "T1File._encoding", "T1File._data2decode", "T1File._cmds", "T1File._code", "T1File.getsubrcmds", "T1File.setglyphcmds", "T1File.updatepath", "T1File.updatesubrpath", "T1File.updateglyphpath", "T1File.gathercalls", "T1File.gathersubrcalls", "T1File.gatherglyphcalls", "T1File.getglyphpath_pt", "T1File.getdata2", "T1File.getstrippedfont", "T1File.outputPFA", "T1File.outputPFB", "T1File.outputPS", "T1File.outputPDF", "T1File.from_PFA_bytes", "T1File.from_PFA_filename", "T1File.from_PFB_bytes", "T1File.from_PFB_filename", "T1File.from_PF_bytes"], ["T1File._eexecdecode", "T1File._eexecencode", "T1File.getglyphcmds", "T1File.setsubrcmds", "T1File.getdata2eexec", "T1File.writePDFfontinfo", "T1File.getglyphinfo", "T1File.from_PF_filename"], ["T1FileModel.v", "T1Model.v", "anchor"], 1245], ["graph/__init__.py", [], [], [], 33], ["graph/axis/__init__.py", [], [], [], 37], ["graph/axis/axis.py", ["axisdata.__init__", "_axis.createlinked", "_regularaxis.__init__", "_regularaxis.createdata", "_regularaxis.adjustaxis", "_regularaxis.checkfraclist", "_regularaxis._create", "linear.__init__", "linear.__call__", "linear.convert", "linear.create", "logarithmic.__init__", "logarithmic.__call__", "logarithmic.convert", "logarithmic.create", "subaxispositioner.__init__", "subaxispositioner.vbasepath", "subaxispositioner.vgridpath", "subaxispositioner.vtickpoint_pt", "subaxispositioner.vtickdirection", "bar.__init__", "bar.__call__", "bar.createdata", "bar.addsubaxis", "bar.adjustaxis", "bar.convert", "bar.create", "bar.createlinked", "nestedbar.__init__", "split.__init__", "sizedlinear.__init__", "sizedlinear.__call__", "sizedlinear.createdata", "autosizedlinear.__init__", "autosizedlinear.__call__", "autosizedlinear.createdata", "autosizedlinear.adjustaxis", "autosizedlinear.create", "anchoredaxis.__init__", "anchoredaxis.setcreatecall", "anchoredaxis.docreate", "anchoredaxis.setpositioner", "anchoredaxis.convert", "anchoredaxis.adjustaxis", "anchoredaxis.vbasepath", "anchoredaxis.basepath", "anchoredaxis.vgridpath", "anchoredaxis.gridpath", "anchoredaxis.vtickpoint_pt", "anchoredaxis.vtickpoint", "anchoredaxis.tickpoint_pt", "anchoredaxis.tickpoint", "anchoredaxis.vtickdirection", "anchoredaxis.tickdirection", "anchoredaxis.create", "linkedaxis.__init__", "linkedaxis.__call__", "linkedaxis.setlinkedaxis", "linkedaxis.create"], ["anchoredpathaxis.__init__", "pathaxis"], ["AxisModel.v", "AxisPaintModel.v", "Graph2dModel.v", "GraphAxesModel.v", "anchor"], 717], ["graph/axis/painter.py", ["axiscanvas.__init__", "rotatetext.__init__", "rotatetext.trafo", "_title.__init__", "_title.paint", "geometricseries.__init__", "regular.paint", "linked.__init__", "bar.__init__", "bar.__call__", "bar.paint", "split.__init__", "split.__call__", "split.paint"], ["_text.__init__", "geometricseries.select", "regular.__init__", "regular.__call__", "linkedbar.__init__", "linkedbar.getsubaxis", "linkedsplit.__init__"], ["AxisPaintModel.v", "anchor"], 446], ["graph/axis/parter.py", ["linear.__init__", "linear.__call__", "linear.extendminmax", "linear.getticks", "linear.partfunction", "linear.partfunctions", "autolinear.__init__", "autolinear.__call__", "autolinear.partfunctions", "autolinear.partfunction", "preexp.__init__", "logarithmic.__init__", "logarithmic.__call__", "logarithmic.extendminmax", "logarithmic.getticks", "autologarithmic.__init__", "autologarithmic.__call__", "autologarithmic.partfunctions", "autologarithmic.variantspartfunction", "autologarithmic.autopartfunction"], ["_partdata.__init__", "_parter.partfunctions"], ["ParterModel.v"], 336], ["graph/axis/positioner.py", ["_positioner.vbasepath", "_positioner.vgridpath", "_positioner.vtickpoint_pt", "_positioner.vtickdirection", "pathpositioner.__init__", "pathpositioner.vbasepath", "lineaxispos_pt.__init__", "lineaxispos_pt.vbasepath", "lineaxispos_pt.vtickpoint_pt", "lineaxispos_pt.vtickdirection", "flexlineaxispos_pt.__init__", "flexlineaxispos_pt.vbasepath"], ["pathpositioner.vtickpoint_pt", "pathpositioner.vtickdirection"], ["AxisPaintModel.v", "Graph2dModel.v", "anchor"], 122], ["graph/axis/rater.py", ["cube.__init__", "cube.rate", "distance.__init__", "distance.rate", "rater.__init__", "rater.__call__", "rater.rateticks", "rater.raterange", "rater.ratelayout", "linear.__init__", "logarithmic.__init__"], [], ["AxisModel.v"], 247], ["graph/axis/texter.py", ["decimal.__init__", "decimal.labels", "default.__init__", "default.labels", "rational.__init__", "rational.gcd", "rational.lcm", "rational.labels"], ["_texter.labels", "decimal.__call__", "default.__call__", "rational.__call__"], ["TexterModel.v"], 441], ["graph/axis/tick.py", ["rational.initfromstring", "rational.initfromfloat", "rational.__init__", "rational.__lt__", "rational.__eq__", "rational.__abs__", "rational.__add__", "rational.__mul__", "rational.__imul__", "rational.__div__", "rational.__idiv__", "rational.__float__", "rational.__str__", "tick.__init__", "tick.merge", "mergeticklists", "maxlevels"], [], ["AxisPaintModel.v", "ParterModel.v", "TexterModel.v", "TickModel.v"], 276], ["graph/axis/timeaxis.py", ["timeaxis.__init__", "timeaxis.convert", "timetick.__new__", "timetick.__init__", "timetick.merge", "timetexter.__init__", "timetexter.labels"], [], ["TimeAxisModel.v"], 87], ["graph/data.py", ["splitatvalue", "_data.dynamiccolumns", "values.__init__", "points.__init__", "data.__init__", "data.columncallback", "file.splitline", "file.__init__", "conffile.__init__", "cbdfile.__init__", "function.dynamiccolumns", "functionxy.__init__", "paramfunction.__init__", "paramfunctionxy.__init__", "join.merge_lists", "join.merge_dicts", "join.__init__", "join.dynamiccolumns"], ["file.getcachekey", "cbdfile.getcachekey", "function.__init__"], ["DataModel.v", "FunctionDataModel.v", "GraphAxesModel.v", "anchor"], 654], ["graph/graph.py", ["registerdefaultprovider", "getdefaultprovider", "plotitem.__init__", "plotitem.selectstyles", "plotitem.adjustaxesstatic", "plotitem.makedynamicdata", "plotitem.adjustaxesdynamic", "plotitem.draw", "plotitem.key_pt", "plotitem.__getattr__", "graph.__init__", "graph.did", "graph.bbox", "graph.processPS", "graph.processPDF", "graph.plot", "graph.doranges", "graph.doaxiscreate", "graph.dolayout", "graph.dobackground", "graph.doaxes", "graph.dostyles", "graph.doplotitem", "graph.doplot", "graph.dodata", "graph.dokeyitem", "graph.dokey", "graph.finish", "graphxy.__init__", "graphxy.pos_pt", "graphxy.pos", "graphxy.vpos_pt", "graphxy.vpos", "graphxy.vzindex", "graphxy.vangle", "graphxy.vgeodesic", "graphxy.vgeodesic_el", "graphxy.vcap_pt", "graphxy.xvgridpath", "graphxy.yvgridpath", "graphxy.autokeygraphattrs", "graphxy.autokeygraphtrafo", "graphxy.axisatv", "graphxy.doaxispositioner", "graphxy.dolayout", "graphxy.dobackground", "graphxy.doaxes", "graphxy.dokey", "graphx.__init__", "graphx.pos_pt", "graphx.pos", "graphx.vpos_pt", "graphx.vpos", "graphx.vgeodesic", "graphx.vgeodesic_el", "graphx.vcap_pt", "graphx.xvgridpath", "graphx.yvgridpath", "graphx.axisatv", "graphxyz.central.__init__", "graphxyz.central.point", "graphxyz.central.zindex", "graphxyz.central.angle", "graphxyz.parallel.__init__", "graphxyz.parallel.point", "graphxyz.parallel.zindex", "graphxyz.parallel.angle", "graphxyz.__init__", "graphxyz.pos_pt", "graphxyz.pos", "graphxyz.vpos_pt", "graphxyz.vpos", "graphxyz.vzindex", "graphxyz.vangle", "graphxyz.vgeodesic", "graphxyz.vgeodesic_el", "graphxyz.vcap_pt", "graphxyz.xvtickdirection", "graphxyz.yvtickdirection", "graphxyz.vtickdirection", "graphxyz.xvgridpath", "graphxyz.yvgridpath", "graphxyz.zvgridpath", "graphxyz.autokeygraphattrs", "graphxyz.autokeygraphtrafo", "graphxyz.doaxispositioner"], ["graphxyz.dolayout", "graphxyz.dobackground", "graphxyz.doaxes", "graphxyz.dokey"], ["FinishModel.v", "GradientStyleModel.v", "Graph2dModel.v", "Graph3dModel.v", "GraphAxesModel.v", "KeyModel.v", "PlotModel.v", "PosModel.v", "TextStyleModel.v", "anchor"], 1157], ["graph/key.py", ["key.__init__", "key.paintcolumn", "key.paint"], [], ["KeyModel.v", "anchor"], 114], ["graph/style.py", ["_style.columnnames", "_style.adjustaxis", "_style.selectstyle", "_style.initdrawpoints", "_style.drawpoint", "_style.donedrawpoints", "_style.key_pt", "_keygraphstyle.__init__", "_keygraphstyle.columnnames", "_keygraphstyle.adjustaxis", "_keygraphstyle.color", "_keygraphstyle.donedrawpoints", "pos.__init__", "pos.columnnames", "pos.adjustaxis", "pos.initdrawpoints", "pos.drawpoint", "range.__init__", "range._numberofbits", "range.columnnames", "range.adjustaxis", "range.initdrawpoints", "range.drawpoint", "_crosssymbol", "_plussymbol", "_squaresymbol", "_trianglesymbol", "_circlesymbol", "_diamondsymbol", "_styleneedingpointpos.columnnames", "symbol.__init__", "symbol.selectstyle", "symbol.initdrawpoints", "symbol.drawpoint", "symbol.donedrawpoints", "symbol.key_pt", "_line.__init__", "_line.initpointstopath", "_line.addpointstopath", "_line.addpoint", "_line.addinvalid", "_line.donepointstopath", "line.__init__", "line.selectstyle", "line.initdrawpoints", "line.drawpoint", "line.donedrawpoints", "line.key_pt", "impulses.__init__", "impulses.selectstyle", "impulses.adjustaxis", "impulses.initdrawpoints", "impulses.drawpoint", "impulses.donedrawpoints", "impulses.key_pt", "errorbar.__init__", "errorbar.columnnames", "errorbar.selectstyle", "errorbar.initdrawpoints", "errorbar.drawpoint", "errorbar.donedrawpoints", "text.__init__", "text.columnnames", "text.selectstyle", "text.initdrawpoints", "text.drawpoint", "text.key_pt", "arrow.__init__", "arrow.columnnames", "arrow.selectstyle", "arrow.initdrawpoints", "arrow.drawpoint", "arrow.donedrawpoints", "rect.columnnames", "rect.initdrawpoints", "rect.drawpoint", "histogram.__init__", "histogram.columnnames", "histogram.adjustaxis", "histogram.selectstyle", "histogram.vmoveto", "histogram.vposline", "histogram.vvalueline", "histogram.drawvalue", "histogram.initdrawpoints", "histogram.drawpoint", "histogram.donedrawpoints", "histogram.key_pt", "barpos.__init__", "barpos.columnnames", "barpos.addsubvalue", "barpos.adjustaxis", "barpos.selectstyle", "barpos.initdrawpoints", "barpos.drawpoint", "stackedbarpos.__init__", "stackedbarpos.columnnames", "stackedbarpos.adjustaxis", "stackedbarpos.initdrawpoints", "stackedbarpos.drawpoint", "bar.__init__", "bar.lighting", "bar.columnnames", "bar.selectstyle", "bar.initdrawpoints", "bar.drawpointfill", "bar.drawpoint", "bar.donedrawpoints", "changebar.key_pt", "gridpos.__init__", "gridpos.initdrawpoints", "gridpos.drawpoint", "grid.__init__", "grid.selectstyle", "grid.donedrawpoints", "surface.midvalue", "surface.midcolor", "surface.lighting", "surface.donedrawpoints", "density.__init__", "density.initdrawpoints", "density.drawpoint", "density.donedrawpoints", "gradient.__init__", "gradient.columnnames", "gradient.adjustaxis", "gradient.selectstyle", "gradient.initdrawpoints", "gradient.drawpoint", "gradient.donedrawpoints"], ["arrow.key_pt", "bar.key_pt", "changebar.selectstyle", "changebar.initdrawpoints", "changebar.drawpointfill", "changebar.donedrawpoints", "surface.__init__", "surface.columnnames", "surface.initdrawpoints", "surface.drawpoint"], ["AttrProps.v", "CanvasModel.v", "GradientStyleModel.v", "GraphBarModel.v", "GraphLineModel.v", "GridModel.v", "GridStyleModel.v", "HistogramModel.v", "PlotModel.v", "PointStyleModel.v", "PosModel.v", "RangeModel.v", "StrokeModel.v", "SurfaceModel.v", "TextStyleModel.v", "anchor"], 2118], ["mathutils.py", ["sign", "asinh", "acosh", "_realroots_quadratic", "_realroots_cubic", "_realroots_quartic", "realpolyroots"], [], ["RootsModel.v"], 169], ["mesh.py", ["node_pt.__init__", "node.__init__", "element.__init__", "coords24bit_pt", "PDFGenericResource.__init__", "PDFGenericResource.write", "mesh.__init__", "mesh.bbox", "mesh.data", "mesh.processPS", "mesh.processPDF"], ["mesh.processSVG"], ["MeshModel.v"], 194], ["metapost/__init__.py", [], [], [], 23], ["metapost/mp_path.py", ["mp_make_choices", "mp_solve_choices", "mp_n_arg", "mp_n_sin_cos", "mp_set_controls", "mp_make_fraction", "mp_curl_ratio", "mp_ab_vs_cd", "mp_velocity", "reduce_angle"], ["mp_take_fraction", "mp_pyth_add"], ["MpModel.v", "MpPathProps.v"], 449], ["metapost/path.py", ["set", "_knot.__init__", "_knot.set_left_tension", "_knot.set_right_tension", "_knot.set_left_curl", "_knot.set_right_curl", "_knot.left_tension", "_knot.right_tension", "_knot.left_curl", "_knot.right_curl", "_knot.linked_len", "_knot.__repr__", "beginknot_pt.__init__", "beginknot.__init__", "endknot_pt.__init__", "endknot.__init__", "smoothknot_pt.__init__", "smoothknot.__init__", "roughknot_pt.__init__", "roughknot.__init__", "_link.set_knots", "line.__init__", "line.set_knots", "controlcurve_pt.__init__", "controlcurve_pt.set_knots", "controlcurve.__init__", "tensioncurve.__init__", "tensioncurve.set_knots", "path.__init__"], [], ["ArcModel.v", "CurveModel.v", "MpModel.v", "MpPathProps.v", "MpSpec.v", "PathModel.v", "PathNormModel.v", "SvgFileModel.v", "SvgInModel.v", "UnicodeTextModel.v", "anchor"], 356], ["normpath.py", ["set", "normsubpathitem.arclen_pt", "normsubpathitem._arclentoparam_pt", "normline_pt.__init__", "normline_pt.__str__", "normline_pt._arclentoparam_pt", "normline_pt.arclentoparam_pt", "normline_pt.arclen_pt", "normline_pt.at_pt", "normline_pt.atbegin_pt", "normline_pt.atend_pt", "normline_pt.bbox", "normline_pt.curvature_pt", "normline_pt.intersect", "normline_pt.modifiedbegin_pt", "normline_pt.modifiedend_pt", "normline_pt._paramtoarclen_pt", "normline_pt.pathitem", "normline_pt.reversed", "normline_pt.rotation", "normline_pt.segments", "normline_pt.trafo", "normline_pt.transformed", "normline_pt.outputPS", "normline_pt.outputPDF", "normline_pt.returnSVGdata", "normcurve_pt.__init__", "normcurve_pt.__str__", "normcurve_pt._split", "normcurve_pt._arclentoparam_pt", "normcurve_pt.arclentoparam_pt", "normcurve_pt.arclen_pt", "normcurve_pt.at_pt", "normcurve_pt.atbegin_pt", "normcurve_pt.atend_pt", "normcurve_pt.bbox", "normcurve_pt.cbox", "normcurve_pt.curvature_pt", "normcurve_pt.intersect", "normcurve_pt.modifiedbegin_pt", "normcurve_pt.modifiedend_pt", "normcurve_pt._paramtoarclen_pt", "normcurve_pt.pathitem", "normcurve_pt.reversed", "normcurve_pt.rotation", "normcurve_pt.segments", "normcurve_pt.trafo", "normcurve_pt.transformed", "normcurve_pt.outputPS", "normcurve_pt.outputPDF", "normcurve_pt.returnSVGdata", "normcurve_pt.x_pt", "normcurve_pt.xdot_pt", "normcurve_pt.xddot_pt", "normcurve_pt.xdddot_pt", "normcurve_pt.y_pt", "normcurve_pt.ydot_pt", "normcurve_pt.yddot_pt", "normcurve_pt.ydddot_pt", "_leftnormline_pt.__init__", "_leftnormline_pt.arclen_pt", "_leftnormline_pt.subparamtoparam", "_rightnormline_pt.subparamtoparam", "_leftnormcurve_pt.subparamtoparam", "_rightnormcurve_pt.subparamtoparam", "normsubpath.__init__", "normsubpath.__getitem__", "normsubpath.__len__", "normsubpath.__str__", "normsubpath._distributeparams", "normsubpath.append", "normsubpath.arclen_pt", "normsubpath._arclentoparam_pt", "normsubpath.arclentoparam_pt", "normsubpath.at_pt", "normsubpath.atbegin_pt", "normsubpath.atend_pt", "normsubpath.bbox", "normsubpath.close", "normsubpath.copy", "normsubpath.curvature_pt", "normsubpath.extend", "normsubpath.flushskippedline", "normsubpath.intersect", "normsubpath.join", "normsubpath.joined", "normsubpath._paramtoarclen_pt", "normsubpath.pathitems", "normsubpath.reversed", "normsubpath.rotation", "normsubpath.segments", "normsubpath.trafo", "normsubpath.transformed", "normsubpath.outputPS", "normsubpath.outputPDF", "normsubpath.returnSVGdata", "normpathparam.__init__", "normpathparam.__str__", "normpathparam.__add__", "normpathparam.__sub__", "normpathparam.__rsub__", "normpathparam.__mul__", "normpathparam.__div__", "normpathparam.__neg__", "normpathparam.__eq__", "normpathparam.__lt__", "normpathparam.arclen_pt", "normpathparam.arclen", "_valueorlistmethod", "normpath.__init__", "normpath.__add__", "normpath.__iadd__", "normpath.__getitem__", "normpath.__len__", "normpath.__str__", "normpath._convertparams", "normpath._distributeparams", "normpath.append", "normpath.arclen_pt", "normpath.arclen", "normpath._arclentoparam_pt", "normpath.arclentoparam", "normpath._at_pt", "normpath.at_pt", "normpath.at", "normpath.atbegin_pt", "normpath.atbegin", "normpath.atend_pt", "normpath.atend", "normpath.bbox", "normpath.begin", "normpath.copy", "normpath.curvature_pt", "normpath.end", "normpath.extend", "normpath.intersect", "normpath.join", "normpath.joined", "normpath.normpath", "normpath._paramtoarclen_pt", "normpath.paramtoarclen", "normpath.path", "normpath.reversed", "normpath._rotation", "normpath.rotation_pt", "normpath.rotation", "normpath._split_pt", "normpath.split_pt", "normpath.split", "normpath._tangent", "normpath.tangent_pt", "normpath.tangent", "normpath._trafo", "normpath.trafo_pt", "normpath.trafo", "normpath.transformed", "normpath.outputPDF"], ["normsubpathitem.arclentoparam_pt", "normsubpathitem.at_pt", "normsubpathitem.atbegin_pt", "normsubpathitem.atend_pt", "normsubpathitem.bbox", "normsubpathitem.cbox", "normsubpathitem.curvature_pt", "normsubpathitem.intersect", "normsubpathitem.modifiedbegin_pt", "normsubpathitem.modifiedend_pt", "normsubpathitem._paramtoarclen_pt", "normsubpathitem.pathitem", "normsubpathitem.reversed", "normsubpathitem.rotation", "normsubpathitem.segments", "normsubpathitem.trafo", "normsubpathitem.transformed", "normsubpathitem.outputPS", "normsubpathitem.outputPDF", "normsubpathitem.returnSVGdata", "normpath.outputPS", "normpath.returnSVGdata"], ["CurveArclenModel.v", "CurveLenModel.v", "CurveModel.v", "NormpathModel.v", "NormsubModel.v", "PathModel.v", "PathNormModel.v", "SubpathArclenModel.v", "SubpathLenModel.v", "anchor"], 1999], ["path.py", ["_bezierpolyrange", "_arctobcurve", "_arctobezierpath", "_arcpoint", "_arcbboxdata", "context.__init__", "pathitem.__str__", "pathitem.createcontext", "pathitem.createbbox", "pathitem.createnormpath", "pathitem.updatebbox", "pathitem.updatenormpath", "pathitem.outputPS", "pathitem.returnSVGdata", "closepath.__str__", "closepath.updatebbox", "closepath.updatenormpath", "closepath.outputPS", "closepath.returnSVGdata", "pdfmoveto_pt.outputPDF", "moveto_pt.__init__", "moveto_pt.__str__", "moveto_pt.createcontext", "moveto_pt.createbbox", "moveto_pt.createnormpath", "moveto_pt.updatebbox", "moveto_pt.updatenormpath", "moveto_pt.outputPS", "moveto_pt.returnSVGdata", "lineto_pt.__init__", "lineto_pt.__str__", "lineto_pt.updatebbox", "lineto_pt.updatenormpath", "lineto_pt.outputPS", "lineto_pt.returnSVGdata", "curveto_pt.__init__", "curveto_pt.__str__", "curveto_pt.updatebbox", "curveto_pt.updatenormpath", "curveto_pt.outputPS", "curveto_pt.returnSVGdata", "rmoveto_pt.__init__", "rmoveto_pt.__str__", "rmoveto_pt.updatebbox", "rmoveto_pt.updatenormpath", "rmoveto_pt.outputPS", "rmoveto_pt.returnSVGdata", "rlineto_pt.__init__", "rlineto_pt.__str__", "rlineto_pt.updatebbox", "rlineto_pt.updatenormpath", "rlineto_pt.outputPS", "rlineto_pt.returnSVGdata", "rcurveto_pt.__init__", "rcurveto_pt.__str__", "rcurveto_pt.updatebbox", "rcurveto_pt.updatenormpath", "rcurveto_pt.outputPS", "rcurveto_pt.returnSVGdata", "arc_pt.__init__", "arc_pt.__str__", "arc_pt.createcontext", "arc_pt.createbbox", "arc_pt.createnormpath", "arc_pt.updatebbox", "arc_pt.updatenormpath", "arc_pt.outputPS", "arc_pt.returnSVGdata", "arcn_pt.__init__", "arcn_pt.__str__", "arcn_pt.createcontext", "arcn_pt.createbbox", "arcn_pt.createnormpath", "arcn_pt.updatebbox", "arcn_pt.updatenormpath", "arcn_pt.outputPS", "arcn_pt.returnSVGdata", "arct_pt.__init__", "arct_pt.__str__", "arct_pt._pathitems", "arct_pt.updatebbox", "arct_pt.updatenormpath", "arct_pt.outputPS", "arct_pt.returnSVGdata", "moveto.__init__", "lineto.__init__", "curveto.__init__", "rmoveto.__init__", "rlineto.__init__", "rcurveto.__init__", "arcn.__init__", "arc.__init__", "arct.__init__", "multilineto_pt.__init__", "multilineto_pt.__str__", "multilineto_pt.updatebbox", "multilineto_pt.updatenormpath", "multilineto_pt.outputPS", "multilineto_pt.returnSVGdata", "multicurveto_pt.__init__", "multicurveto_pt.__str__", "multicurveto_pt.updatebbox", "multicurveto_pt.updatenormpath", "multicurveto_pt.outputPS", "multicurveto_pt.returnSVGdata", "path.__init__", "path.__add__", "path.__iadd__", "path.__getitem__", "path.__len__", "path.__str__", "path.append", "path.arclen_pt", "path.arclen", "path.arclentoparam_pt", "path.arclentoparam", "path.at_pt", "path.at", "path.atbegin_pt", "path.atbegin", "path.atend_pt", "path.atend", "path.bbox", "path.begin", "path.curvature_pt", "path.end", "path.extend", "path.intersect", "path.join", "path.joined", "path.normpath", "path.paramtoarclen_pt", "path.paramtoarclen", "path.path", "path.reversed", "path.rotation_pt", "path.rotation", "path.split_pt", "path.split", "path.tangent_pt", "path.tangent", "path.trafo_pt", "path.trafo", "path.transformed", "path.outputPS", "path.outputPDF", "path.returnSVGdata", "rect_pt.__init__", "rect.__init__", "ellipse.__init__"], ["line_pt.__init__", "curve_pt.__init__", "circle_pt.__init__", "ellipse_pt.__init__", "line.__init__", "curve.__init__", "circle.__init__"], ["ArcModel.v", "CurveModel.v", "MpModel.v", "MpPathProps.v", "MpSpec.v", "PathModel.v", "PathNormModel.v", "SvgFileModel.v", "SvgInModel.v", "UnicodeTextModel.v"], 1416], ["pattern.py", ["pattern.__init__", "pattern.__call__", "pattern.processPS", "pattern.processPDF", "pattern.processSVGattrs", "hatched.__init__", "hatched.__call__", "crosshatched.__init__", "crosshatched.__call__", "PDFpattern.__init__", "PDFpattern.write", "SVGpattern.__init__", "SVGpattern.output"], [], ["PatternModel.v", "anchor"], 388], ["pdfextra.py", ["flag.__init__", "flag.is_set", "flag.set", "flag.unset", "flag.__int__", "flag.__str__", "_pdfflags", "_pdfalignment", "_topt", "_simplestring", "_sizetrafo", "formfield.selectflags", "textfield.__init__", "textfield.processPDF", "PDFtextfield.__init__", "PDFtextfield.write", "PDFdefaulttext.__init__", "PDFdefaulttext.write", "radiobuttons.__init__", "radiobuttons.bbox", "radiobuttons.processPDF", "checkbox.__init__", "checkbox.processPDF", "PDFbuttonlist.__init__", "PDFbuttonlist.write", "PDFcheckboxfield.__init__", "PDFcheckboxfield.write", "choicefield.__init__", "choicefield.processPDF", "PDFchoicefield.write"], ["formfield.bbox", "formfield.processPS", "PDFButtonState.__init__", "PDFButtonState.write", "PDFchoicefield.__init__"], ["FormModel.v", "PdfModel.v", "anchor"], 708], ["pdfwriter.py", ["PDFregistry.__init__", "PDFregistry.__contains__", "PDFregistry.add", "PDFregistry.getrefno", "PDFregistry.mergeregistry", "PDFregistry.write", "PDFregistry.addresource", "PDFregistry.writeresources", "PDFobject.__init__", "PDFobject.merge", "PDFinfo.write", "PDFannotations.__init__", "PDFannotations.merge", "PDFannotations.write", "PDFform.__init__", "PDFform.merge", "PDFform.write", "PDFpages.__init__", "PDFpages.write", "PDFpage.__init__", "PDFpage.write", "PDFcontent.__init__", "PDFcontent.write", "PDFwriter.__init__", "PDFwriter.getfontmap", "context.__init__", "context.__call__"], ["PDFobject.write", "PDFcatalog.__init__", "PDFcatalog.write", "PDFinfo.__init__"], ["ImagePlaceModel.v", "PdfModel.v", "TextEncModel.v"], 413], ["pswriter.py", ["PSregistry.__init__", "PSregistry.add", "PSregistry.mergeregistry", "PSregistry.output", "PSresource.__init__", "PSresource.merge", "PSresource.output", "PSdefinition.__init__", "PSdefinition.output", "_PSwriter.__init__", "_PSwriter.writeinfo", "_PSwriter.getfontmap", "PSwriter.__init__", "context.__init__", "context.__call__"], ["EPSwriter.__init__"], ["PdfModel.v", "TextEncModel.v"], 280], ["reader.py", ["reader.__init__", "reader.tell", "reader.eof", "reader.read", "reader.readint", "reader.readint32", "reader.readuint32", "reader.readint24", "reader.readuint24", "reader.readint16", "reader.readuint16", "reader.readchar", "reader.readuchar", "reader.readstring", "reader.close", "reader.__enter__", "reader.__exit__", "bytesreader.__init__", "PStokenizer.__init__", "PStokenizer.gettoken", "PStokenizer.getint", "PStokenizer.getbytes", "PSbytes_tokenizer.__init__"], [], ["ReaderModel.v"], 173], ["style.py", ["linecap.__init__", "linecap.__eq__", "linecap.processPS", "linecap.processPDF", "linecap.processSVGattrs", "linejoin.__init__", "linejoin.__eq__", "linejoin.processPS", "linejoin.processPDF", "linejoin.processSVGattrs", "miterlimit.__init__", "miterlimit.__eq__", "miterlimit.processPS", "miterlimit.processPDF", "miterlimit.processSVGattrs", "dash.__init__", "dash.__eq__", "dash.processPS", "dash.processPDF", "dash.processSVGattrs", "linestyle.__init__", "linestyle.__eq__", "linestyle.processPS", "linestyle.processPDF", "linestyle.processSVGattrs", "linewidth.__init__", "linewidth.__eq__", "linewidth.processPS", "linewidth.processPDF", "linewidth.processSVGattrs", "fillrule.__init__", "fillrule.__eq__", "fillrule.processPS", "fillrule.processPDF", "fillrule.processSVGattrs"], [], ["AttrProps.v", "CanvasModel.v", "GradientStyleModel.v", "PlotModel.v", "StrokeModel.v", "anchor"], 271], ["svgfile.py", ["endpointarc", "svgBaseHandler.__init__", "svgBaseHandler.toFloat", "svgBaseHandler.toFloats", "svgHandler.__init__", "svgHandler.toBool", "svgHandler.toPath", "svgHandler.toTrafo", "svgHandler.toColor", "svgHandler.startElementNS", "svgHandler.endElementNS", "svgBboxHandler.startElementNS", "svgfile_pt.__init__"], ["svgfile_pt.bbox", "svgfile_pt.processPS", "svgfile_pt.processPDF", "svgfile_pt.processSVG", "svgfile.__init__"], ["SvgFileModel.v", "SvgInModel.v", "SvgTextModel.v", "anchor"], 613], ["svgwriter.py", ["SVGregistry.add", "SVGregistry.output", "SVGresource.merge", "SVGGenerator.__init__", "SVGGenerator.convertName", "SVGGenerator.convertAttrs", "SVGGenerator.startDocument", "SVGGenerator.endDocument", "SVGGenerator.startElementNS", "SVGGenerator.endElementNS", "SVGGenerator.startSVGDocument", "SVGGenerator.startSVGElement", "SVGGenerator.newline_and_tell", "SVGGenerator.endSVGElement", "SVGGenerator.endSVGDocument", "SVGwriter.__init__"], ["SVGregistry.__init__", "SVGregistry.mergeregistry", "SVGresource.__init__", "SVGresource.output", "SVGwriter.getfontmap", "context.__init__", "context.__call__"], ["SvgWriterModel.v", "TextEncModel.v", "anchor"], 262], ["text.py", ["indent_text", "remove_string", "remove_pattern", "index_all", "pairwise", "remove_nested_brackets", "texmessage.start", "texmessage.no_file", "texmessage.end", "texmessage.load", "texmessage.load_def", "texmessage.load_graphics", "texmessage.ignore", "texmessage.warn", "texmessage.pattern", "boxhalign.__init__", "boxhalign.apply", "flushhalign.__init__", "_mathmode.__init__", "_mathmode.apply", "_mathmode.apply_trafo", "parbox_pt.__init__", "_vshift.__init__", "size.__init__", "MonitorOutput.__init__", "MonitorOutput.expect", "MonitorOutput.read", "MonitorOutput._wait", "MonitorOutput.wait", "MonitorOutput.done", "MonitorOutput._readline", "MonitorOutput.run", "textextbox_pt.__init__", "textextbox_pt.transform", "textextbox_pt.readdvipage", "textextbox_pt.dvicanvas", "textextbox_pt.marker", "textextbox_pt.textpath", "Tee.__init__", "Tee.write", "Tee.flush", "Tee.close", "SingleEngine.__init__", "SingleEngine._cleanup", "SingleEngine._execute", "SingleEngine.do_start", "SingleEngine.do_preamble", "SingleEngine.do_typeset", "SingleEngine.do_finish", "SingleEngine.preamble", "SingleEngine.text_pt", "SingleEngine.text", "SingleTexEngine.__init__", "SingleTexEngine.go_typeset", "SingleTexEngine.go_finish", "SingleTexEngine.force_done", "SingleTexEngine.do_start", "SingleLatexEngine.__init__", "SingleLatexEngine.go_typeset", "SingleLatexEngine.go_finish", "SingleLatexEngine.force_done", "SingleLatexEngine.do_start", "reset_for_tex_done", "MultiEngine.__init__", "MultiEngine.preamble", "MultiEngine.text_pt", "MultiEngine.text", "MultiEngine.reset", "Text.__init__", "StackedText.__init__", "unicodetextbox_pt.__init__", "unicodetextbox_pt._extract_minus_properties", "unicodetextbox_pt.mathaxis_pt", "unicodetextbox_pt.minuswidth_pt", "unicodetextbox_pt.minuslength_pt", "unicodetextbox_pt.minusthickness_pt", "UnicodeEngine.text_pt", "escapestring"], ["flushhalign.apply", "halign.__init__", "halign.apply", "halign.apply_trafo", "_phantom.apply", "parbox_pt.apply", "parbox.__init__", "valign.__init__", "valign.apply", "_vshift.apply", "vshift.__init__", "vshift.setheightexpr", "_vshiftmathaxis.setheightexpr", "_vshiftmathaxis.apply_trafo", "size.apply", "textextbox_pt.processPS", "textextbox_pt.processPDF", "textextbox_pt.processSVG", "TexEngine.__init__", "LatexEngine.__init__", "MultiEngineText.__init__", "unicodetextbox_pt.transform", "unicodetextbox_pt.bbox", "unicodetextbox_pt.textpath", "unicodetextbox_pt.processPS", "unicodetextbox_pt.processPDF", "unicodetextbox_pt.processSVG", "UnicodeEngine.__init__", "UnicodeEngine.preamble", "UnicodeEngine.reset", "UnicodeEngine.text", "set"], ["AttrProps.v", "AxisPaintModel.v", "SpecialModel.v", "TexEngineModel.v", "TexMonitorModel.v", "TexMsgModel.v", "UnicodeTextModel.v", "anchor"], 1874], ["trafo.py", ["_rmatrix", "_rvector", "_mmatrix", "trafo_pt.__init__", "trafo_pt.__mul__", "trafo_pt.__str__", "trafo_pt.processPS", "trafo_pt.processPDF", "trafo_pt.processSVGattrs", "trafo_pt.apply_pt", "trafo_pt.apply", "trafo_pt.deform", "trafo_pt.inverse", "trafo_pt.mirrored", "trafo_pt.rotated_pt", "trafo_pt.rotated", "trafo_pt.scaled_pt", "trafo_pt.scaled", "trafo_pt.slanted_pt", "trafo_pt.slanted", "trafo_pt.translated_pt", "trafo_pt.translated", "trafo.__init__", "mirror.__init__", "rotate_pt.__init__", "rotate.__init__", "scale_pt.__init__", "scale.__init__", "slant_pt.__init__", "slant.__init__", "translate_pt.__init__", "translate.__init__"], [], ["AxisPaintModel.v", "BraceModel.v", "DecoModel.v", "SpecialModel.v", "T1Props.v", "TextPosModel.v", "TrafoModel.v"], 252], ["unit.py", ["set", "_convert_to", "tom", "tocm", "tomm", "toinch", "topt", "length.__init__", "length.__eq__", "length.__lt__", "length.__mul__", "length.__div__", "length.__add__", "length.__sub__", "length.__rsub__", "length.__neg__"], ["length.__str__"], ["Graph2dModel.v", "UnitModel.v"], 239], ["utils.py", ["kwsplit", "merge_members_kwargs"], [], ["UtilsModel.v", "anchor"], 87], ["version.py", [], [], [], 26], ["writer.py", ["writer.__init__", "writer.write", "writer.write_bytes"], ["writer.tell", "writer.__enter__", "writer.__exit__"], ["T1FileModel.v", "anchor"], 43]]