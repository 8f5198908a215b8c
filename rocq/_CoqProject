-Q theories Verif

theories/GoStr.v
theories/GoStrFacts.v
theories/TrimFacts.v
theories/TextFacts.v
theories/UtilModel.v
theories/UtilSpec.v
theories/UtilProofs.v
theories/PropUtil.v
theories/CacheModel.v
theories/CacheSpec.v
theories/CacheProofs.v
theories/CacheProofs2.v
theories/PropCache.v
theories/HttpModel.v
theories/HttpSpec.v
theories/HttpProofs.v
theories/PropHttp.v
theories/PoolModel.v
theories/PoolSpec.v
theories/PoolProofs.v
theories/PropPool.v
theories/MainModel.v
theories/MainSpec.v
theories/MainProofs.v
theories/PropMain.v
theories/ConfigModel.v
theories/ConfigSpec.v
theories/ConfigProofs.v
theories/PropConfig.v
theories/SvgModel.v
theories/SvgSpec.v
theories/SvgProofs.v
theories/PropSvg.v
theories/BracketModel.v
theories/BracketSpec.v
theories/BracketProofs.v
theories/PropBracket.v
theories/CleanerModel.v
theories/CleanerSpec.v
theories/CleanerProofs.v
theories/CleanerLinkProofs.v
theories/CleanerTemplateProofs.v
theories/PropCleaner.v
theories/TemplateModel.v
theories/TemplateSpec.v
theories/TemplateProofs.v
theories/TemplateScanProofs.v
theories/TemplateEvalProofs.v
theories/PropTemplate.v
theories/FormattingModel.v
theories/FormattingSpec.v
theories/FormattingProofs.v
theories/ParagraphModel.v
theories/ParagraphSpec.v
theories/ParagraphProofs.v
theories/PropFormatting.v
theories/TokenModel.v
theories/HeadingModel.v
theories/LinkModel.v
theories/ImageModel.v
theories/ListModel.v
theories/TableModel.v
theories/ReferenceModel.v
theories/TokenizerModel.v
theories/TokenSpec.v
theories/TokenProofs.v
theories/PassProofs.v
theories/ImageClosing.v
theories/BlockPassProofs.v
theories/RefineProofs.v
theories/PropTokens.v
theories/PassSpec.v
theories/JudgeProofs.v
theories/HeadingProofs.v
theories/NowikiProofs.v
theories/LinkProofs.v
theories/FrameProofs.v
theories/PropPasses.v
theories/ListSpec.v
theories/ListProofs.v
theories/PropLists.v
theories/TableSpec.v
theories/TableAttributeProofs.v
theories/TableProofs.v
theories/PropTables.v
theories/ReferenceSpec.v
theories/RefAttrProofs.v
theories/RefTagProofs.v
theories/RefNumberProofs.v
theories/ReferenceProofs.v
theories/PropReferences.v
theories/ExpandModel.v
theories/HtmlModel.v
theories/ExpandSpec.v
theories/ExpandProofs.v
theories/HtmlSpec.v
theories/HtmlProofs.v
theories/HtmlTokenProofs.v
theories/HtmlNestProofs.v
theories/HtmlTotalProofs.v
theories/PropHtml.v
theories/ShapeSpec.v
theories/ShapeProofs.v
theories/ImageSpec.v
theories/ImageFileProofs.v
theories/PropImages.v
theories/StatsModel.v
theories/StatsSpec.v
theories/StatsProofs.v
theories/StatsTotalProofs.v
theories/UnicodeProofs.v
theories/CombineProofs.v
theories/PropStats.v
theories/SafeSpec.v
theories/SafeTextProofs.v
theories/SafeProofs.v
theories/ArticleModel.v
theories/PropSafe.v
theories/EndTextProofs.v
theories/EndProofs.v
theories/FuelProofs.v
theories/BelowProofs.v
theories/PropEnd.v
theories/SettledProofs.v
theories/TextsProofs.v
theories/MarkupSpec.v
theories/MarkupProofs.v
theories/PropMarkup.v
theories/MathSpec.v
theories/MathProofs.v
theories/MathQuietProofs.v
theories/PropMath.v
theories/ServiceModel.v
theories/ServiceSpec.v
theories/ServiceProofs.v
theories/PropService.v
theories/PictureSpec.v
theories/PictureProofs.v
theories/PropPictures.v
theories/GallerySpec.v
theories/GalleryProofs.v
theories/PropGalleries.v
theories/EpubModel.v
theories/EpubSpec.v
theories/EpubProofs.v
theories/PropEpub.v
theories/DocumentSpec.v
theories/DocumentSettledProofs.v
theories/DocumentLineProofs.v
theories/DocumentPictureProofs.v
theories/DocumentRunProofs.v
theories/DocumentBlockProofs.v
theories/DocumentListProofs.v
theories/DocumentGridProofs.v
theories/BookImageSpec.v
theories/DocumentPassProofs.v
theories/DocumentTokenProofs.v
theories/DocumentStartProofs.v
theories/DocumentImageProofs.v
theories/DocumentHtmlProofs.v
theories/DocumentCleanProofs.v
theories/HtmlFuelProofs.v
theories/DocumentFormulaProofs.v
theories/DocumentNoteProofs.v
theories/RailwaySpec.v
theories/CleanupSpec.v
theories/RailwayProofs.v
theories/CleanupProofs.v
theories/PropCleanup.v
theories/PropDocument.v
theories/PropRailway.v
theories/ShowSpec.v
theories/ShowProofs.v
theories/PropShow.v
theories/BookModel.v
theories/BookSpec.v
theories/BookFileProofs.v
theories/BookProofs.v
theories/BookDocProofs.v
theories/BookExec.v
theories/StandaloneSpec.v
theories/PropBook.v
theories/AgeSpec.v
theories/AgeProofs.v
theories/AgeProofs2.v
theories/PropAge.v
theories/RequestSpec.v
theories/RequestProofs.v
theories/ImageProcessProofs.v
theories/PropRequest.v
theories/BookImageProofs.v
theories/PropBookImages.v
theories/DocumentStatsSpec.v
theories/DocumentStatsProofs.v
theories/PropDocumentStats.v
theories/JsonSpec.v
theories/StatsJsonModel.v
theories/JsonProofs.v
theories/JsonDecodeProofs.v
theories/JsonObjectProofs.v
theories/JsonUniqueProofs.v
theories/StatsJsonSpec.v
theories/BookStatsSpec.v
theories/StatsJsonProofs.v
theories/StatsOrderProofs.v
theories/PropStatsJson.v
theories/BookStatsProofs.v
theories/PropBookStats.v
theories/StandaloneModel.v
theories/PropStandalone.v
theories/RegexSpec.v
theories/RegexProofs.v
theories/PropRegex.v
theories/LockModel.v
theories/LockProofs.v
theories/PropLock.v
theories/SliceModel.v
theories/SliceProofs.v
theories/SliceLineModel.v
theories/SliceLineProofs.v
theories/ListLoopModel.v
theories/ListLoopProofs.v
theories/TableLoopModel.v
theories/TableLoopProofs.v
theories/PropSlice.v
theories/PropTwice.v
theories/LimitSpec.v
theories/LimitProofs.v
theories/PropLimit.v
theories/OnceSpec.v
theories/OnceProofs.v
theories/PropOnce.v
