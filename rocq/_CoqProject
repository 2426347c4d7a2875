-Q theories Verif
theories/Base.v
theories/ListAux.v
theories/AdjList.v
theories/AdjListSpec.v
theories/AdjListProofs.v
theories/AdjListProofs2.v
theories/AdjListProofs3.v
theories/AdjListProps.v
theories/Csr.v
theories/CsrProofs.v
theories/CsrProps.v
theories/Traverse.v
theories/TraverseSpec.v
theories/TraverseProofs.v
theories/TraverseProps.v
theories/Search.v
theories/SearchSpec.v
theories/SearchProofs.v
theories/SearchProps.v
theories/Router.v
theories/RouterProofs.v
theories/RouterProps.v
theories/Viterbi.v
theories/ViterbiProofs.v
theories/ViterbiProps.v
theories/Coordinator.v
theories/CoordinatorProofs.v
theories/CoordinatorProps.v
theories/Tags.v
theories/TagsProofs.v
theories/TagsProps.v
theories/GraphHelper.v
theories/GraphHelperProofs.v
theories/GraphHelperProps.v
theories/Osm.v
theories/OsmProofs.v
theories/OsmFilter.v
theories/OsmFilterProps.v
theories/OsmProps.v
theories/Csv.v
theories/CsvProofs.v
theories/CsvProps.v
theories/Forwarder.v
theories/ForwarderProps.v
theories/EdgesList.v
theories/EdgesListProofs.v
theories/EdgesListProps.v
theories/Utils.v
theories/UtilsProps.v
theories/Simplify.v
theories/SimplifyProofs.v
theories/SimplifyProps.v
theories/RichLine.v
theories/RichLineProofs.v
theories/RichLineProps.v
theories/RichAttrProps.v
theories/Convert.v
theories/ConvertProps.v
theories/DistCache.v
theories/DistCacheProps.v
theories/Radius.v
theories/RadiusProps.v
theories/Median.v
theories/MedianProps.v
theories/Detect.v
theories/DetectProps.v
theories/Substring.v
theories/SubstringProps.v
theories/Env.v
theories/EnvProps.v
theories/Value.v
theories/ValueProps.v
theories/Route.v
theories/RouteProofs.v
theories/RouteProps.v
theories/MultiRichProps.v
theories/MultiRich.v
theories/TagListProps.v
theories/Assemble.v
theories/AssembleProofs.v
theories/AssembleProps.v
theories/Compare.v
theories/CompareProofs.v
theories/CompareProps.v
theories/NetImport.v
theories/NetImportSpec.v
theories/NetImportProofs.v
theories/NetImportProofs2.v
theories/NetImportProofs3.v
theories/NetImportProofs4.v
theories/NetImportProofs5.v
theories/NetImportProofs6.v
theories/NetImportProofs7.v
theories/NetImportProofs8.v
theories/NetImportProps.v
theories/NetPiecesProps.v
theories/NetDupSpec.v
theories/NetDupProofs.v
theories/NetDupProofs2.v
theories/NetDupProofs3.v
theories/NetDupProps.v
theories/RouteRefs.v
theories/RouteRefsProofs.v
theories/RouteRefsProps.v
theories/NextEdgesProps.v
theories/NextEdges.v
theories/CandCreate.v
theories/CandCreateProps.v
theories/CandAdopt.v
theories/CandAdoptProps.v
theories/RouteDirs.v
theories/RouteDirsProps.v
theories/Policy.v
theories/PolicyProps.v
theories/QLearn.v
theories/QLearnProps.v
theories/HmmScoreProps.v
theories/HmmScore.v
theories/MdpReward.v
theories/MdpRewardProps.v
theories/CleanUpProps.v
theories/EnvLearn.v
theories/EnvLearnProofs.v
theories/EnvLearnProps.v
theories/MatchProps.v
theories/HmmMatchProps.v
theories/Matcher.v
theories/MatcherProps.v
theories/OsmExport.v
theories/OsmExportProofs.v
theories/OsmExportProps.v
theories/NetFilesProofs.v
theories/NetFiles.v
theories/NetFilesProps.v
theories/TrackFiles.v
theories/TrackFilesProps.v
theories/ExportProps.v
theories/Export.v
theories/SpatialIndex.v
theories/SpatialIndexProps.v
theories/Archive.v
theories/ArchiveProps.v
theories/Printers.v
theories/PrintersProps.v
theories/StorageProps.v
theories/Storage.v
theories/Srs.v
theories/SrsProps.v
theories/Options.v
theories/OptionsProofs.v
theories/App.v
theories/OptionsProps.v
theories/AppProps.v
theories/Pipeline.v
theories/PipelineProofs.v
theories/PipelineProps.v
theories/RouteCache.v
theories/RouteCacheProps.v
theories/Counting.v
theories/CountingProofs.v
theories/CountingProps.v
theories/Buffer.v
theories/BufferProps.v
theories/OptionsHelpProps.v
theories/Points.v
theories/PointsProps.v
theories/Measures.v
theories/MeasuresProps.v
theories/Estimate.v
theories/EstimateProps.v
theories/Euclid.v
theories/EuclidProps.v
theories/Views.v
theories/ViewsProps.v
theories/Work.v
theories/WorkProps.v
theories/Deadline.v
theories/DeadlineProofs.v
theories/DeadlineProps.v
theories/Limit.v
theories/LimitProps.v
theories/Settings.v
theories/SettingsProps.v
theories/TagStore.v
theories/TagStoreProps.v
theories/Rows.v
theories/RowsProps.v
theories/Compress.v
theories/CompressProps.v
theories/OsmTags.v
theories/OsmTagsProps.v
theories/TagFlowProps.v
theories/IndexBuild.v
theories/IndexBuildProps.v
theories/Hashed.v
theories/HashedProps.v
theories/WktProofs.v
theories/WktTextProofs.v
theories/Wkt.v
theories/WktProps.v
theories/Counts.v
theories/CountsProps.v
theories/WktReadProps.v
theories/OsmMove.v
theories/OsmMoveProps.v
theories/PartRefs.v
theories/PartRefsProps.v
theories/MedianAdapt.v
theories/MedianAdaptProps.v
