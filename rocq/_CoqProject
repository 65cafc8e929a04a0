-Q theories Verif
theories/Base.v
theories/Blocks.v
theories/BlocksCuts.v
theories/BlocksDefined.v
theories/BlocksPasses.v
theories/BlocksProofs.v
theories/BlocksRules.v
theories/BlocksSpec.v
theories/Bpe.v
theories/BpeProofs.v
theories/BpeSpec.v
theories/CharMap.v
theories/CharstringProofs.v
theories/CipherProofs.v
theories/Cli.v
theories/CliProofs.v
theories/CliSpec.v
theories/ContentSpec.v
theories/Counter.v
theories/CounterProofs.v
theories/CutPlaceProofs.v
theories/Dehyphenation.v
theories/DehyphenationProofs.v
theories/Destruction.v
theories/Diacritics.v
theories/DiacriticsProofs.v
theories/DiacriticsSpec.v
theories/Document.v
theories/Double.v
theories/DoubleFacts.v
theories/Elements.v
theories/ElementsProofs.v
theories/ExactProofs.v
theories/FeaturesProofs.v
theories/Float.v
theories/FloatFacts.v
theories/FontClearProofs.v
theories/FontExamples.v
theories/FontFileProofs.v
theories/FontTextProofs.v
theories/FontWholeProofs.v
theories/Fonts.v
theories/FontsSpec.v
theories/GeometrySpec.v
theories/GridProofs.v
theories/Grouping.v
theories/HierarchyProofs.v
theories/HierarchySpec.v
theories/IdsOrder.v
theories/IdsProgram.v
theories/IdsSpec.v
theories/IdsStages.v
theories/IdsStages2.v
theories/IdsXY.v
theories/ImagingProofs.v
theories/ImagingSpec.v
theories/ItemLabels.v
theories/ItemLabelsProofs.v
theories/ItemLabelsSpec.v
theories/JsonProofs.v
theories/JsonSpec.v
theories/LegibleProofs.v
theories/LegibleSpec.v
theories/LineMergeProofs.v
theories/Lines.v
theories/LinesDefined.v
theories/LinesProofs.v
theories/LinesSpec.v
theories/Logging.v
theories/LoggingProofs.v
theories/LoggingSpec.v
theories/MathUtils.v
theories/MathUtilsProofs.v
theories/NumberProofs.v
theories/NumberSpec.v
theories/OwnershipProofs.v
theories/PageSegmentation.v
theories/PagesSpec.v
theories/Parsing.v
theories/ParsingBoxes.v
theories/ParsingProofs.v
theories/ParsingSpec.v
theories/ParsingWhole.v
theories/Pipeline.v
theories/PipelineAccents.v
theories/PipelineContent.v
theories/PipelineLines.v
theories/PipelinePages.v
theories/PipelineProofs.v
theories/PipelineScripts.v
theories/PipelineSpec.v
theories/PipelineStages.v
theories/PipelineStats.v
theories/PipelineWhole.v
theories/PipelineWired.v
theories/PipelineWords.v
theories/Program.v
theories/ProgramSpec.v
theories/PropsAccents.v
theories/PropsBlocks.v
theories/PropsBpe.v
theories/PropsCli.v
theories/PropsConfiguration.v
theories/PropsContent.v
theories/PropsEvery.v
theories/PropsFonts.v
theories/PropsGeometry.v
theories/PropsIds.v
theories/PropsItemLabels.v
theories/PropsLegible.v
theories/PropsLines.v
theories/PropsLogging.v
theories/PropsNumbers.v
theories/PropsOutput.v
theories/PropsOwnership.v
theories/PropsPages.v
theories/PropsParsing.v
theories/PropsPipeline.v
theories/PropsProgram.v
theories/PropsRoles.v
theories/PropsScripted.v
theories/PropsScripts.v
theories/PropsSegmentation.v
theories/PropsSelection.v
theories/PropsStatistics.v
theories/PropsTimings.v
theories/PropsTotal.v
theories/PropsUtils.v
theories/PropsVisualization.v
theories/PropsWired.v
theories/PropsWiring.v
theories/PropsWords.v
theories/PropsXYCut.v
theories/ReadingOrder.v
theories/ReadingOrderExact.v
theories/ReadingOrderProofs.v
theories/ReadingOrderSpec.v
theories/Roles.v
theories/RolesProofs.v
theories/RolesSpec.v
theories/ScriptedSpec.v
theories/Scripts.v
theories/ScriptsProofs.v
theories/ScriptsSpec.v
theories/SegmentationProofs.v
theories/SegmentationSpec.v
theories/SelectionSpec.v
theories/Serialization.v
theories/SerializationProofs.v
theories/SerializationSpec.v
theories/Sort.v
theories/StackedProofs.v
theories/Statistics.v
theories/StatisticsProofs.v
theories/StatisticsSpec.v
theories/TextUtils.v
theories/TextUtilsProofs.v
theories/TextlessProofs.v
theories/Timings.v
theories/TimingsProofs.v
theories/TimingsSpec.v
theories/TotalLines.v
theories/TotalPos.v
theories/TotalSpec.v
theories/TotalWhole.v
theories/TrimProofs.v
theories/UtilsSpec.v
theories/Visualization.v
theories/VisualizationProofs.v
theories/VisualizationSpec.v
theories/VocabProofs.v
theories/WiredSpec.v
theories/WiringSpec.v
theories/Words.v
theories/WordsProofs.v
theories/WordsSpec.v
theories/WrapProofs.v
theories/XYCut.v
theories/XYCutProofs.v
theories/XYCutSpec.v
theories/XYOrderProofs.v
