-Q theories Verif

theories/Base.v
theories/BaseFacts.v
theories/ClustersModel.v
theories/ClustersSpec.v
theories/ClustersProofs.v
theories/ClustersProps.v
theories/PairwiseModel.v
theories/PairwiseSpec.v
theories/PairwiseProofs.v
theories/PairwiseProps.v
theories/EditSpec.v
theories/EditFacts.v
theories/LevModel.v
theories/LevProofs.v
theories/LevProps.v
theories/LevKeysModel.v
theories/LevKeysSpec.v
theories/LevKeysProofs.v
theories/LevKeysProps.v
theories/PassJoinModel.v
theories/PassJoinSpec.v
theories/PassJoinProofs.v
theories/PassJoinProps.v
theories/BlockingModel.v
theories/BlockingSpec.v
theories/BlockingProofs.v
theories/BlockingProps.v
theories/SortModel.v
theories/SortSpec.v
theories/SortFacts.v
theories/NeighborhoodModel.v
theories/NeighborhoodSpec.v
theories/NeighborhoodProofs.v
theories/NeighborhoodProps.v
theories/MetricsModel.v
theories/MetricsSpec.v
theories/MetricsProofs.v
theories/MetricsProps.v
theories/StringsModel.v
theories/StringsSpec.v
theories/StringsProofs.v
theories/StringsProps.v
theories/FingerprintModel.v
theories/FingerprintSpec.v
theories/FingerprintProofs.v
theories/FingerprintProps.v
theories/PhoneticsModel.v
theories/PhoneticsSpec.v
theories/PhoneticsProofs.v
theories/PhoneticsProps.v
theories/EvaluationModel.v
theories/EvaluationSpec.v
theories/EvaluationProofs.v
theories/EvaluationProps.v
theories/GraphModel.v
theories/GraphSpec.v
theories/GraphProofs.v
theories/GraphProjectionProofs.v
theories/GraphProps.v
theories/HashJoinModel.v
theories/HashJoinSpec.v
theories/HashJoinProofs.v
theories/HashJoinProps.v
theories/WordsModel.v
theories/WordsSpec.v
theories/WordsProofs.v
theories/WordsTests.v
theories/WordsProps.v
theories/CliModel.v
theories/CliSpec.v
theories/CliProofs.v
theories/CliProps.v
theories/SpaceModel.v
theories/SpaceSpec.v
theories/SpaceProofs.v
theories/SpaceProps.v
theories/FaginModel.v
theories/FaginSpec.v
theories/FaginProofs.v
theories/FaginProps.v
theories/NNDescentModel.v
theories/NNDescentSpec.v
theories/NNDescentProofs.v
theories/NNDescentFullProofs.v
theories/NNDescentProps.v
theories/BitsModel.v
theories/BitsSpec.v
theories/BitsProofs.v
theories/BitsProps.v
theories/MinHashModel.v
theories/MinHashSpec.v
theories/MinHashProofs.v
theories/SuperMinHashProofs.v
theories/MinHashClusterProofs.v
theories/MinHashProps.v
theories/QuickJoinModel.v
theories/QuickJoinSpec.v
theories/QuickJoinProofs.v
theories/QuickJoinClusterProofs.v
theories/QuickJoinEndProofs.v
theories/QuickJoinProps.v
theories/PPJoinModel.v
theories/PPJoinSpec.v
theories/PPJoinOrderProofs.v
theories/PPJoinProofs.v
theories/PPJoinAcceptProofs.v
theories/PPJoinHelperProofs.v
theories/PPJoinEndProofs.v
theories/PPJoinProps.v
theories/WordsKindSpec.v
theories/WordsKindProofs.v
theories/WordsKindProps.v
theories/WordsLinesSpec.v
theories/WordsLinesProofs.v
theories/WordsLinesItems.v
theories/WordsLinesProps.v
theories/NNDescentLocalSpec.v
theories/NNDescentLocalProofs.v
theories/NNDescentLocalProps.v
theories/AgreementSpec.v
theories/AgreementProofs.v
theories/AgreementProps.v
theories/ProbabilityModel.v
theories/ProbabilitySpec.v
theories/ProbabilityProofs.v
theories/ProbabilityProps.v
theories/ReportModel.v
theories/ReportSpec.v
theories/ReportProofs.v
theories/ReportHtmlProofs.v
theories/ReportProps.v
theories/FloatModel.v
theories/FloatSpec.v
theories/FloatProofs.v
theories/FloatMetricsProofs.v
theories/FloatCountProofs.v
theories/FloatProps.v
theories/FloatPPJoinModel.v
theories/FloatPPJoinSpec.v
theories/FloatPPJoinHelperProofs.v
theories/FloatPPJoinProofs.v
theories/FloatPPJoinProps.v
theories/CsvModel.v
theories/CsvSpec.v
theories/CsvProofs.v
theories/CsvCommandProofs.v
theories/CsvEndProofs.v
theories/CsvProps.v
theories/CsvAnyProofs.v
theories/DigestModel.v
theories/DigestSpec.v
theories/DigestProofs.v
theories/DigestEndProofs.v
theories/DigestProps.v
theories/RandomModel.v
theories/RandomSpec.v
theories/RandomProofs.v
theories/RandomStreamProofs.v
theories/RandomDrawProofs.v
theories/RandomProps.v
theories/SeededModel.v
theories/SeededProofs.v
theories/SeededProps.v
theories/HeapModel.v
theories/HeapSpec.v
theories/HeapProofs.v
theories/HeapProps.v
theories/ArgsModel.v
theories/ArgsSpec.v
theories/ArgsProofs.v
theories/ArgsProps.v
theories/FloatEvalModel.v
theories/FloatEvalProofs.v
theories/FloatEvalProps.v
theories/HashModel.v
theories/HashSpec.v
theories/HashProofs.v
theories/HashEndProofs.v
theories/HashSineProofs.v
theories/HashTextProofs.v
theories/HashProps.v
theories/FloatNormModel.v
theories/FloatNormSpec.v
theories/FloatNormProofs.v
theories/FloatNormMoreProofs.v
theories/FloatNormProps.v
theories/SuperFloatModel.v
theories/SuperFloatSpec.v
theories/SuperFloatProofs.v
theories/SuperFloatProps.v
theories/SeededFullModel.v
theories/SeededFullProofs.v
theories/SeededFullProps.v
theories/RegexModel.v
theories/RegexSpec.v
theories/RegexUsesModel.v
theories/RegexUsesSpec.v
theories/RegexProofs.v
theories/RegexUsesProofs.v
theories/RegexFingerprintProofs.v
theories/RegexEngineProofs.v
theories/RegexParseProofs.v
theories/RegexLoopProofs.v
theories/RegexProps.v
theories/ArgsMoreProps.v
theories/RegexGrammarSpec.v
theories/RegexGrammarProofs.v
theories/RegexGrammarProps.v
theories/CallsModel.v
theories/CallsSpec.v
theories/CallsProofs.v
theories/CallsMoreProofs.v
theories/CallsProps.v
theories/MetricCallsModel.v
theories/MetricCallsSpec.v
theories/MetricCallsProofs.v
theories/MetricCallsProps.v
theories/RegexChoiceSpec.v
theories/RegexChoiceProofs.v
theories/RegexChoiceProps.v
theories/LevCModel.v
theories/LevCSpec.v
theories/LevCProofs.v
theories/LevCTopProofs.v
theories/LevCLeakProofs.v
theories/LevCProps.v
theories/KeyCallsModel.v
theories/KeyCallsSpec.v
theories/KeyCallsProofs.v
theories/KeyCallsMinHashProofs.v
theories/KeyCallsProps.v
theories/PPJoinAnyModel.v
theories/PPJoinAnySpec.v
theories/PPJoinAnyProofs.v
theories/PPJoinAnyEndProofs.v
theories/PPJoinAnyProps.v
theories/NNCallsModel.v
theories/NNCallsSpec.v
theories/NNCallsProofs.v
theories/NNCallsEndProofs.v
theories/NNCallsCountProofs.v
theories/NNCallsFullProofs.v
theories/NNCallsEndlessProofs.v
theories/NNCallsProps.v
theories/NNCallsNoneProofs.v
theories/NNCallsNoneProps.v
theories/NNDescentRateProofs.v
theories/NNDescentRateProps.v
theories/FaginCosineModel.v
theories/FaginCosineSpec.v
theories/FaginCosineProofs.v
theories/FaginCosineMoreProofs.v
theories/FaginCosineSqrtProofs.v
theories/FaginCosineProps.v
theories/TokenCallsModel.v
theories/TokenCallsProofs.v
theories/TokenCallsEndProofs.v
theories/TokenCallsProps.v
theories/FaginLeastSpec.v
theories/FaginLeastProofs.v
theories/FaginLeastProps.v
theories/LevC1Model.v
theories/LevC1Spec.v
theories/LevC1Proofs.v
theories/LevC1Props.v
theories/NgramsAnyModel.v
theories/NgramsAnyProofs.v
theories/NgramsAnyProps.v
theories/NeighborhoodAnyModel.v
theories/NeighborhoodAnyProofs.v
theories/NeighborhoodAnyProps.v
theories/IntersectionAnyProps.v
theories/ChunksAnyModel.v
theories/ChunksAnyProofs.v
theories/ChunksAnyProps.v
theories/FloatsamBoundProofs.v
theories/FloatsamBoundProps.v
theories/PassJoinAnyModel.v
theories/PassJoinAnyProps.v
theories/MinHashAnyModel.v
theories/MinHashAnyProofs.v
theories/MinHashAnyProps.v
theories/NumbersProps.v
