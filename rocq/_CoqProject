-Q theories Verif

theories/ArgModel.v
theories/ArgProofs.v
theories/ArgProps.v
theories/ArgSpec.v
theories/BacktraceModel.v
theories/BacktraceProofs.v
theories/BacktraceProps.v
theories/BacktraceSpec.v
theories/Base.v
theories/BinNumModel.v
theories/BinNumProofs.v
theories/BinNumProps.v
theories/BinNumSpec.v
theories/Bits.v
theories/ChronoModel.v
theories/ChronoProofs1.v
theories/ChronoProofs2.v
theories/ChronoProofs3.v
theories/ChronoProps.v
theories/ChronoSpec.v
theories/CodecDecProofs.v
theories/CodecFinal.v
theories/CodecModel.v
theories/CodecProofs.v
theories/CodecProps.v
theories/CodecSpec.v
theories/CollectModel.v
theories/CollectProofs.v
theories/CollectProps.v
theories/CollectSpec.v
theories/CompDemo.v
theories/CompModel.v
theories/CompProofs.v
theories/CompProps.v
theories/CompSpec.v
theories/ConfModel.v
theories/ConfProofs1.v
theories/ConfProofs2.v
theories/ConfProofs3.v
theories/ConfProofs4.v
theories/ConfProofs5.v
theories/ConfProofs6.v
theories/ConfProofs7.v
theories/ConfProps.v
theories/ConfSpec.v
theories/CowBase.v
theories/CowStrModel.v
theories/CowStrProofs.v
theories/CowStrProps.v
theories/CowStrSpec.v
theories/CowVecModel.v
theories/CowVecProofs.v
theories/CowVecProps.v
theories/CowVecSpec.v
theories/CsvModel.v
theories/CsvProofs.v
theories/CsvProofs2.v
theories/CsvProofs3.v
theories/CsvProofs4.v
theories/CsvProps.v
theories/CsvSpec.v
theories/DecProofs.v
theories/DecProps.v
theories/DecPutProofs.v
theories/DecPutProps.v
theories/DecReadProofs.v
theories/DecShortProofs.v
theories/DecSpec.v
theories/DecTripProofs.v
theories/DumpProps.v
theories/ExprFullProofs.v
theories/ExprModel.v
theories/ExprProofs.v
theories/ExprProps.v
theories/ExprSoundProofs.v
theories/ExprSpec.v
theories/ExtremeProps.v
theories/FileModel.v
theories/FileProofs.v
theories/FileProps.v
theories/FileSpec.v
theories/FindModel.v
theories/FindProofs.v
theories/FindProps.v
theories/FindSpec.v
theories/FlowExamples.v
theories/FlowModel.v
theories/FlowProofs1.v
theories/FlowProofs2.v
theories/FlowProofs3.v
theories/FlowProofs4.v
theories/FlowProofs5.v
theories/FlowProofs6.v
theories/FlowProofs7.v
theories/FlowProofs8.v
theories/FlowProps.v
theories/FlowSpec.v
theories/FmtModel.v
theories/FmtProofs1.v
theories/FmtProofs2.v
theories/FmtProofs3.v
theories/FmtProofs4.v
theories/FmtProofs5.v
theories/FmtProofs6.v
theories/FmtProps.v
theories/FmtSpec.v
theories/GcModel.v
theories/GcProofs.v
theories/GcProps.v
theories/GcSpec.v
theories/HashMapProofs.v
theories/HashModel.v
theories/HashProofs.v
theories/HashProps.v
theories/HashSpec.v
theories/HashStepProofs.v
theories/ImportModel.v
theories/ImportProofs.v
theories/ImportProps.v
theories/ImportSpec.v
theories/IniModel.v
theories/IniProofs.v
theories/IniProofs2.v
theories/IniProofs3.v
theories/IniProps.v
theories/IniSpec.v
theories/IntOpsModel.v
theories/IntOpsProofs.v
theories/IntOpsProps.v
theories/IntOpsSpec.v
theories/JsonModel.v
theories/JsonProofs1.v
theories/JsonProofs2.v
theories/JsonProofs3.v
theories/JsonProofs4.v
theories/JsonProofs5.v
theories/JsonProofs6.v
theories/JsonProps.v
theories/JsonSpec.v
theories/LinbufModel.v
theories/LinbufProofs.v
theories/LinbufProps.v
theories/LinbufSpec.v
theories/LinkModel.v
theories/LinkProofs1.v
theories/LinkProofs2.v
theories/LinkProofs3.v
theories/LinkProofs4.v
theories/LinkProps.v
theories/LinkSpec.v
theories/Lists.v
theories/LogProps.v
theories/MaxProps.v
theories/Monad.v
theories/NumCastProofs.v
theories/NumFormatProofs.v
theories/NumGetModel.v
theories/NumGetProofs.v
theories/NumLangProofs.v
theories/NumProps.v
theories/NumPutModel.v
theories/NumPutProofs.v
theories/NumRealProofs.v
theories/NumRoundProofs.v
theories/NumSpec.v
theories/NumTables.v
theories/NumTripProofs.v
theories/OperModel.v
theories/OperProofs.v
theories/OperProps.v
theories/OperSpec.v
theories/PrintModel.v
theories/PrintProofs1.v
theories/PrintProofs2.v
theories/PrintProofs3.v
theories/PrintProps.v
theories/PrintSpec.v
theories/RandModel.v
theories/RandProofs.v
theories/RandProps.v
theories/RcModel.v
theories/RcProofs1.v
theories/RcProofs2.v
theories/RcProofs3.v
theories/RcProofs4.v
theories/RcProofs5.v
theories/RcProps.v
theories/RcSpec.v
theories/RefModel.v
theories/RefProofs.v
theories/RefProps.v
theories/RefSpec.v
theories/RemoveModel.v
theories/RemoveProofs.v
theories/RemoveProps.v
theories/RemoveSpec.v
theories/RoundModel.v
theories/RoundProofs.v
theories/RoundProofs2.v
theories/RoundProps.v
theories/RoundSpec.v
theories/ScopeModel.v
theories/ScopeProofs1.v
theories/ScopeProofs2.v
theories/ScopeProofs3.v
theories/ScopeProps.v
theories/ScopeSpec.v
theories/SearchModel.v
theories/SearchProofs.v
theories/SearchProps.v
theories/SearchSpec.v
theories/SentryModel.v
theories/SentryProofs.v
theories/SentryProps.v
theories/SentrySpec.v
theories/SeqModel.v
theories/SeqProofs.v
theories/SeqProps.v
theories/SeqSpec.v
theories/SortModel.v
theories/SortProofs.v
theories/SortProps.v
theories/SortSearchProofs.v
theories/SortSpec.v
theories/StackModel.v
theories/StackProofs.v
theories/StackProps.v
theories/StackSpec.v
theories/StdioModel.v
theories/StdioProofs.v
theories/StdioProps.v
theories/StdioSpec.v
theories/StmtModel.v
theories/StmtProofs1.v
theories/StmtProofs2.v
theories/StmtProofs3.v
theories/StmtProofs4.v
theories/StmtProofs5.v
theories/StmtProofs6.v
theories/StmtProps.v
theories/StmtSpec.v
theories/StrModel.v
theories/StrProofs.v
theories/StrProps.v
theories/StrSpec.v
theories/StrStreamModel.v
theories/StrStreamProofs.v
theories/StrStreamProps.v
theories/StrStreamSpec.v
theories/SumModel.v
theories/SumProofs.v
theories/SumProps.v
theories/SumSpec.v
theories/Text.v
theories/TokModel.v
theories/TokProofs1.v
theories/TokProofs2.v
theories/TokProofs3.v
theories/TokProofs4.v
theories/TokProps.v
theories/TokSpec.v
theories/UtfModel.v
theories/UtfProofs.v
theories/UtfProps.v
theories/UtfSpec.v
theories/UuidModel.v
theories/UuidProofs.v
theories/UuidProps.v
theories/UuidSpec.v
theories/ValueModel.v
theories/ValueProofs.v
theories/ValueProps.v
theories/ValueSpec.v
theories/XmemModel.v
theories/XmemProofs.v
theories/XmemProofs2.v
theories/XmemProps.v
theories/XmemSpec.v
