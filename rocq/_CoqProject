-Q theories Verif
theories/Base.v
theories/BitsModel.v
theories/BitsSpec.v
theories/BitsProofs.v
theories/BitsProps.v
theories/HashTableModel.v
theories/HashTableSpec.v
theories/HashTableProofs.v
theories/HashTableFacts.v
theories/HashMapModel.v
theories/HashMapSpec.v
theories/HashMapProofs.v
theories/HashTableProps.v
theories/HashTableMemModel.v
theories/HashTableMemSpec.v
theories/HashTableMemProofs.v
theories/HashTableMemProps.v
theories/HashFnModel.v
theories/HashFnSpec.v
theories/HashFnProofs.v
theories/HashFnProps.v
theories/PQModel.v
theories/PQSpec.v
theories/PQProofs.v
theories/PQProps.v
theories/InlineListModel.v
theories/InlineListSpec.v
theories/InlineListProofs.v
theories/InlineListProps.v
theories/RefcountModel.v
theories/RefcountSpec.v
theories/RefcountProofs.v
theories/RefcountState.v
theories/RefcountStep.v
theories/RefcountAlias.v
theories/RefcountProps.v
theories/AtomicRefModel.v
theories/AtomicRefSpec.v
theories/AtomicRefProofs.v
theories/AtomicRefStep.v
theories/AtomicRefLin.v
theories/AtomicRefExec.v
theories/AtomicRefProps.v
theories/WeakModel.v
theories/WeakSpec.v
theories/WeakInv.v
theories/WeakFrame.v
theories/WeakStep.v
theories/WeakStep2.v
theories/WeakStep3.v
theories/WeakExec.v
theories/WeakProps.v
theories/StrModel.v
theories/StrSpec.v
theories/StrProofs.v
theories/StrSplit.v
theories/StrProps.v
theories/MaybeModel.v
theories/MaybeSpec.v
theories/MaybeProofs.v
theories/MaybeProps.v
theories/FixedArrayModel.v
theories/FixedArraySpec.v
theories/FixedArrayProofs.v
theories/FixedArrayProps.v
theories/FunctionModel.v
theories/FunctionSpec.v
theories/FunctionProofs.v
theories/FunctionProps.v
theories/FlagsModel.v
theories/FlagsSpec.v
theories/FlagsProps.v
theories/RaiiModel.v
theories/RaiiSpec.v
theories/RaiiProofs.v
theories/RaiiProps.v
theories/RaiiThrowModel.v
theories/RaiiThrowSpec.v
theories/RaiiThrowProofs.v
theories/RaiiThrowProps.v
theories/SyncModel.v
theories/SyncSpec.v
theories/SyncProofs.v
theories/SyncProps.v
theories/ArgModel.v
theories/ArgSpec.v
theories/ArgProofs1.v
theories/ArgProofs2.v
theories/ArgProofs3.v
theories/ArgProofs4.v
theories/ArgProps.v
theories/ArgEntryModel.v
theories/ArgEntrySpec.v
theories/ArgEntryProofs.v
theories/ArgEntryProps.v
theories/UsageModel.v
theories/UsageSpec.v
theories/UsageProofs.v
theories/UsageProps.v
theories/RewriteModel.v
theories/RewriteSpec.v
theories/RewriteProofs.v
theories/RewriteProps.v
theories/VecModel.v
theories/VecProofs.v
theories/VecProps.v
theories/SharedLibModel.v
theories/SharedLibSpec.v
theories/SharedLibProofs.v
theories/SharedLibProps.v
theories/FloatModel.v
theories/FloatSpec.v
theories/FloatProofs.v
theories/FloatProps.v
theories/TimeModel.v
theories/TimeProps.v
theories/StylerModel.v
theories/StylerSpec.v
theories/StylerProofs.v
theories/StylerVisit.v
theories/StylerProps.v
theories/StylerRules.v
theories/StylerFile.v
theories/StylerFileProps.v
theories/ToolModel.v
theories/ToolSpec.v
theories/ToolProps.v
theories/FairSpec.v
theories/FairProofs.v
theories/FairProps.v
theories/LayoutModel.v
theories/LayoutSpec.v
theories/LayoutProps.v
theories/FsModel.v
theories/FsSpec.v
theories/FsProps.v
theories/ThreadModel.v
theories/ThreadSpec.v
theories/ThreadProps.v
theories/ReenterModel.v
theories/ReenterSpec.v
theories/ReenterProofs.v
theories/ReenterStep.v
theories/ReenterLayer.v
theories/ReenterProps.v
theories/ReEndSpec.v
theories/ReEndProofs.v
theories/ReEndProps.v
theories/ReportModel.v
theories/ReportSpec.v
theories/ReportProofs.v
theories/ReportProps.v
theories/HashTableCostProps.v
theories/UtilModel.v
theories/UtilSpec.v
theories/UtilProofs.v
theories/UtilProps.v
theories/FnReenterModel.v
theories/FnReenterSpec.v
theories/FnReenterProofs.v
theories/FnReenterProps.v
theories/MutexSpec.v
theories/MutexProofs.v
theories/MutexProps.v
theories/HashRobustModel.v
theories/HashRobustSpec.v
theories/HashRobustProofs.v
theories/HashRobustProps.v
theories/HashAliasModel.v
theories/HashAliasProofs.v
theories/HashAliasProps.v
theories/PolicyModel.v
theories/PolicySpec.v
theories/PolicyProofs.v
theories/PolicyProps.v
theories/HashReenterModel.v
theories/HashReenterSpec.v
theories/HashReenterProofs.v
theories/HashReenterProps.v
theories/InlineIterModel.v
theories/InlineIterSpec.v
theories/InlineIterProofs.v
theories/InlineIterProps.v
theories/ArgLifeModel.v
theories/ArgLifeSpec.v
theories/ArgLifeProofs.v
theories/ArgLifeProps.v
theories/PreprocModel.v
theories/HeadersModel.v
theories/PreprocSpec.v
theories/PreprocProofs.v
theories/PreprocFacts.v
theories/PreprocString.v
theories/PreprocProps.v
theories/FnNestModel.v
theories/FnNestSpec.v
theories/FnNestProofs.v
theories/FnNestProps.v
theories/RcWidthModel.v
theories/RcWidthSpec.v
theories/RcWidthProofs.v
theories/RcWidthProps.v
theories/ReWidthModel.v
theories/ReWidthProofs.v
theories/ReWidthProps.v
theories/PQCostModel.v
theories/PQCostSpec.v
theories/PQCostProofs.v
theories/PQCostProps.v
theories/MaybeThrowModel.v
theories/MaybeThrowSpec.v
theories/MaybeThrowProofs.v
theories/MaybeThrowProps.v
theories/FixedArrayThrowModel.v
theories/FixedArrayThrowSpec.v
theories/FixedArrayThrowProofs.v
theories/FixedArrayThrowProps.v
theories/FnThrowModel.v
theories/FnThrowSpec.v
theories/FnThrowProofs.v
theories/FnThrowProps.v
theories/HashThrowModel.v
theories/HashThrowSpec.v
theories/HashThrowProofs.v
theories/HashThrowProps.v
theories/PQThrowModel.v
theories/PQThrowSpec.v
theories/PQThrowProofs.v
theories/PQThrowProps.v
theories/PQMoveModel.v
theories/PQMoveSpec.v
theories/PQMoveProofs.v
theories/PQMoveProps.v
theories/AtomicWidthModel.v
theories/AtomicWidthSpec.v
theories/AtomicWidthProofs.v
theories/AtomicWidthProps.v
theories/HashOracleModel.v
theories/HashOracleSpec.v
theories/HashOracleProofs.v
theories/HashOracleProps.v
