-Q theories Verif
theories/Base.v
theories/WireModel.v
theories/WireSpec.v
theories/WireGrammar.v
theories/WireProofs.v
theories/WireRobust.v
theories/WireDec.v
theories/WireProps.v
theories/ClientModel.v
theories/ClientSpec.v
theories/ClientProofs.v
theories/ClientProps.v
theories/Maps.v
theories/StorageModel.v
theories/StorageSpec.v
theories/StorageProofs.v
theories/StorageBadger.v
theories/StorageProps.v
theories/TypesModel.v
theories/TypesSpec.v
theories/TypesProofs.v
theories/TypesCodec.v
theories/TypesIds.v
theories/TypesProps.v
theories/StackOnceProps.v
theories/TableProps.v
theories/TableSizeProps.v
theories/DecodeProps.v
theories/SyncModel.v
theories/SyncProps.v
theories/UtilModel.v
theories/UtilProps.v
theories/SemverModel.v
theories/SemverProps.v
theories/SemverGrammarProps.v
theories/ModuleModel.v
theories/ModuleProps.v
theories/ModuleTransProps.v
theories/StaticModel.v
theories/StaticProps.v
theories/StaticMoreProps.v
theories/StableModel.v
theories/StableProps.v
theories/StackProps.v
theories/MonitorModel.v
theories/FieldsProps.v
theories/MonitorProps.v
theories/MonitorMoreProps.v
theories/FsModel.v
theories/GoModModel.v
theories/GoModProps.v
theories/VisibleModel.v
theories/VisibleSpec.v
theories/VisibleProofs.v
theories/VisibleProps.v
theories/TestRunModel.v
theories/TestRunSpec.v
theories/TestRunProofs.v
theories/TestRunProps.v
theories/KeyOrderModel.v
theories/KeyOrderSpec.v
theories/KeyOrderProofs.v
theories/KeyOrderProps.v
theories/WorkModel.v
theories/WorkSpec.v
theories/WorkProofs.v
theories/WorkProps.v
theories/LoadModel.v
theories/LoadProofs.v
theories/LoadProps.v
theories/PanicModel.v
theories/PanicProofs.v
theories/PanicProps.v
theories/PanicOnceProps.v
theories/ScriptModel.v
theories/ScriptProofs.v
theories/ScriptProps.v
theories/TemplateModel.v
theories/TemplateProps.v
theories/ReachModel.v
theories/ReachProps.v
theories/RestoreMoreProps.v
theories/JsonModel.v
theories/JsonProps.v
theories/ChartModel.v
theories/ChartProps.v
theories/FlagsModel.v
theories/FlagsProps.v
theories/WalkModel.v
theories/WalkProps.v
theories/ModifierModel.v
theories/PointIdProps.v
theories/ModifierProps.v
theories/BatchModel.v
theories/BatchProps.v
theories/BatchMoreProps.v
theories/InsertModel.v
theories/InsertProps.v
theories/CompareModel.v
theories/CompareProps.v
theories/EngineModel.v
theories/EngineProps.v
theories/TmpModel.v
theories/TmpProps.v
theories/ReportModel.v
theories/ReportProps.v
theories/MutationModel.v
theories/MutationProps.v
theories/InstrModel.v
theories/InstrSpec.v
theories/InstrProofs.v
theories/InstrProps.v
theories/CallModel.v
theories/CallSpec.v
theories/CallProofs.v
theories/CallProps.v
theories/ServerModel.v
theories/ServerProps.v
theories/MutRunModel.v
theories/MutRunProps.v
theories/OutputModel.v
theories/OutputProps.v
theories/ExecModel.v
theories/ExecProps.v
theories/RewriteModel.v
theories/RewriteSpec.v
theories/RewriteProofs.v
theories/RewriteGuard.v
theories/RewriteCover.v
theories/RewriteScope.v
theories/RewriteProps.v
theories/DirModel.v
theories/DirProps.v
theories/EditModel.v
theories/EditProps.v
theories/PipeModel.v
theories/PipeSpec.v
theories/PipeProofs.v
theories/PipeProps.v
theories/IdentModel.v
theories/IdentProps.v
theories/UpdateModel.v
theories/UpdateProofs.v
theories/UpdateProps.v
theories/NameProps.v
theories/AttrModel.v
theories/AttrSpec.v
theories/AttrProofs.v
theories/AttrProps.v
theories/RunsModel.v
theories/RunsProofs.v
theories/RunsProps.v
theories/StoredModel.v
theories/StoredProofs.v
theories/StoredProps.v
theories/EngineDataModel.v
theories/EngineDataProofs.v
theories/EngineDataProps.v
theories/EngineDataMoreProps.v
theories/StoreLifeModel.v
theories/StoreLifeProps.v
theories/ResaveProps.v
theories/CompileSpec.v
theories/CompileProofs.v
theories/CompileProps.v
theories/ZeroModel.v
theories/ZeroProps.v
theories/CallTypeSpec.v
theories/CallTypeProofs.v
theories/CallTypeProps.v
theories/PointNameModel.v
theories/PointNameProofs.v
theories/PointNameProps.v
theories/GoStmtModel.v
theories/GoStmtSpec.v
theories/GoStmtProofs.v
theories/GoStmtProps.v
theories/GlobModel.v
theories/GlobSpec.v
theories/GlobProofs.v
theories/GlobProps.v
theories/GlobClassProps.v
theories/GlobErrorProps.v
theories/InterModel.v
theories/InterSpec.v
theories/InterProofs.v
theories/InterProps.v
theories/InterStartProps.v
theories/EditLockModel.v
theories/EditLockSpec.v
theories/EditLockProofs.v
theories/EditLockProps.v
theories/WireStatusProps.v
theories/WireCutProps.v
theories/EditLockCommitProps.v
theories/TypesShapeProps.v
theories/QuoteModel.v
theories/QuoteProofs.v
theories/QuoteProps.v
