-Q theories Verif
theories/Env/Carry.v
theories/Env/CarryCases.v
theories/Env/CarryProps.v
theories/Env/CarrySpec.v
theories/Env/EnvFacts.v
theories/Env/EnvOp.v
theories/Env/EnvOpProps.v
theories/Env/EnvOpSpec.v
theories/Env/EnvProps.v
theories/Env/Import.v
theories/Env/ImportProps.v
theories/Env/ImportSpec.v
theories/Env/Namespace.v
theories/Env/NamespaceFacts.v
theories/Env/NamespaceSpec.v
theories/Env/Startup.v
theories/Env/StartupProps.v
theories/Env/StartupSpec.v
theories/Exec/Machine.v
theories/Exec/MachineFacts.v
theories/Ops/Api.v
theories/Ops/ApiFun.v
theories/Ops/ApiFunCase.v
theories/Ops/ApiFunFacts.v
theories/Ops/ApiFunProps.v
theories/Ops/ApiFunRefuted.v
theories/Ops/ApiFunSpec.v
theories/Ops/ApiProps.v
theories/Ops/ApiSpec.v
theories/Ops/Basic.v
theories/Ops/BasicFacts.v
theories/Ops/Builtin.v
theories/Ops/ExecProps.v
theories/Ops/FlushTwice.v
theories/Ops/Gen.v
theories/Ops/GenFacts.v
theories/Ops/Group.v
theories/Ops/Nested.v
theories/Ops/NestedFacts.v
theories/Ops/Objects.v
theories/Ops/ObjectsFacts.v
theories/Ops/ObjectsProps.v
theories/Ops/ObjectsRefuted.v
theories/Ops/ObjectsSort.v
theories/Ops/ObjectsSpec.v
theories/Ops/OpsProps1.v
theories/Ops/OpsProps2.v
theories/Ops/OrderFacts.v
theories/Ops/Pos.v
theories/Ops/PosCases.v
theories/Ops/PosFacts.v
theories/Ops/PosOutput.v
theories/Ops/PosProps.v
theories/Ops/PosRefuted.v
theories/Ops/PosSpec.v
theories/Ops/RedFacts.v
theories/Ops/Reduction.v
theories/Ops/ReductionProps.v
theories/Ops/ReductionSpec.v
theories/Ops/Rerun.v
theories/Ops/SetFacts.v
theories/Ops/SetOps.v
theories/Ops/SortFacts.v
theories/Ops/Spec.v
theories/Ops/TailFacts.v
theories/Ops/Trace.v
theories/Ops/TraceProps.v
theories/Ops/TraceSpec.v
theories/Ops/WindowFacts.v
theories/Py/Dec.v
theories/Py/Val.v
theories/Py/ValFacts.v
theories/Syntax/ApiCalls.v
theories/Syntax/ApiCallsProps.v
theories/Syntax/ApiCallsSpec.v
theories/Syntax/Args.v
theories/Syntax/ArgsFacts.v
theories/Syntax/ArgsFacts2.v
theories/Syntax/ArgsFacts3.v
theories/Syntax/ArgsFacts4.v
theories/Syntax/ArgsProps.v
theories/Syntax/ArgsSpec.v
theories/Syntax/ArgsTable.v
theories/Syntax/CommandLine.v
theories/Syntax/CommandLineFacts1.v
theories/Syntax/CommandLineFacts2.v
theories/Syntax/CommandLineFacts3.v
theories/Syntax/CommandLineFacts4.v
theories/Syntax/CommandLineProps.v
theories/Syntax/CommandLineSpec.v
theories/Syntax/Complete.v
theories/Syntax/CompleteProps.v
theories/Syntax/CompleteQuoted.v
theories/Syntax/CompleteSpec.v
theories/Syntax/External.v
theories/Syntax/ExternalProps.v
theories/Syntax/ExternalSpec.v
theories/Syntax/FunArgs.v
theories/Syntax/FunArgsProps.v
theories/Syntax/FunArgsSpec.v
theories/Syntax/Help.v
theories/Syntax/HelpFacts1.v
theories/Syntax/HelpFacts2.v
theories/Syntax/HelpFacts3.v
theories/Syntax/HelpFacts4.v
theories/Syntax/HelpProps.v
theories/Syntax/HelpSpec.v
theories/Syntax/Input.v
theories/Syntax/InputProps.v
theories/Syntax/Lexer.v
theories/Syntax/LexerFacts.v
theories/Syntax/LexerFacts2.v
theories/Syntax/LexerProps.v
theories/Syntax/LexerSpec.v
theories/Syntax/Literals.v
theories/Syntax/LiteralsProps.v
theories/Syntax/Parser.v
theories/Syntax/ParserComplete.v
theories/Syntax/ParserCut.v
theories/Syntax/ParserFacts.v
theories/Syntax/ParserModes.v
theories/Syntax/ParserProps.v
theories/Syntax/ParserSound.v
theories/Syntax/ParserSpec.v
theories/Syntax/Saved.v
theories/Syntax/SavedProps.v
theories/Syntax/Scripts.v
theories/Syntax/ScriptsProps.v
theories/Syntax/ScriptsSpec.v
theories/Syntax/Tab.v
theories/Syntax/TabCases.v
theories/Syntax/TabFacts.v
theories/Syntax/TabProps.v
theories/Syntax/TabSpec.v
theories/Syntax/Topics.v
theories/Syntax/TopicsProps.v
theories/Syntax/TopicsSpec.v
theories/Sys/BashOp.v
theories/Sys/BashOpProps.v
theories/Sys/BashOpSpec.v
theories/Sys/CliArgs.v
theories/Sys/CliArgsFacts.v
theories/Sys/CliArgsProps.v
theories/Sys/CliArgsRefuted.v
theories/Sys/CliArgsSpec.v
theories/Sys/Cluster.v
theories/Sys/ClusterProps.v
theories/Sys/Csv.v
theories/Sys/CsvProps.v
theories/Sys/CsvSpec.v
theories/Sys/CsvWrite.v
theories/Sys/CsvWriteProps.v
theories/Sys/Dirs.v
theories/Sys/DirsProps.v
theories/Sys/DirsSpec.v
theories/Sys/DirsStart.v
theories/Sys/EditOp.v
theories/Sys/EditOpProps.v
theories/Sys/EditOpSpec.v
theories/Sys/Farcel.v
theories/Sys/FarcelProps.v
theories/Sys/FarcelSpared.v
theories/Sys/FarcelSpec.v
theories/Sys/FileLine.v
theories/Sys/FileLineProps.v
theories/Sys/FileLineSpec.v
theories/Sys/FileShownProps.v
theories/Sys/Fork.v
theories/Sys/ForkProps.v
theories/Sys/ForkSpec.v
theories/Sys/ForkWorkers.v
theories/Sys/ForkWorkersProps.v
theories/Sys/Funcs.v
theories/Sys/FuncsFacts.v
theories/Sys/FuncsInv.v
theories/Sys/FuncsJob.v
theories/Sys/FuncsProps.v
theories/Sys/FuncsSpec.v
theories/Sys/Glob.v
theories/Sys/GlobFacts.v
theories/Sys/GlobProps.v
theories/Sys/GlobRefuted.v
theories/Sys/GlobSpec.v
theories/Sys/History.v
theories/Sys/HistoryProps.v
theories/Sys/HistorySpec.v
theories/Sys/JobPick.v
theories/Sys/JobPickProps.v
theories/Sys/Jobs.v
theories/Sys/JobsFacts.v
theories/Sys/JobsFacts2.v
theories/Sys/JobsProps.v
theories/Sys/JobsSpec.v
theories/Sys/Json.v
theories/Sys/JsonProps.v
theories/Sys/JsonSpec.v
theories/Sys/Layout.v
theories/Sys/LayoutFacts.v
theories/Sys/LayoutProps.v
theories/Sys/LayoutSpec.v
theories/Sys/LayoutVersion.v
theories/Sys/Listener.v
theories/Sys/ListenerFacts.v
theories/Sys/ListenerHist.v
theories/Sys/ListenerProps.v
theories/Sys/ListenerRefuted.v
theories/Sys/ListenerReleased.v
theories/Sys/ListenerSession.v
theories/Sys/ListenerSpec.v
theories/Sys/Ls.v
theories/Sys/LsProps.v
theories/Sys/LsSpec.v
theories/Sys/Pickle.v
theories/Sys/PickleFile.v
theories/Sys/PickleFileProps.v
theories/Sys/PickleProps.v
theories/Sys/Prompt.v
theories/Sys/PromptProps.v
theories/Sys/PromptSpec.v
theories/Sys/Ps.v
theories/Sys/PsProps.v
theories/Sys/Remote.v
theories/Sys/RemoteProps.v
theories/Sys/RemoteSpec.v
theories/Sys/RunOp.v
theories/Sys/RunOpProps.v
theories/Sys/Scp.v
theories/Sys/ScpProps.v
theories/Sys/ScpSpec.v
theories/Sys/Shell.v
theories/Sys/ShellCases.v
theories/Sys/ShellProps.v
theories/Sys/ShellSpec.v
theories/Sys/Shown.v
theories/Sys/ShownProps.v
theories/Sys/ShownSpec.v
theories/Sys/Sql.v
theories/Sys/SqlProps.v
theories/Sys/SqlSpec.v
theories/Sys/Streams.v
theories/Sys/StreamsProps.v
theories/Sys/StreamsSpec.v
theories/Sys/Timer.v
theories/Sys/TimerProps.v
theories/Sys/TimerSpec.v
theories/Sys/TraceCtl.v
theories/Sys/TraceCtlProps.v
theories/Sys/TraceCtlSpec.v
theories/Sys/Workspaces.v
theories/Sys/WorkspacesCases.v
theories/Sys/WorkspacesFacts.v
theories/Sys/WorkspacesLife.v
theories/Sys/WorkspacesOps.v
theories/Sys/WorkspacesProps.v
theories/Sys/WorkspacesSpec.v
theories/Sys/WorkspacesStart.v
theories/Sys/WorkspacesValid.v
theories/Sys/WsLock.v
theories/Sys/WsLockProps.v
theories/Sys/WsOp.v
theories/Sys/WsOpArgs.v
theories/Sys/WsOpCases.v
theories/Sys/WsOpDisk.v
theories/Sys/WsOpProps.v
theories/Sys/WsOpSpec.v
theories/Sys/WsOpStep.v
