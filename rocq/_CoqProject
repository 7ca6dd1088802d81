-Q theories Verif
theories/GoBase.v
theories/Buffers.v
theories/Frames.v
theories/Messages.v
theories/Conn.v
theories/SpecWire.v
theories/SpecFrames.v
theories/SpecProtocol.v
theories/BufferProofs.v
theories/BufferFacts.v
theories/FrameProofs.v
theories/MessageProofs.v
theories/P_Buffers.v
theories/FrameFacts.v
theories/P_Frames.v
theories/ConnProofs.v
theories/ConnFacts.v
theories/DecodeFacts.v
theories/ExtQuery.v
theories/P_Messages.v
theories/Dsn.v
theories/SpecDsn.v
theories/DsnProofs.v
theories/P_Dsn.v
theories/Lts.v
theories/Event.v
theories/SpecEvent.v
theories/EventProofs.v
theories/P_Event.v
theories/Config.v
theories/Distributor.v
theories/SpecDistributor.v
theories/DistributorProofs.v
theories/DistributorGet.v
theories/DistributorSubs.v
theories/DistributorLive.v
theories/DistributorDead.v
theories/P_Distributor.v
theories/Session.v
theories/SpecSession.v
theories/SessionProofs.v
theories/SessionPipe.v
theories/SessionDecode.v
theories/SessionLife.v
theories/SessionFacts.v
theories/SessionTraffic.v
theories/SessionMore.v
theories/SessionReason.v
theories/SessionRuns.v
theories/SessionEnd.v
theories/P_Session.v
theories/Server.v
theories/SpecServer.v
theories/ServerProofs.v
theories/ServerListen.v
theories/ServerSessions.v
theories/ServerMore.v
theories/ServerLate.v
theories/ServerActs.v
theories/ServerGaps.v
theories/P_Server.v
theories/FileWatcher.v
theories/SpecWatcher.v
theories/WatcherProofs.v
theories/WatcherFacts.v
theories/WatcherLive.v
theories/SpecWatchLog.v
theories/WatcherLog.v
theories/P_Watcher.v
theories/Cli.v
theories/SpecCli.v
theories/CliProofs.v
theories/P_Cli.v
theories/Inspector.v
theories/SpecInspector.v
theories/InspectorProofs.v
theories/P_Inspector.v
theories/System.v
theories/SpecSystem.v
theories/SystemProofs.v
theories/SessionAlone.v
theories/SystemSessions.v
theories/SystemFlow.v
theories/SystemOrder.v
theories/SystemMore.v
theories/SystemTrace.v
theories/SystemFacts.v
theories/SystemRuns.v
theories/SystemQuiet.v
theories/SessionBusy.v
theories/SpecServing.v
theories/SystemBusy.v
theories/SystemServing.v
theories/P_System.v
theories/Slices.v
theories/SpecSlices.v
theories/SlicesProofs.v
theories/P_Serving.v
theories/P_Slices.v
theories/Inspect.v
theories/SpecInspect.v
theories/InspectProofs.v
theories/P_Inspect.v
theories/SpecRace.v
theories/RaceServer.v
theories/RaceDistributor.v
theories/RaceSession.v
theories/RaceWatcher.v
theories/P_Races.v
theories/SpecReject.v
theories/RejectProofs.v
theories/P_Reject.v
theories/SpecReady.v
theories/SystemReady.v
theories/P_Ready.v
theories/SpecLocks.v
theories/LocksProofs.v
theories/P_Locks.v
theories/WaitGroup.v
theories/WaitGroupProofs.v
theories/P_WaitGroup.v
theories/SpecIsolation.v
theories/IsolationProofs.v
theories/P_Isolation.v
theories/Log.v
theories/SpecLog.v
theories/LogProofs.v
theories/LogAlone.v
theories/LogServer.v
theories/LogWatch.v
theories/P_Log.v
theories/SpecCrowd.v
theories/SystemCrowd.v
theories/P_Crowd.v
theories/SpecCancel.v
theories/SessionCancel.v
theories/P_Cancel.v
theories/SpecLive.v
theories/SpecExecution.v
theories/SessionLive.v
theories/SystemLive.v
theories/P_Live.v
theories/Fair.v
theories/SpecReload.v
theories/SystemReload.v
theories/SystemReloadLive.v
theories/P_Reload.v
theories/SpecConnections.v
theories/ServerHistory.v
theories/P_Connections.v
theories/SpecAttend.v
theories/SystemAttend.v
theories/SystemAttendLive.v
theories/P_Attend.v
theories/SpecSettle.v
theories/SystemSettle.v
theories/P_Settle.v
theories/SpecConnect.v
theories/SystemConnect.v
theories/P_Connect.v
theories/SessionFlow.v
theories/SpecTalk.v
theories/SystemTalk.v
theories/P_Talk.v
theories/NetUrl.v
theories/SpecUri.v
theories/NetUrlProofs.v
theories/UriProofs.v
theories/P_Uri.v
theories/Toml.v
theories/SpecToml.v
theories/TomlProofs.v
theories/TomlMeaning.v
theories/P_Toml.v
theories/SpecFile.v
theories/FileProofs.v
theories/P_File.v
theories/Kingpin.v
theories/SpecArgs.v
theories/ArgsProofs.v
theories/PathProofs.v
theories/P_Args.v
theories/P_Start.v
theories/SpecStart.v
theories/StartProofs.v
theories/P_Begin.v
theories/TestsToml.v
theories/TestsGolden.v
theories/TestsUri.v
theories/TestsEvent.v
theories/TestsDistributor.v
theories/TestsServer.v
theories/TestsWatcher.v
