-Q theories Verif
theories/Base.v
theories/BaseLemmas.v
theories/Time.v
theories/Utf8.v
theories/Base64.v
theories/Url.v
theories/Json.v
theories/Oracles.v
theories/ConfigLex.v
theories/ConfigParse.v
theories/Config.v
theories/Located.v
theories/Dump.v
theories/State.v
theories/Http.v
theories/Timers.v
theories/Server.v
theories/Client.v
theories/Cli.v
theories/Startup.v
theories/Log.v
theories/Command.v
theories/Wire.v
theories/StateLemmas.v
theories/SpecGrammar.v
theories/ConfigParseProofs.v
theories/SpecConfig.v
theories/LexLemmas.v
theories/ConfigLemmas.v
theories/UrlLemmas.v
theories/SpecLex.v
theories/Lexing.v
theories/SpecBlocks.v
theories/SpecReport.v
theories/Blocks.v
theories/Tops.v
theories/Reads.v
theories/Places.v
theories/Locate.v
theories/Faults.v
theories/Report.v
theories/Report2.v
theories/SpecHttp.v
theories/HttpLemmas.v
theories/SpecDump.v
theories/Codec.v
theories/SpecStatus.v
theories/SpecServer.v
theories/Steps.v
theories/Inv.v
theories/Reach.v
theories/Own.v
theories/Scenario.v
theories/Runs.v
theories/Cases.v
theories/Trace.v
theories/Origin.v
theories/Reply.v
theories/Shown.v
theories/Dialog.v
theories/Pend.v
theories/SpecLinks.v
theories/Links.v
theories/Revoke.v
theories/Basic.v
theories/Decide.v
theories/PageLemmas.v
theories/SpecRestore.v
theories/DumpLemmas.v
theories/ClientLemmas.v
theories/RefreshOrigin.v
theories/Refresh.v
theories/Loss.v
theories/Exchange.v
theories/SpecTimers.v
theories/Wake.v
theories/Sched.v
theories/Retry.v
theories/Remind.v
theories/Events.v
theories/SpecPages.v
theories/SpecSessions.v
theories/Sessions.v
theories/SpecLife.v
theories/Life.v
theories/SpecSecrets.v
theories/Secrets.v
theories/SpecClients.v
theories/Clients.v
theories/Complete.v
theories/Utf8Lemmas.v
theories/SpecUtf8.v
theories/Utf8Spec.v
theories/SpecText.v
theories/TextConfig.v
theories/Texts.v
theories/SpecUser.v
theories/SpecReplies.v
theories/User.v
theories/Replies.v
theories/Counters.v
theories/UrlText.v
theories/SpecFair.v
theories/Fair.v
theories/Endless.v
theories/SpecCli.v
theories/CliLemmas.v
theories/SpecStartup.v
theories/StartupLemmas.v
theories/Props1.v
theories/Props2.v
theories/Props3.v
theories/Props4.v
theories/Props5.v
theories/Props6.v
theories/Props7.v
theories/Props8.v
theories/Props9.v
theories/Props10.v
theories/Props11.v
theories/SpecLayout.v
theories/Layout.v
theories/Writing.v
theories/Props12.v
theories/Props13.v
theories/SpecLog.v
theories/LogLemmas.v
theories/LogFacts.v
theories/ClientFacts.v
theories/Props14.v
theories/Props15.v
theories/SpecEncoding.v
theories/Encoding.v
theories/SpecCommand.v
theories/CommandLemmas.v
theories/Props16.v
theories/SpecWire.v
theories/WireLemmas.v
theories/WireNet.v
theories/Props17.v
theories/SpecStop.v
theories/Stop.v
theories/GoOn.v
theories/SpecDates.v
theories/Dates.v
theories/Props18.v
theories/Props19.v
theories/Props20.v
theories/Locks.v
theories/SpecLocks.v
theories/LockLemmas.v
theories/Props21.v
theories/SpecTimed.v
theories/Timed.v
theories/TimedRetry.v
theories/TimedShow.v
theories/TimedCase.v
theories/FlakyCase.v
theories/Props22.v
theories/Listen.v
theories/SpecListen.v
theories/ListenLemmas.v
theories/Props23.v
theories/TimedNotify.v
theories/RemindCase.v
theories/Props24.v
theories/TimedEvents.v
theories/ReportCase.v
theories/Props25.v
theories/SpecReturn.v
theories/TimedReturn.v
theories/ReturnCase.v
theories/Props26.v
theories/SpecServe.v
theories/TimedServe.v
theories/ServeCase.v
theories/Props27.v
theories/SpecApart.v
theories/Apart.v
theories/ApartCase.v
theories/Props28.v
theories/SpecTurn.v
theories/TimedTurn.v
theories/TurnCase.v
theories/SpecSpin.v
theories/Spin.v
theories/SpinCase.v
theories/Props29.v
theories/Props30.v
theories/Spawn.v
theories/SpecSpawn.v
theories/SpawnLemmas.v
theories/SpawnCase.v
theories/Props31.v
theories/Hangup.v
theories/SpecHangup.v
theories/HangupLog.v
theories/SpecHangupLog.v
theories/SpecAnswer.v
theories/HangupLemmas.v
theories/HangupLogLemmas.v
theories/AnswerLemmas.v
theories/Props32.v
theories/Child.v
theories/SpecChild.v
theories/ChildLemmas.v
theories/Props33.v
theories/Accept.v
theories/SpecAccept.v
theories/AcceptLemmas.v
theories/Props34.v
theories/Props35.v
theories/Props36.v
