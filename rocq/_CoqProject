-Q theories Verif
theories/Base.v
theories/Types.v
theories/Clamp.v
theories/Varint.v
theories/VarintProofs.v
theories/Sixpack.v
theories/SixpackProofs.v
theories/Entry.v
theories/EntryProofs.v
theories/Hash.v
theories/HashProofs.v
theories/Map.v
theories/MapProofs.v
theories/MapInv.v
theories/Shard.v
theories/Spec.v
theories/Trace.v
theories/ShardProofs.v
theories/ScanProofs.v
theories/LoopProofs.v
theories/Cache.v
theories/Refine.v
theories/Reach.v
theories/Observe.v
theories/PropCodec.v
theories/PropCache.v
theories/PropItems.v
theories/Small.v
theories/EvictProofs.v
theories/PropMemory.v
theories/PropScan.v
theories/PropShards.v
theories/PropLife.v
theories/CursorProofs.v
theories/PropCursor.v
theories/SizeProofs.v
theories/PropSize.v
theories/PropTable.v
theories/Conc.v
theories/ConcProofs.v
theories/Threads.v
theories/ThreadsProofs.v
theories/PropConc.v
theories/Refcount.v
theories/RefcountProofs.v
theories/PropRefcount.v
theories/Text.v
theories/IntText.v
theories/IntTextProofs.v
theories/Glob.v
theories/GlobProofs.v
theories/CmdTable.v
theories/CmdTableProofs.v
theories/PropText.v
theories/Prog.v
theories/CmdSpec.v
theories/Cmds.v
theories/CmdsProofs.v
theories/CmdsProofs2.v
theories/CmdsProofs3.v
theories/PropCmds.v
theories/CmdSpec2.v
theories/PropCmds2.v
theories/CmdSpec3.v
theories/CmdsProofs4.v
theories/PropCmds3.v
theories/CmdsProofs5.v
theories/PropCmds4.v
theories/SafeSpec.v
theories/SafeProofs.v
theories/PropSafe.v
theories/Resp.v
theories/RespSpec.v
theories/RespProofs.v
theories/TelnetProofs.v
theories/PropResp.v
theories/Memcache.v
theories/McSpec.v
theories/McProofs.v
theories/PropMc.v
theories/Http.v
theories/HttpSpec.v
theories/HttpProofs.v
theories/PropHttp.v
theories/Reply.v
theories/ReplySpec.v
theories/ReplyProofs.v
theories/PropReply.v
theories/Postgres.v
theories/PgSpec.v
theories/PgProofs.v
theories/Conn.v
theories/ConnProofs.v
theories/ConnProofs2.v
theories/PgProofs2.v
theories/ConnSpec.v
theories/ConnProofs3.v
theories/ConnProofs4.v
theories/PgProofs3.v
theories/ConnProofs5.v
theories/ConnProofs6.v
theories/ConnProofs7.v
theories/PropPg.v
theories/PropConn.v
theories/FitProofs.v
theories/FitProofs2.v
theories/SafeSpec2.v
theories/SafeProofs2.v
theories/PropSafe2.v
theories/Save.v
theories/SaveSpec.v
theories/CrcProofs.v
theories/SaveProofs.v
theories/LoadProofs.v
theories/LoadProofs2.v
theories/SaveFs.v
theories/SaveFsProofs.v
theories/LoadProofs3.v
theories/PropSave.v
theories/PropSaveCases.v
theories/Args.v
theories/ArgsSpec.v
theories/ArgsProofs.v
theories/ArgsProofs2.v
theories/PropArgs.v
theories/Net.v
theories/NetSpec.v
theories/NetProofs.v
theories/NetProofs2.v
theories/PropNet.v
theories/Cmap.v
theories/PropCmap.v
theories/Accept.v
theories/PropAccept.v
theories/Server.v
theories/ServerSpec.v
theories/ServerProofs.v
theories/ServerProofs2.v
theories/ServerProofs3.v
theories/PropServer.v
theories/PropServerSafe.v
theories/Hmap.v
theories/HmapProofs.v
theories/HmapRun.v
theories/HmapFull.v
theories/PropHmap.v
theories/Monitor.v
theories/PropMonitor.v
theories/Main.v
theories/PropMain.v
theories/Lz4.v
theories/Lz4Spec.v
theories/Lz4Proofs1.v
theories/Lz4Proofs2.v
theories/Lz4Proofs3.v
theories/Lz4Proofs4.v
theories/PropLz4.v
theories/Tls.v
theories/PropTls.v
theories/Proc.v
theories/ProcProofs.v
theories/PropProc.v
theories/PropProcCases.v
theories/OutBuf.v
theories/OutBufProofs.v
theories/PropOut.v
theories/TotalProofs.v
theories/PropTotal.v
theories/Stats.v
theories/StatsSpec.v
theories/StatsProofs.v
theories/PropStats.v
theories/StatCmd.v
theories/PropStatCmd.v
theories/StatReply.v
theories/StatReplySpec.v
theories/PropStatReply.v
theories/Debug.v
theories/PropDebug.v
theories/SaveCmd.v
theories/SaveCmdProofs.v
theories/PropSaveCmd.v
theories/PropSaveCmdCases.v
theories/LoadLive.v
theories/LoadLiveProofs.v
theories/PropLoadLive.v
theories/Watch.v
theories/PropWatch.v
theories/Jobs.v
theories/PropJobs.v
theories/FrameSpec.v
theories/FrameProofs.v
theories/PropFrame.v
theories/PropLow.v
theories/PropTally.v
theories/PropSpan.v
theories/PropBackground.v
theories/PropLock.v
theories/RegSpec.v
theories/PropReg.v
theories/TokProofs.v
theories/TokProofs2.v
theories/TokProofs3.v
theories/PropCas.v
theories/TableSpec.v
theories/PropAllKeys.v
theories/Weave.v
theories/WeaveSpec.v
theories/WeaveProofs.v
theories/WeaveProofs2.v
theories/PropWeave.v
theories/PropWeave2.v
