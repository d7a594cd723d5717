-Q theories Verif
theories/Base.v
theories/Spec.v
theories/ErrorModel.v
theories/ErrorSpec.v
theories/SizeModel.v
theories/RingSpec.v
theories/RingModel.v
theories/BufSpec.v
theories/BufModel.v
theories/SysInfoModel.v
theories/SeqProofs.v
theories/ErrorProofs.v
theories/SysInfoProofs.v
theories/SizeProofs.v
theories/SizeSpecProofs.v
theories/RingProofs.v
theories/IRingProofs.v
theories/RingTheorems.v
theories/RingWeak.v
theories/RingClaims.v
theories/RingWitness.v
theories/BufReaderProofs.v
theories/BufReasons.v
theories/BufWriterProofs.v
theories/BufWeak.v
theories/BufClaims.v
theories/BufMark.v
theories/BufExactSpec.v
theories/BufExact.v
theories/PropertiesSize.v
theories/PropertiesRing.v
theories/PropertiesBuf.v
theories/PropertiesError.v
theories/PropertiesSysInfo.v
theories/OsModel.v
theories/OthersModel.v
theories/MapModel.v
theories/MapSpec.v
theories/OsProofs.v
theories/MapProofs.v
theories/MapCreate.v
theories/MapOps.v
theories/ApiModel.v
theories/ApiSpec.v
theories/OthersProofs.v
theories/ApiProofs.v
theories/MapClaims.v
theories/MapClaims2.v
theories/MapClaims3.v
theories/MapClaims4.v
theories/MapClaims5.v
theories/OptionsSpec.v
theories/OptionsProofs.v
theories/MapClaims6.v
theories/SpanModel.v
theories/SpanSpec.v
theories/SpanProofs.v
theories/SpanMap.v
theories/RingMapModel.v
theories/RingMapSpec.v
theories/MirrorProofs.v
theories/RingMapClaims.v
theories/PropertiesMap.v
theories/PropertiesMap2.v
theories/PropertiesSpan.v
theories/PropertiesRingMap.v
theories/MachModel.v
theories/MachSpec.v
theories/MachProofs.v
theories/MachClaims.v
theories/PropertiesMach.v
theories/WinModel.v
theories/WinSpec.v
theories/WinProofs.v
theories/WinClaims.v
theories/WinRetry.v
theories/WinCalls.v
theories/PropertiesWin.v
theories/WinMapModel.v
theories/WinMapSpec.v
theories/WinSpace.v
theories/WinOthers.v
theories/WinKeep.v
theories/WinMapProofs.v
theories/WinAlloc.v
theories/WinThings.v
theories/WinHist.v
theories/WinLeak.v
theories/WinMapClaims.v
theories/WinMapClaims2.v
theories/PropertiesWinMap.v
theories/MemRingModel.v
theories/MemRingProofs.v
theories/ProcModel.v
theories/ProcSpec.v
theories/ProcFrame.v
theories/ProcProofs.v
theories/ProcClaims.v
theories/ProcPages.v
theories/PropertiesProc.v
theories/OthersClaims.v
theories/AnonClaims.v
theories/PropertiesOthers.v
theories/WinMapClaims3.v
theories/PropertiesWinMap2.v
theories/WinProcModel.v
theories/WinProcSpec.v
theories/WinProcProofs.v
theories/WinProcClaims.v
theories/PropertiesWinProc.v
theories/RingExactSpec.v
theories/RingExact.v
theories/RingExactClaims.v
theories/RingLive.v
theories/PropertiesExact.v
theories/PropertiesBufExact.v
theories/MachProcModel.v
theories/MachProcSpec.v
theories/MachProcProofs.v
theories/MachProcClaims.v
theories/ProcLedgerSpec.v
theories/ProcLedger.v
theories/PropertiesMachProc.v
theories/PropertiesLedger.v
theories/WinLedgerSpec.v
theories/WinLedger.v
theories/PropertiesWinLedger.v
theories/ProcExactSpec.v
theories/ProcExact.v
theories/MachProcExact.v
theories/WinProcExact.v
theories/PropertiesProcExact.v
theories/DuplexModel.v
theories/DuplexSpec.v
theories/DuplexProofs.v
theories/DuplexClaims.v
theories/PropertiesDuplex.v
theories/ExactClaims.v
theories/ExactWrites.v
theories/PropertiesDecided.v
theories/StdModel.v
theories/StdSpec.v
theories/StdClaims.v
theories/PropertiesStd.v
theories/ThreadModel.v
theories/ThreadSpec.v
theories/ThreadFrame.v
theories/ThreadProofs.v
theories/ThreadInv.v
theories/ThreadClaims.v
theories/ThreadClaims2.v
theories/ThreadClaims3.v
theories/PropertiesThread.v
theories/ThreadExact.v
theories/PropertiesThreadExact.v
theories/ThreadLedgerSpec.v
theories/ThreadLedger.v
theories/PropertiesThreadLedger.v
theories/BufDirectModel.v
theories/BufDirectSpec.v
theories/BufDirectProofs.v
theories/PropertiesDirect.v
theories/BufReplaceModel.v
theories/BufReplaceSpec.v
theories/BufReplaceProofs.v
theories/PropertiesReplace.v
theories/BufProgModel.v
theories/BufProgProofs.v
theories/BufProgSpec.v
theories/BufProgClaims.v
theories/PropertiesBufProg.v
theories/BufProgWeak.v
theories/BufProgAnySpec.v
theories/BufProgAny.v
theories/PropertiesBufProgAny.v
theories/BufStdModel.v
theories/BufStdSpec.v
theories/BufStdProofs.v
theories/BufStdClaims.v
theories/PropertiesBufStd.v
theories/WinThreadModel.v
theories/WinThreadSpec.v
theories/WinThreadInv.v
theories/WinThreadAdv.v
theories/WinThreadStep.v
theories/WinThreadAlone.v
theories/WinThreadClaims.v
theories/WinThreadClaims2.v
theories/WinOthersClaims.v
theories/PropertiesWinThread.v
theories/WinThreadExact.v
theories/PropertiesWinThreadExact.v
theories/WinThreadLedgerSpec.v
theories/WinThreadLedger.v
theories/WinThreadFiles.v
theories/PropertiesWinThreadLedger.v
theories/PropertiesWinOthers.v
theories/WinDecided.v
theories/WinAllocWraps.v
theories/WinConvert.v
theories/PropertiesWinDecided.v
theories/MachThreadModel.v
theories/MachThreadSpec.v
theories/MachThreadFrame.v
theories/MachThreadProofs.v
theories/MachThreadInv.v
theories/MachThreadClaims.v
theories/MachThreadClaims2.v
theories/PropertiesMachThread.v
theories/MachThreadExact.v
theories/PropertiesMachThreadExact.v
theories/MachThreadLedgerSpec.v
theories/MachThreadLedger.v
theories/PropertiesMachThreadLedger.v
theories/ExecSpec.v
theories/ExecProofs.v
theories/ExecWin.v
theories/PropertiesExec.v
theories/PropertiesWinExec.v
theories/OsLayerModel.v
theories/OsLayerSpec.v
theories/OsLayerProofs.v
theories/PropertiesOsLayer.v
theories/OsRingModel.v
theories/OsRingSpec.v
theories/OsRingProofs.v
theories/PropertiesOsRing.v
theories/MachRingModel.v
theories/MachRingSpec.v
theories/MachRingProofs.v
theories/PropertiesMachRing.v
theories/WinOsRingModel.v
theories/WinOsRingSpec.v
theories/WinOsRingProofs.v
theories/WinOsRingMirror.v
theories/PropertiesWinOsRing.v
theories/WinOsModel.v
theories/WinOsSpec.v
theories/WinOsProofs.v
theories/WinOsGrants.v
theories/PropertiesWinOs.v
