-Q theories Verif
theories/Bits.v
theories/Params.v
theories/Msg.v
theories/Units.v
theories/Rtl.v
theories/Mem.v
theories/Tl.v
theories/ParamsProofs.v
theories/RtlLemmas.v
theories/RefineInv.v
theories/RefineStall.v
theories/RefineReq.v
theories/RefineAdv1.v
theories/RefineAdv2.v
theories/RefineAdv3.v
theories/RefineProofs.v
theories/Spec.v
theories/UnitProofs.v
theories/ViewDefs.v
theories/ViewOps.v
theories/ViewProofs.v
theories/System.v
theories/SysProofs.v
theories/SysFacts.v
theories/Facts1.v
theories/Facts2.v
theories/Harness.v
theories/PropData.v
theories/PropProto.v
theories/Traffic.v
theories/MetaProofs.v
theories/PendProofs.v
theories/TrafProofs.v
theories/Facts3.v
theories/Facts4.v
theories/PropCache.v
theories/Units2.v
theories/Units2Proofs.v
theories/Facts5.v
theories/PropUnits.v
theories/Timing.v
theories/Facts6.v
theories/Progress.v
theories/PropLive.v
theories/Wide.v
theories/Faults.v
theories/PropFaults.v
theories/MemCl.v
theories/MemFacts.v
theories/MemClMulti.v
theories/DynSpec.v
theories/DynEvict.v
theories/DynProofs.v
theories/DynFacts.v
theories/PropMem.v
theories/Fl.v
theories/FlProofs.v
theories/FlModel.v
theories/PropFl.v
theories/Bench.v
theories/PropBench.v
theories/PropRunTime.v
theories/ConformData.v
theories/Conform.v
theories/Latency.v
theories/PropTiming.v
theories/Procs.v
theories/Multicore.v
theories/PropProc.v
theories/MultiSys.v
theories/MultiProofs.v
theories/MultiFacts.v
theories/MultiMore.v
theories/MultiAmo.v
theories/MultiHarness.v
theories/Crash.v
theories/PropCrash.v
theories/SramJunk.v
theories/Flow.v
theories/FlowProofs.v
theories/PropSram.v
theories/PropFlow.v
theories/Hide.v
theories/Obliv.v
theories/Proto.v
theories/PropObliv.v
theories/AmoAll.v
theories/LockSpec.v
theories/Lock.v
theories/PropMulti.v
theories/DynMore.v
theories/LockCount.v
theories/LockHarness.v
theories/PropLock.v
theories/PropDyn.v
theories/BulkSpec.v
theories/BulkProofs.v
theories/BulkMore.v
theories/MultiData.v
theories/BulkHarness.v
theories/PropBulk.v
theories/LiveSpec.v
theories/Live.v
theories/LiveMulti.v
theories/PropLive2.v
theories/TimeSpec.v
theories/Service.v
theories/Service2.v
theories/ExactSpec.v
theories/Exact.v
theories/Exact2.v
theories/PropExact.v
theories/ScheduleSpec.v
theories/Schedule.v
theories/Schedule2.v
theories/PropSchedule.v
theories/LatSpec.v
theories/Lat.v
theories/Lat2.v
theories/Lat3.v
theories/Lat4.v
theories/PropLat.v
theories/RunTime.v
theories/RunTime2.v
theories/PropService.v
theories/IdleSpec.v
theories/Idle.v
theories/Idle2.v
theories/PropIdle.v
theories/HierSpec.v
theories/Hier.v
theories/Hier2.v
theories/HierHarness.v
theories/PropHier.v
theories/Line.v
theories/LineSpec.v
theories/LineProofs.v
theories/LineSys.v
theories/PropLine.v
theories/IsoSpec.v
theories/Iso.v
theories/PropIso.v
theories/PowerSpec.v
theories/Power.v
theories/Power2.v
theories/PropPower.v
theories/UnitsConformData.v
theories/UnitsConform.v
theories/UnusedSpec.v
theories/Unused.v
theories/Unused2.v
theories/PropUnused.v
theories/CrashMultiSpec.v
theories/CrashMulti.v
theories/PropCrashMulti.v
theories/Directed.v
theories/PropDirected.v
theories/InitSpec.v
theories/Init.v
theories/Init2.v
theories/Init3.v
theories/Init4.v
theories/PropInit.v
theories/Init5.v
theories/Init6.v
theories/PropInit2.v
theories/MomentSpec.v
theories/Moment.v
theories/Moment2.v
theories/Moment3.v
theories/PropMoment.v
theories/BiggerSpec.v
theories/Bigger.v
theories/Bigger2.v
theories/Bigger3.v
theories/Bigger4.v
theories/Bigger5.v
theories/Bigger6.v
theories/PropBigger.v
theories/DmaSpec.v
theories/Dma.v
theories/Dma2.v
theories/DmaHarness.v
theories/PropDma.v
theories/MemTestSpec.v
theories/MemTest.v
theories/PropMemTest.v
