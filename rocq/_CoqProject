-Q theories Verif
theories/Base.v
theories/Num.v
theories/B64.v
theories/XReal.v
theories/Order.v
theories/Containers.v
theories/SpecContainers.v
theories/BstProofs.v
theories/PropContainers.v
theories/Ta.v
theories/TaTools.v
theories/TaElem.v
theories/SpecTa.v
theories/RSum.v
theories/TaAvg.v
theories/TaStat.v
theories/TaDev.v
theories/Regression.v
theories/TaReg.v
theories/Lits.v
theories/TaOrd.v
theories/TaPivot.v
theories/TaRange.v
theories/TaCausal.v
theories/TaCci.v
theories/TaMore.v
theories/PropTa1.v
theories/PropTa2.v
theories/Sides.v
theories/Klines.v
theories/Rounding.v
theories/KlineFloat.v
theories/SpecKlines.v
theories/KlineProofs1.v
theories/KlineProofs2.v
theories/XrMore.v
theories/KlineProofs3.v
theories/KlineConvert.v
theories/KlineConvert2.v
theories/PropKlines.v
theories/IndBase.v
theories/IndTrend.v
theories/IndChannel.v
theories/IndVolume.v
theories/IndOsc.v
theories/IndAll.v
theories/IndTools.v
theories/CountLaw.v
theories/IndCausal.v
theories/IndSides.v
theories/SpecInd.v
theories/IndLife.v
theories/IndTimes.v
theories/IndSignals.v
theories/PropInd1.v
theories/FloatLaws.v
theories/OrderMore.v
theories/IndForms.v
theories/IndForms2.v
theories/SpecInd2.v
theories/IndFormsSpec.v
theories/IndMachines.v
theories/PropInd2.v
theories/PropInd3.v
theories/BreakProb.v
theories/PropInd4.v
theories/FloatOrder.v
theories/FloatBounds.v
theories/SpecNum.v
theories/IndForms3.v
theories/IndForms4.v
theories/IndForms5.v
theories/IndRsi.v
theories/IndBounds.v
theories/IndBounds2.v
theories/PropInd5.v
theories/PropInd6.v
theories/IndExact.v
theories/PropInd7.v
theories/SpecBar.v
theories/PropInd8.v
theories/PropInd9.v
theories/PropInd10.v
theories/PropInd11.v
theories/PropInd12.v
theories/PropInd13.v
theories/TaNan.v
theories/PropInd14.v
theories/FloatError.v
theories/PropFloat.v
theories/Smc.v
theories/SpecSmc.v
theories/SmcProofs.v
theories/SmcBar.v
theories/PropSmc.v
theories/SpecSmc2.v
theories/SmcTrace.v
theories/PropSmc2.v
theories/Chan.v
theories/SpecChan.v
theories/ChanConf.v
theories/ChanRun.v
theories/ChanNet.v
theories/ChanCheck.v
theories/ChanDup.v
theories/PropChan.v
theories/RoundDigit.v
theories/PropRound.v
theories/Sim.v
theories/SimTa.v
theories/SimInd.v
theories/SimAll.v
theories/SimRest.v
theories/FieldUse.v
theories/PropFields.v
theories/Units.v
theories/PropUnits.v
theories/PropBands.v
theories/Crash.v
theories/CrashInd.v
theories/CrashSides.v
theories/PropCrash.v
theories/CrashTa.v
theories/PropCrashTa.v
theories/Finite.v
theories/FiniteInd.v
theories/SpecFinite.v
theories/FiniteBad.v
theories/PropFinite.v
theories/SpecLive.v
theories/PropLive.v
theories/PropHelpers.v
theories/SpecMemory.v
theories/PropMemory.v
theories/PropMemory2.v
theories/SpecMono.v
theories/PropMono.v
theories/SpecShift.v
theories/ShiftTools.v
theories/PropShift.v
theories/PropShift2.v
theories/PropShift3.v
theories/SpecMirror.v
theories/MirrorTools.v
theories/PropMirror.v
theories/PropMirror2.v
theories/PropMirror3.v
theories/PropMirror4.v
theories/PropMirror5.v
theories/SpecFlat.v
theories/PropFlat.v
theories/PropFlat2.v
theories/PropFlat3.v
theories/PropFlat4.v
theories/Report.v
theories/ReportProofs.v
theories/PropReport.v
theories/KlineMem.v
theories/SpecShare.v
theories/KlineMemProofs.v
theories/PropShare.v
theories/RowMem.v
theories/SpecRows.v
theories/RowMemProofs.v
theories/PropRows.v
theories/SpecTies.v
theories/NearTools.v
theories/PropTies.v
theories/PropTies2.v
theories/Threads.v
theories/SpecThreads.v
theories/ThreadsProofs.v
theories/PropThreads.v
theories/SpecRescale.v
theories/RescaleTools.v
theories/PropRescale.v
theories/CleanTools.v
theories/PropClean.v
theories/PropSmc3.v
theories/Durations.v
theories/SpecDur.v
theories/PropDur.v
theories/SimSmc.v
theories/PropSmc4.v
theories/PropSmc5.v
theories/PropSmc6.v
theories/PropSmc7.v
