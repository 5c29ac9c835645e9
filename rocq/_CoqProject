-Q theories Verif
theories/Base.v
theories/Num.v
theories/MCore.v
theories/MCommon.v
theories/MStats.v
theories/MTesting.v
theories/MTa.v
theories/MStrategy.v
theories/MMetrics.v
theories/MContent.v
theories/MShare.v
theories/MReport.v
theories/MProgram.v
theories/Spec.v
theories/PRun.v
theories/PCommon.v
theories/PTa1.v
theories/PTa2.v
theories/PPipe.v
theories/PTa3.v
theories/PContent1.v
theories/PShare.v
theories/Laws.v
theories/Exact.v
theories/IEEE.v
theories/SpecReal.v
theories/PTa4.v
theories/PExact.v
theories/PExact2.v
theories/PIeee.v
theories/Inst.v
theories/SpecStrategy.v
theories/PStrategy.v
theories/PStrategy2.v
theories/PMetrics.v
theories/SpecBar.v
theories/PContent2.v
theories/PContent3.v
theories/PExact3.v
theories/SpecCatalogue.v
theories/PCausal.v
theories/PIeee2.v
theories/PRound.v
theories/MShare2.v
theories/PMono.v
theories/MPrint.v
theories/MFixture.v
theories/MPlot.v
theories/PropCore.v
theories/PropTa1.v
theories/PropTa2.v
theories/PropTa3.v
theories/PropStrategy.v
theories/PropStats.v
theories/PropMetrics.v
theories/PropContent1.v
theories/PropContent2.v
theories/PropContent3.v
theories/PropContent4.v
theories/PropContent5.v
theories/PropLook.v
theories/PropSafe.v
theories/PropWindow.v
theories/PropScale.v
theories/PropBacktest.v
theories/PropExtra.v
theories/PropMetrics2.v
theories/PropProgram.v
theories/PropReport.v
theories/PropDefaults.v
theories/PropRound.v
theories/PropGaps.v
theories/PropPipe.v
theories/PropMirror.v
theories/PropForget.v
theories/PropWarm.v
theories/PropRange.v
theories/PropBand.v
theories/PropUnits.v
theories/PropVar.v
theories/PropPrint.v
theories/PropFixture.v
theories/PropTick.v
theories/PropWhole.v
theories/PropPlot.v
theories/PropSignal.v
theories/PropGaps2.v
theories/PropWin.v
theories/PropTrend.v
theories/PropFlat.v
theories/PropGaps3.v
theories/PropError.v
theories/PropMissing.v
theories/PropFill.v
theories/PropDrift.v
theories/PropRatio.v
theories/PropSmooth.v
theories/PropSplit.v
theories/PropSplit2.v
theories/PropFigures.v
theories/PropRange2.v
theories/PropReads.v
theories/PropRespond.v
theories/PropLinear.v
theories/PropVolume.v
theories/PropVolF.v
theories/PropEma2.v
theories/PropOsc2.v
