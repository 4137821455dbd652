-Q theories Verif
theories/Model/Base.v
theories/Model/Search.v
theories/Spec/Search.v
theories/Proofs/Search.v
theories/Props/Search.v
theories/Model/Matrix.v
theories/Model/RTMatrix.v
theories/Spec/RTMatrix.v
theories/Proofs/RTMatrix.v
theories/Props/RTMatrix.v
theories/Model/Mod1d.v
theories/Spec/Mod1d.v
theories/Proofs/Mod1d.v
theories/Props/Mod1d.v
theories/Model/State.v
theories/Model/Layer.v
theories/Model/StaticLayer.v
theories/Spec/Layer.v
theories/Proofs/LayerCalc.v
theories/Proofs/Layer.v
theories/Proofs/LayerLiq.v
theories/Proofs/LayerBd.v
theories/Proofs/LayerStatic.v
theories/Proofs/LayerSplit.v
theories/Proofs/LayerD.v
theories/Proofs/State.v
theories/Proofs/LayerTop.v
theories/Props/Layer.v
theories/Model/Source.v
theories/Model/Kernel.v
theories/Model/Secular.v
theories/Spec/Kernel.v
theories/Proofs/Kernel.v
theories/Proofs/KernelSolve.v
theories/Proofs/KernelCode.v
theories/Proofs/KernelPhys.v
theories/Proofs/KernelPsv.v
theories/Proofs/KernelSh.v
theories/Proofs/KernelStatic.v
theories/Proofs/KernelTop.v
theories/Proofs/KernelEx.v
theories/Props/Kernel.v
theories/Spec/Secular.v
theories/Proofs/Secular.v
theories/Proofs/SecularAll.v
theories/Proofs/SecularMode.v
theories/Proofs/SecularPsv.v
theories/Proofs/SecularDet.v
theories/Proofs/SecularRayl.v
theories/Proofs/SecularSh.v
theories/Proofs/SecularTop.v
theories/Proofs/SecularEx.v
theories/Props/Secular.v
theories/Model/Radiation.v
theories/Spec/Radiation.v
theories/Proofs/Radiation.v
theories/Props/Radiation.v
theories/Model/Coord.v
theories/Spec/Coord.v
theories/Proofs/Coord.v
theories/Props/Coord.v
theories/Model/Util.v
theories/Spec/Util.v
theories/Proofs/Util.v
theories/Proofs/UtilIO.v
theories/Proofs/UtilParse.v
theories/Props/Util.v
theories/Model/FiniteFault.v
theories/Spec/FiniteFault.v
theories/Proofs/FiniteFault.v
theories/Props/FiniteFault.v
theories/Model/StaticSyn.v
theories/Spec/StaticSyn.v
theories/Proofs/StaticGrid.v
theories/Proofs/StaticSyn.v
theories/Proofs/StaticFF.v
theories/Proofs/StaticSrc.v
theories/Proofs/StaticMain.v
theories/Props/StaticSyn.v
theories/Model/Signals.v
theories/Spec/Signals.v
theories/Proofs/Signals.v
theories/Proofs/SignalsTf.v
theories/Props/Signals.v
theories/Model/Inverse.v
theories/Spec/Inverse.v
theories/Proofs/Inverse.v
theories/Props/Inverse.v
theories/Model/GreenSpec.v
theories/Spec/GreenSpec.v
theories/Proofs/GreenSpec.v
theories/Props/GreenSpec.v
theories/Model/Travt.v
theories/Spec/Travt.v
theories/Proofs/Travt.v
theories/Props/Travt.v
theories/Spec/KInteg.v
theories/Model/KInteg.v
theories/Proofs/KInteg.v
theories/Proofs/Bessel.v
theories/Proofs/IntPk.v
theories/Proofs/Dcm.v
theories/Proofs/Fim.v
theories/Proofs/KIntegEx.v
theories/Props/KInteg.v
theories/Model/Dwm.v
theories/Spec/Dwm.v
theories/Proofs/Dwm.v
theories/Proofs/Wni.v
theories/Props/Dwm.v
theories/Model/Adaptive.v
theories/Model/Root.v
theories/Spec/Adaptive.v
theories/Spec/Root.v
theories/Spec/RootRun.v
theories/Proofs/Adaptive.v
theories/Proofs/Safim.v
theories/Proofs/Golden.v
theories/Proofs/Root.v
theories/Proofs/RootSearch.v
theories/Proofs/RootFreq.v
theories/Proofs/RootPred.v
theories/Proofs/RootEx.v
theories/Props/Adaptive.v
theories/Props/Root.v
theories/Model/Ptam.v
theories/Spec/Ptam.v
theories/Proofs/Ptam.v
theories/Proofs/PtamPeak.v
theories/Proofs/PtamCell.v
theories/Proofs/PtamRun.v
theories/Proofs/PtamThm.v
theories/Proofs/PtamEx.v
theories/Props/Ptam.v
theories/Model/Iostats.v
theories/Spec/Iostats.v
theories/Proofs/Iostats.v
theories/Props/Iostats.v
theories/Model/Kmax.v
theories/Spec/Kmax.v
theories/Proofs/Kmax.v
theories/Props/Kmax.v
theories/Model/PlotStats.v
theories/Spec/PlotStats.v
theories/Proofs/PlotStats.v
theories/Props/PlotStats.v
theories/Model/Modal.v
theories/Spec/Modal.v
theories/Proofs/Modal.v
theories/Proofs/ModalFile.v
theories/Proofs/ModalSel.v
theories/Proofs/ModalOpt.v
theories/Proofs/ModalSens.v
theories/Proofs/ModalEx.v
theories/Props/Modal.v
theories/Model/SynPath.v
theories/Spec/SynPath.v
theories/Proofs/SynPath.v
theories/Proofs/SynPathFloat.v
theories/Props/SynPath.v
theories/Model/Energy.v
theories/Spec/Energy.v
theories/Proofs/ExpInt.v
theories/Proofs/EnergyInt.v
theories/Proofs/EnergyLoop.v
theories/Proofs/EnergyStack.v
theories/Proofs/EnergyLove.v
theories/Proofs/EnergyCut.v
theories/Proofs/ModePair.v
theories/Proofs/ModePairSh.v
theories/Proofs/EnergyTop.v
theories/Proofs/EnergyEx.v
theories/Props/Energy.v
theories/Spec/ModeFam.v
theories/Proofs/FLim.v
theories/Proofs/ModeFam.v
theories/Proofs/ModeFamSh.v
theories/Proofs/GroupVel.v
theories/Proofs/GroupEx.v
theories/Props/GroupVel.v
theories/Proofs/SensRows.v
theories/Proofs/Sens.v
theories/Proofs/SensEx.v
theories/Props/Sens.v
theories/Model/Eigenfn.v
theories/Spec/Eigenfn.v
theories/Proofs/Eigenfn.v
theories/Proofs/EigenLove.v
theories/Proofs/EigenRayl.v
theories/Proofs/EigenPsv.v
theories/Proofs/EigenTop.v
theories/Proofs/EigenEx.v
theories/Props/Eigenfn.v
theories/Model/Okada.v
theories/Model/OkadaMod.v
theories/Spec/Okada.v
theories/Proofs/OkadaExpr.v
theories/Proofs/OkadaPoly.v
theories/Proofs/OkadaId.v
theories/Proofs/OkadaNavier.v
theories/Proofs/OkadaLin.v
theories/Proofs/OkadaTop.v
theories/Proofs/OkadaFull.v
theories/Proofs/OkadaHalf.v
theories/Proofs/OkadaRot.v
theories/Proofs/OkadaMod.v
theories/Props/Okada.v
theories/Model/ModGrn.v
theories/Spec/ModGrn.v
theories/Proofs/PolePsv.v
theories/Proofs/PoleSh.v
theories/Proofs/ModGrn.v
theories/Proofs/ModGrnSh.v
theories/Proofs/ModGrnEx.v
theories/Props/ModGrn.v
theories/Model/ModTime.v
theories/Spec/ModTime.v
theories/Proofs/ModTime.v
theories/Props/ModTime.v
theories/Model/OkadaRect.v
theories/Model/OkadaFault.v
theories/Spec/OkadaRect.v
theories/Proofs/RectExpr.v
theories/Proofs/RectPoly.v
theories/Proofs/RectId.v
theories/Proofs/RectIdB.v
theories/Proofs/RectIdV.v
theories/Proofs/RectInt.v
theories/Proofs/RectTop.v
theories/Proofs/RectFault.v
theories/Props/OkadaRect.v
theories/Model/LambUtil.v
theories/Model/Lamb.v
theories/Spec/Lamb.v
theories/Proofs/LambRoots.v
theories/Proofs/Lamb.v
theories/Proofs/LambSol.v
theories/Props/Lamb.v
theories/Proofs/RectPts.v
theories/Spec/LambWaves.v
theories/Spec/LambArc.v
theories/Proofs/LambWaves.v
theories/Proofs/LambInt.v
theories/Proofs/LambArc.v
theories/Props/LambWaves.v
theories/Props/LambArc.v
theories/Model/StLib.v
theories/Spec/StLib.v
theories/Proofs/StLib.v
theories/Props/StLib.v
theories/Model/RecvFile.v
theories/Spec/RecvFile.v
theories/Proofs/RecvFile.v
theories/Props/RecvFile.v
theories/Model/SynGf.v
theories/Spec/SynGf.v
theories/Proofs/SynGf.v
theories/Props/SynGf.v
theories/Model/Carlson.v
theories/Spec/Carlson.v
theories/Proofs/Carlson.v
theories/Props/Carlson.v
theories/Model/PyStream.v
theories/Proofs/PyStream.v
theories/Props/PyStream.v
theories/Model/HalfRoots.v
theories/Model/HalfEst.v
theories/Spec/HalfRoots.v
theories/Proofs/HalfRootsCert.v
theories/Proofs/HalfRoots.v
theories/Proofs/HalfSearch.v
theories/Proofs/HalfScholte.v
theories/Props/HalfRoots.v
theories/Model/DistRange.v
theories/Proofs/DistRange.v
theories/Props/DistRange.v
