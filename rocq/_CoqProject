-Q theories Verif
theories/Base.v
theories/NumR.v
theories/NumF.v
theories/BaseFacts.v
theories/SpecVec.v
theories/SpecReal.v
theories/MVec.v
theories/PVec.v
theories/PVecR.v
theories/PSort.v
theories/PropVecFacts.v
theories/PropVec.v
theories/Libm.v
theories/LibmR.v
theories/SpecMtx.v
theories/MMtx.v
theories/PMtx.v
theories/PMtxOps.v
theories/PMtxR.v
theories/MDecomp.v
theories/PFvec.v
theories/PGram.v
theories/PChol.v
theories/PHouse.v
theories/PropMtx.v
theories/RField.v
theories/SpecMx.v
theories/SpecGauss.v
theories/PDet.v
theories/PGauss.v
theories/PWedge.v
theories/PMx.v
theories/PDetMx.v
theories/PropDet.v
theories/SpecDecomp.v
theories/PQr.v
theories/PBal.v
theories/PBalTerm.v
theories/PSvd.v
theories/PDecompMx.v
theories/PropDecomp.v
theories/MStat.v
theories/SpecStat.v
theories/PStat.v
theories/PStatOrd.v
theories/PStatReg.v
theories/PStatMult.v
theories/PStatMx.v
theories/PropStat.v
theories/PropReg.v
theories/RTac.v
theories/Out.v
theories/MProb.v
theories/SpecProb.v
theories/PProb.v
theories/ErfR.v
theories/PropProb.v
theories/MInterp.v
theories/SpecInterp.v
theories/PInterp.v
theories/PSpline.v
theories/PropInterp.v
theories/MQuat.v
theories/SpecQuat.v
theories/PQuat.v
theories/PQuatRot.v
theories/RAtan2.v
theories/PQuatTrig.v
theories/PQuatEul.v
theories/PropQuat.v
theories/RPi.v
theories/MAhrs.v
theories/PropAhrs.v
theories/MFusion.v
theories/SpecFusion.v
theories/PFusion.v
theories/PFusion2.v
theories/PFusion3.v
theories/PropFusion.v
theories/PKalman.v
theories/PropFusion2.v
theories/PropCal.v
theories/PropKalman.v
theories/MColorTab.v
theories/SpecColor.v
theories/MColor.v
theories/PropColor.v
theories/PropColor2.v
theories/PropColor3.v
theories/PropOhno.v
theories/PLocus.v
theories/PropColor4.v
theories/MPhys.v
theories/MPhysVec.v
theories/SpecPhys.v
theories/PropPhys.v
theories/PropPhys2.v
theories/PropPhys3.v
theories/PropPhys4.v
theories/RE.v
theories/PropPhys5.v
theories/PStatMode.v
theories/PropStat2.v
theories/SpecFlt.v
theories/PFlt.v
theories/PFltSum.v
theories/PFltExact.v
theories/PFltUnit.v
theories/PFltVar.v
theories/PropFlt.v
theories/QWit.v
theories/MCal.v
theories/SpecCal.v
theories/PCal.v
theories/PCalMx.v
theories/PCalFast.v
theories/PropMagn.v
theories/SpecSafe.v
theories/PSafe.v
theories/PSafeMx.v
theories/PSafeQr.v
theories/PropSafe.v
theories/PSafeFus.v
theories/PSafeFlt.v
theories/SpecSafeFus.v
theories/PSafeHist.v
theories/PropSafeFus.v
theories/PRTotal.v
theories/PRTotal2.v
theories/PRotMtx.v
theories/PKalInit.v
theories/PropExact.v
theories/PropHist.v
theories/SpecReduc.v
theories/SpecSvd.v
theories/PSvdR.v
theories/PReduc.v
theories/PEigvec.v
theories/PEigvec2.v
theories/PEigMx.v
theories/PSvdFwd.v
theories/PSvdDiag.v
theories/PropSvd.v
theories/MMisc.v
theories/PropMisc.v
theories/PSafeStat.v
theories/PSafeCal.v
theories/PCalNaN.v
theories/PropSafe2.v
theories/SpecFltQuat.v
theories/PFltQuat.v
theories/PFltAng.v
theories/PUnitised.v
theories/PNanQuat.v
theories/PNanRead.v
theories/PFltFus.v
theories/PropFltQuat.v
theories/SpecEig.v
theories/PQrSeq.v
theories/PQrLim.v
theories/PQrMx.v
theories/PQrPsd.v
theories/PQrEig.v
theories/PQrRun.v
theories/PropEig.v
theories/PSettle.v
theories/PSettle2.v
theories/PSettle3.v
theories/PropSettle.v
theories/PropSettle2.v
theories/PropSettle3.v
theories/PropGyro.v
theories/PRgbFlt.v
theories/PropRgbFlt.v
theories/PPoly.v
theories/SpecFltRot.v
theories/PFltRot.v
theories/PropFltRot.v
theories/SpecFltDet.v
theories/PFltDet.v
theories/PropFltDet.v
theories/SpecSafeVec.v
theories/PSafeVec.v
theories/PSafeSmall.v
theories/PropSafeVec.v
theories/PFltSort.v
theories/SpecFltStat.v
theories/PFltStat.v
theories/PropFltStat.v
theories/PFltChol.v
theories/PropFltChol.v
theories/PFltMat.v
theories/PropFltMat.v
theories/PFltCmp.v
theories/PropFltCmp.v
theories/PFltInterp.v
theories/PropFltInterp.v
theories/PSafeColor.v
theories/PropSafeColor.v
theories/PFltTol.v
theories/PropFltTol.v
theories/PropFltElem.v
theories/SpecFltInv.v
theories/PFltInv.v
theories/PropFltInv.v
theories/MAlias.v
theories/PAlias.v
theories/PropAlias.v
theories/SpecFltRel.v
theories/PFltRel.v
theories/PropFltPhys.v
theories/SpecFltNan.v
theories/PNanPhys.v
theories/PropNanPhys.v
theories/PNanStat.v
theories/PropNanStat.v
theories/PropNanMtx.v
theories/PropUnits.v
theories/MCodes.v
theories/PropCodes.v
theories/NumS.v
theories/SpecSgl.v
theories/PSgl.v
theories/PSglSum.v
theories/PropSgl.v
theories/SpecSglQuat.v
theories/PSglQuat.v
theories/PropSglQuat.v
theories/SpecMagnJac.v
theories/PMagnJac.v
theories/PMagnStep.v
theories/PropMagnJac.v
theories/SpecCallback.v
theories/PropCallback.v
theories/PErf.v
theories/PropNormal.v
theories/PErfInv.v
theories/PErfInv2.v
theories/PropQuantile.v
theories/PropDensity.v
theories/MView.v
theories/SpecView.v
theories/PropView.v
theories/PropQuantSym.v
theories/PropEntropy.v
theories/PropPool.v
theories/PropSpline.v
theories/PHolladay.v
theories/PropHolladay.v
theories/PropInterpErr.v
theories/PropSlerp.v
theories/PropCovar.v
theories/PropGeom.v
theories/PropInterpMono.v
