-Q theories Verif
theories/MBase.v
theories/MUtils.v
theories/MCodec.v
theories/MHash.v
theories/MTree.v
theories/MParams.v
theories/SpecTree.v
theories/PfCodec.v
theories/PfUtils.v
theories/PfHash.v
theories/PfTree.v
theories/PfParams.v
theories/LBasic.v
theories/LTree.v
theories/SpecRing.v
theories/PolyRing.v
theories/MPoly.v
theories/PfPoly.v
theories/MRlwe.v
theories/SpecLwe.v
theories/PfDecomp.v
theories/PfNear.v
theories/PfRlwe.v
theories/PBasic.v
theories/PTree.v
theories/PfRlwe2.v
theories/PfRlwe3.v
theories/PfRlwe4.v
theories/PfRlwe5.v
theories/LRlwe.v
theories/Demo.v
theories/PRlwe.v
theories/LKeys.v
theories/PKeys.v
theories/MLwe.v
theories/PfLwe.v
theories/PLwe.v
theories/MEncTree.v
theories/SpecEnc.v
theories/PfEnc.v
theories/PfEnc2.v
theories/PfEnc3.v
theories/PfEnc4.v
theories/LEnc.v
theories/PEnc.v
theories/MSched.v
theories/MOram.v
theories/PfSched.v
theories/PfSched2.v
theories/PfSched3.v
theories/SpecOram.v
theories/PfOram1.v
theories/PfOram2.v
theories/PfOram3.v
theories/PfOram4.v
theories/PfOram5.v
theories/LOram.v
theories/POram.v
theories/PfOram6.v
theories/PfOram7.v
theories/LMulti.v
theories/PMulti.v
theories/PfOram8.v
theories/PfOram9.v
theories/SpecBatch.v
theories/PfOram10.v
theories/LBatch.v
theories/PBatch.v
theories/SpecSched.v
theories/SpecShape.v
theories/SpecConc.v
theories/PfDet1.v
theories/PfDet2.v
theories/PfDet3.v
theories/PfTrace1.v
theories/PfTrace2.v
theories/LSched.v
theories/PSched.v
theories/PfQuery.v
theories/PfWidth.v
theories/PQuery.v
theories/MMain.v
theories/PfMain.v
theories/PMain.v
theories/SpecMixed.v
theories/PfHist.v
theories/PHist.v
theories/MCtx.v
theories/PCtx.v
theories/PRgsw.v
theories/PRun.v
theories/PPool.v
theories/PZero.v
theories/SpecReject.v
theories/PfReject.v
theories/PReject.v
theories/PDefault.v
theories/MCsv.v
theories/PCsv.v
theories/SpecDriver.v
theories/PDriver.v
theories/SpecView.v
theories/PView.v
theories/MSim.v
theories/PSim.v
theories/PfTreeShape.v
theories/PTreeShape.v
theories/PTrunc.v
theories/MJson.v
theories/MSerde.v
theories/MShipped.v
theories/SpecJson.v
theories/SpecText.v
theories/PfJson.v
theories/PfSerde.v
theories/PfSerde2.v
theories/PfText.v
theories/PSerde.v
theories/SpecSelf.v
theories/PSelf.v
theories/MOut.v
theories/SpecOut.v
theories/PfOut.v
theories/POut.v
theories/MSeed.v
theories/PContext.v
theories/MFft.v
theories/SpecFft.v
theories/PfFft1.v
theories/PfFft2.v
theories/PfFft3.v
theories/PfFft4.v
theories/PfFft5.v
theories/PfFft6.v
theories/PFft.v
theories/MShow.v
theories/SpecShow.v
theories/PShow.v
theories/MCli.v
theories/SpecCli.v
theories/PfCli.v
theories/PCli.v
theories/MNoise.v
theories/SpecNoise.v
theories/PfNoise.v
theories/PNoise.v
theories/MShuffle.v
theories/SpecShuffle.v
theories/PfShuffle.v
theories/PfShuffle2.v
theories/PShuffle.v
theories/MLex.v
theories/SpecLex.v
theories/PfLex.v
theories/PLex.v
theories/SpecChance.v
theories/PfChance.v
theories/PfChance2.v
theories/PfChance3.v
theories/PChance.v
theories/PfShuffle3.v
theories/SpecDouble.v
theories/PfDouble.v
theories/MBench.v
theories/PBench.v
theories/PAnyTree.v
theories/SpecLog.v
theories/MFloat.v
theories/PfFloat.v
theories/PFloat.v
theories/MTests.v
theories/PfTests.v
theories/PfTests2.v
theories/PfTests3.v
theories/PTests.v
theories/MIeee.v
theories/SpecIeee.v
theories/PfIeee.v
theories/PIeee.v
theories/PWhole.v
theories/SpecTouch.v
theories/PfTouch.v
theories/PfTouch2.v
theories/PfTouch3.v
theories/PTouch.v
theories/MTests2.v
theories/PfTests4.v
theories/PfTests5.v
theories/PfTests6.v
theories/PfTests7.v
theories/PTests2.v
theories/SpecFft2.v
theories/PfFft7.v
theories/PfFft8.v
theories/MIeee2.v
theories/SpecIeee2.v
theories/PfIeee2.v
theories/SpecTables.v
theories/PfTables.v
theories/PClose.v
theories/PClose2.v
theories/MAvg.v
theories/SpecAvg.v
theories/PfAvg.v
theories/PAvg.v
theories/PAvg2.v
theories/MTests3.v
theories/PfTests8.v
theories/PTests3.v
theories/SpecEither.v
theories/PClose3.v
theories/PTests4.v
theories/PVac.v
theories/PVac2.v
theories/PVac3.v
theories/SpecBuild.v
theories/PfBuild.v
theories/PfBuild2.v
theories/PfBuild3.v
theories/PBuild.v
theories/PBuild2.v
theories/SpecBuild2.v
theories/PBuild3.v
