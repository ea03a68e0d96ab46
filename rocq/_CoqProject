-Q theories Verif
theories/Base.v
theories/PBase.v
theories/NT.v
theories/MModulus.v
theories/MUtils.v
theories/MNtt.v
theories/MRns.v
theories/MRq.v
theories/MBfv.v
theories/MKsk.v
theories/MGalois.v
theories/MRgsw.v
theories/MEval.v
theories/MPvw.v
theories/MOmr.v
theories/Spec.v
theories/PSum.v
theories/PModulus.v
theories/QModulus.v
theories/TModulus.v
theories/PU256.v
theories/PUtils.v
theories/PUtils2.v
theories/QUtils.v
theories/QMulOp.v
theories/QWords.v
theories/TUtils.v
theories/TMulOp.v
theories/TWords.v
theories/PNttMath.v
theories/PNtt.v
theories/PNttNew.v
theories/QNtt.v
theories/TNtt.v
theories/PCrt.v
theories/PRns.v
theories/PRnsScale.v
theories/PRnsScale2.v
theories/QRns.v
theories/TRns.v
theories/PRing.v
theories/SpecRq.v
theories/PRq.v
theories/PRq2.v
theories/PRq3.v
theories/PRq4.v
theories/PRq5.v
theories/TestEnv.v
theories/QRq.v
theories/TRq.v
theories/SpecBfv.v
theories/PBfv.v
theories/PBfv2.v
theories/PBfv3.v
theories/PBfv4.v
theories/PBfv5.v
theories/TestBfv.v
theories/QBfv.v
theories/TBfv.v
theories/SpecKsk.v
theories/SpecEval.v
theories/PExpand.v
theories/PEval.v
theories/PEval2.v
theories/PFold.v
theories/PFold2.v
theories/PClient.v
theories/PRetr.v
theories/TestEval.v
theories/QEval.v
theories/TEval.v
theories/SpecAddr.v
theories/QAddr.v
theories/TAddr.v
theories/SpecServer.v
theories/QServer.v
theories/TServer.v
theories/PPvw.v
theories/QPvw.v
theories/TPvw.v
theories/QPvwProb.v
theories/TPvwProb.v
theories/SpecRoot.v
theories/QRoot.v
theories/TRoot.v
theories/QOmr.v
theories/TOmr.v
theories/SpecPvw.v
theories/PKsk.v
theories/PGal.v
theories/PRingT.v
theories/PMul.v
theories/PMul2.v
theories/PPrime.v
theories/PDefData.v
theories/PDef.v
theories/SpecDef.v
theories/QDef.v
theories/TDef.v
theories/PKsk2.v
theories/PAsm.v
theories/QKsk.v
theories/TKsk.v
theories/PAgree.v
theories/MApi.v
theories/PSafe.v
theories/PSafe2.v
theories/PSafe3.v
theories/PAgree2.v
theories/QApi.v
theories/TApi.v
theories/PMix.v
theories/QMix.v
theories/TMix.v
theories/QMix2.v
theories/TMix2.v
theories/QClue.v
theories/TClue.v
theories/MCirc.v
theories/MSwitch.v
theories/SpecCirc.v
theories/SpecSwitch.v
theories/QCirc.v
theories/QSwitch.v
theories/TSwitch.v
theories/SpecRlwe.v
theories/QRlwe.v
theories/TRlwe.v
theories/QBudget.v
theories/MTests.v
theories/QTests.v
theories/MTests2.v
theories/QTests2.v
theories/TTests.v
theories/TTests2.v
theories/TBudget.v
theories/TCirc.v
theories/SpecProb.v
theories/QProb.v
theories/TProb.v
theories/QRot.v
theories/TRot.v
theories/MRgswT.v
theories/QRgswT.v
theories/TRgswT.v
theories/SpecRand.v
theories/MRand.v
theories/QRand.v
theories/TRand.v
theories/MChaCha.v
theories/SpecChaCha.v
theories/QChaCha.v
theories/TChaCha.v
theories/SpecEq.v
theories/QEq.v
theories/TEq.v
theories/SpecTail.v
theories/QTail.v
theories/TTail.v
theories/MFix.v
theories/SpecSimd.v
theories/PSimd.v
theories/PSimd2.v
theories/QSimd.v
theories/TSimd.v
theories/MFix2.v
theories/SpecFix.v
theories/PFix.v
theories/QFix.v
theories/TFix.v
theories/QHelp.v
theories/THelp.v
theories/MFix3.v
theories/QFixPir.v
theories/TFixPir.v
theories/SpecHide.v
theories/QHide.v
theories/THide.v
theories/MFix4.v
theories/PFix4.v
theories/QFixRq.v
theories/TFixRq.v
theories/MFix5.v
theories/MFixTests.v
theories/PDefData2.v
theories/PDef2.v
theories/QFixDef.v
theories/QFixTests.v
theories/TFixDef.v
theories/TFixTests.v
theories/SpecLaws.v
theories/QLaws.v
theories/TLaws.v
theories/SpecChain.v
theories/QChain.v
theories/TChain.v
theories/SpecSizes.v
theories/QSizes.v
theories/TSizes.v
theories/MTrace.v
theories/SpecTrace.v
theories/QTrace.v
theories/TTrace.v
theories/SpecGuard.v
theories/QGuard.v
theories/TGuard.v
theories/MTrace2.v
theories/SpecTrace2.v
theories/QTrace2.v
theories/TTrace2.v
theories/MTrace3.v
theories/SpecTrace3.v
theories/QTrace3.v
theories/TTrace3.v
theories/MTrace4.v
theories/QTrace4.v
theories/TTrace4.v
theories/MTrace5.v
theories/SpecTrace5.v
theories/QTrace5.v
theories/TTrace5.v
theories/MTrace6.v
theories/SpecTrace6.v
theories/QTrace6.v
theories/TTrace6.v
theories/MTrace7.v
theories/SpecTrace7.v
theories/QTrace7.v
theories/TTrace7.v
theories/MTrace8.v
theories/SpecTrace8.v
theories/QTrace8.v
theories/TTrace8.v
theories/SpecTrace9.v
theories/QTrace9.v
theories/TTrace9.v
