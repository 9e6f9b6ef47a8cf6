-Q theories Verif
theories/Arr.v
theories/Demo.v
theories/Demo2.v
theories/Demo3.v
theories/Demo4.v
theories/EmlinesDat.v
theories/Float.v
theories/LAge.v
theories/LAge2.v
theories/LBcast.v
theories/LBcast2.v
theories/LBlack.v
theories/LBlack2.v
theories/LBurst.v
theories/LBurst2.v
theories/LCalc.v
theories/LCont.v
theories/LCont2.v
theories/LCont3.v
theories/LConv1.v
theories/LConv2.v
theories/LConv3.v
theories/LConv4.v
theories/LConvLim.v
theories/LConvMet.v
theories/LCosmo.v
theories/LCosmo2.v
theories/LCosmo3.v
theories/LCosmo4.v
theories/LCosmo5.v
theories/LCosmoMore.v
theories/LCosmoPar.v
theories/LCosmoPar2.v
theories/LDiff.v
theories/LDiff2.v
theories/LDiff3.v
theories/LDiff4.v
theories/LDiff5.v
theories/LDust.v
theories/LDust2.v
theories/LDust3.v
theories/LEmline.v
theories/LEval.v
theories/LEval2.v
theories/LEval3.v
theories/LFake.v
theories/LFake2.v
theories/LFloat.v
theories/LFloat10.v
theories/LFloat11.v
theories/LFloat12.v
theories/LFloat13.v
theories/LFloat2.v
theories/LFloat3.v
theories/LFloat4.v
theories/LFloat5.v
theories/LFloat6.v
theories/LFloat7.v
theories/LFloat8.v
theories/LFloat9.v
theories/LForms.v
theories/LGalMet.v
theories/LGrad.v
theories/LGrad10.v
theories/LGrad11.v
theories/LGrad12.v
theories/LGrad13.v
theories/LGrad14.v
theories/LGrad15.v
theories/LGrad16.v
theories/LGrad17.v
theories/LGrad18.v
theories/LGrad19.v
theories/LGrad2.v
theories/LGrad20.v
theories/LGrad3.v
theories/LGrad4.v
theories/LGrad5.v
theories/LGrad6.v
theories/LGrad7.v
theories/LGrad8.v
theories/LGrad9.v
theories/LImf.v
theories/LJoint.v
theories/LJointMet.v
theories/LKern.v
theories/LKern2.v
theories/LLib.v
theories/LLoad.v
theories/LLoad2.v
theories/LLoad3.v
theories/LLoad4.v
theories/LLoad5.v
theories/LMet.v
theories/LMet2.v
theories/LMetStab.v
theories/LMetStab2.v
theories/LMisc.v
theories/LMore1.v
theories/LMzr.v
theories/LMzr2.v
theories/LOrder.v
theories/LPhot.v
theories/LPop.v
theories/LPop2.v
theories/LPopMet.v
theories/LRound1.v
theories/LRound10.v
theories/LRound11.v
theories/LRound12.v
theories/LRound13.v
theories/LRound14.v
theories/LRound15.v
theories/LRound16.v
theories/LRound17.v
theories/LRound18.v
theories/LRound19.v
theories/LRound2.v
theories/LRound20.v
theories/LRound21.v
theories/LRound22.v
theories/LRound23.v
theories/LRound24.v
theories/LRound25.v
theories/LRound26.v
theories/LRound27.v
theories/LRound28.v
theories/LRound29.v
theories/LRound3.v
theories/LRound30.v
theories/LRound31.v
theories/LRound32.v
theories/LRound33.v
theories/LRound34.v
theories/LRound35.v
theories/LRound36.v
theories/LRound37.v
theories/LRound38.v
theories/LRound39.v
theories/LRound4.v
theories/LRound40.v
theories/LRound41.v
theories/LRound42.v
theories/LRound43.v
theories/LRound44.v
theories/LRound45.v
theories/LRound46.v
theories/LRound47.v
theories/LRound48.v
theories/LRound49.v
theories/LRound5.v
theories/LRound50.v
theories/LRound51.v
theories/LRound52.v
theories/LRound53.v
theories/LRound54.v
theories/LRound55.v
theories/LRound56.v
theories/LRound57.v
theories/LRound58.v
theories/LRound59.v
theories/LRound6.v
theories/LRound60.v
theories/LRound61.v
theories/LRound62.v
theories/LRound63.v
theories/LRound7.v
theories/LRound8.v
theories/LRound9.v
theories/LRoundF.v
theories/LShape.v
theories/LStab1.v
theories/LStab2.v
theories/LStab3.v
theories/LStab4.v
theories/LStab5.v
theories/LStabMet.v
theories/LSuper.v
theories/LSuper2.v
theories/LUtils.v
theories/MBlackbody.v
theories/MCosmo.v
theories/MDiffburst.v
theories/MDust.v
theories/MEmlines.v
theories/MFake.v
theories/MGrad.v
theories/MImf.v
theories/MLoaders.v
theories/MMzr.v
theories/MPhot.v
theories/MSed.v
theories/MTrace.v
theories/MTrace2.v
theories/MTrace3.v
theories/MTrace4.v
theories/MTrace5.v
theories/MUtils.v
theories/Num.v
theories/PAge.v
theories/PBlack.v
theories/PBurst.v
theories/PConv.v
theories/PCosmo.v
theories/PCosmo2.v
theories/PDiff.v
theories/PDust.v
theories/PEmline.v
theories/PFake.v
theories/PFloat.v
theories/PGrad.v
theories/PGrad2.v
theories/PGrad3.v
theories/PGrad4.v
theories/PImf.v
theories/PJoint.v
theories/PKern.v
theories/PLoad.v
theories/PMet.v
theories/PMisc.v
theories/PMzr.v
theories/PPhot.v
theories/PPop.v
theories/PRound.v
theories/PRound2.v
theories/PRound3.v
theories/PRound4.v
theories/PShape.v
theories/PStab.v
theories/RList.v
theories/Spec.v
theories/Spec2.v
theories/SpecApi.v
theories/SpecConv.v
theories/SpecFloat.v
theories/SpecFloat2.v
theories/SpecFloat3.v
theories/SpecFloat4.v
theories/SpecFloat5.v
theories/SpecFloat6.v
theories/SpecFloat7.v
theories/SpecFloat8.v
theories/SpecGrad.v
theories/SpecLoad.v
theories/SpecMetStab.v
theories/SpecPar.v
theories/SpecStab.v
