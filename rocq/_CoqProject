-Q theories Verif
theories/Base.v
theories/Det.v
theories/DetZ.v
theories/Hadamard.v
theories/Spec.v
theories/MFactor.v
theories/LUSpec.v
theories/PReach.v
theories/PTri.v
theories/PPivot.v
theories/PFactor.v
theories/MSolve.v
theories/PSolve.v
theories/SumQ.v
theories/PSolve2.v
theories/PLU.v
theories/MColamd.v
theories/PCol1.v
theories/PCol2.v
theories/PCol3.v
theories/PCol4.v
theories/PCol5.v
theories/PCol6.v
theories/PCol7.v
theories/PCol8.v
theories/PCol9.v
theories/PCol10.v
theories/PCol11.v
theories/PCol12.v
theories/PCol13.v
theories/PCol14.v
theories/PCol15.v
theories/PCol16.v
theories/MAmd.v
theories/PAmd1.v
theories/PAmd2.v
theories/PAmd3.v
theories/PAmd4.v
theories/PAmd5.v
theories/PAmd6.v
theories/PAmd7.v
theories/PAmd8.v
theories/PAmd9.v
theories/PAmd10.v
theories/PAmd11.v
theories/PAmd12.v
theories/PAmd13.v
theories/PAmd14.v
theories/PAmd15.v
theories/PAmd16.v
theories/PAmd17.v
theories/PAmd18.v
theories/PAmd19.v
theories/PAmd20.v
theories/PAmd21.v
theories/MMatrix.v
theories/MApi.v
theories/ApiSpec.v
theories/PApi.v
theories/PFloat.v
theories/MatSpec.v
theories/PMat.v
theories/PCopy.v
theories/PConv.v
theories/PRound.v
theories/PDouble.v
theories/PCheck.v
theories/PCopy2.v
theories/PivotSpec.v
theories/PRule.v
theories/Check.v
theories/LUEx.v
theories/PropLU.v
theories/PropLU2.v
theories/PropLU3.v
theories/PropColamd.v
theories/MUninit.v
theories/PUninit.v
theories/PUninit2.v
theories/PUninit3.v
theories/PUninit4.v
theories/PUninit5.v
theories/PUninit6.v
theories/PropAmd.v
theories/PropUninit.v
theories/PropMat.v
theories/PropMat2.v
theories/PropMat3.v
theories/PropMat4.v
theories/PropMat5.v
theories/MDemo.v
theories/DemoSpec.v
theories/PDemo.v
theories/PropDemo.v
theories/MMex.v
theories/MexSpec.v
theories/PMex.v
theories/PropMex.v
theories/MExample.v
theories/PExample.v
theories/PropDemo2.v
theories/MMem.v
theories/PMem.v
theories/MemSpec.v
theories/PMem2.v
theories/PMem3.v
theories/PropMem.v
theories/MGmp.v
theories/GmpSpec.v
theories/PGmp.v
theories/PropGmp.v
theories/MRes.v
theories/PRes.v
theories/PRes2.v
theories/PRes3.v
theories/PRes4.v
theories/PRes5.v
theories/PRes6.v
theories/ResSpec.v
theories/PRes7.v
theories/PRes8.v
theories/PropRes.v
theories/MStore.v
theories/PStore.v
theories/PStore2.v
theories/PropStore.v
theories/MInt64.v
theories/PInt64.v
theories/PInt64b.v
theories/PropInt64.v
theories/MInt64b.v
theories/PInt64c.v
theories/PropInt64b.v
theories/MMatlab.v
theories/PropMatlab.v
theories/StoreSpec.v
theories/PStorage.v
theories/PStorage2.v
theories/PropStorage.v
theories/PropCert.v
theories/PropMem2.v
theories/PropMat7.v
theories/PropMeta.v
theories/PropMeta2.v
theories/PropRat.v
theories/MPrint.v
theories/PrintSpec.v
theories/PPrint.v
theories/PropPrint.v
theories/MSymamd.v
theories/SymSpec.v
theories/PSym1.v
theories/PSym2.v
theories/PSym3.v
theories/PropSym.v
theories/MAmdMem.v
theories/PropAmdMem.v
theories/PropMat6.v
