-Q theories Verif

theories/Base.v
theories/ErrModel.v
theories/ErrProof.v
theories/ErrProps.v
theories/MiscModel.v
theories/MiscSpec.v
theories/MiscProof.v
theories/MiscProps.v
theories/PolyEvalModel.v
theories/PolySpec.v
theories/PolyEvalProof.v
theories/Fields.v
theories/CDeriv.v
theories/PolyDeriv.v
theories/PolyEvalProps.v
theories/KissModel.v
theories/KissSizeProof.v
theories/Dft.v
theories/KissProof.v
theories/KissBfly.v
theories/KissWork.v
theories/KissProps.v
theories/Mem.v
theories/MatSpec.v
theories/Series.v
theories/PolyFmultModel.v
theories/PolyFmultTwo.v
theories/PolyFmultScript.v
theories/PolyFmultTree.v
theories/PolyFmultProof.v
theories/PolyFmultProps.v
theories/CExp.v
theories/Loop.v
theories/FftUse.v
theories/ChirpzModel.v
theories/ChirpzProof.v
theories/ResampleModel.v
theories/ResampleProof.v
theories/FftAppProps.v
theories/MiscNumModel.v
theories/MiscNumProps.v
theories/MiscMetricProps.v
theories/DiscTables.v
theories/DiscModel.v
theories/DiscSpec.v
theories/DiscProps.v
theories/DiscPreProof.v
theories/DiscPreProps.v
theories/DiscWeightsTab.v
theories/DiscWeights.v
theories/DiscPreNse.v
theories/CField.v
theories/CConj.v
theories/CMean.v
theories/MiscSincBound.v
theories/FscatterTab.v
theories/FscatterSpec.v
theories/FscatterAlg.v
theories/FscatterOrder.v
theories/FscatterModel.v
theories/FscatterProof.v
theories/FscatterProps.v
theories/ManFscSpec.v
theories/ManFscTab.v
theories/ManFscAlg.v
theories/ManFscModel.v
theories/ManFscProof.v
theories/ManFscSample.v
theories/ManFscProps.v
theories/ScatterModel.v
theories/ScatterSpec.v
theories/MatExp.v
theories/ScatterStep.v
theories/ScatterProof.v
theories/ScatterRun.v
theories/ScatterLoop.v
theories/ScatterProps.v
theories/ScatterMatProps.v
theories/ScatterNse.v
theories/BoundModel.v
theories/BoundSpec.v
theories/BoundProof.v
theories/BoundRun.v
theories/BoundOne.v
theories/BoundProps.v
theories/BoundExact.v
theories/FinvModel.v
theories/FinvAlg.v
theories/FinvMult.v
theories/FinvRun.v
theories/FinvTop.v
theories/FinvProof.v
theories/FinvProps.v
theories/FinvRound.v
theories/FinvErr.v
theories/GridModel.v
theories/GridSpec.v
theories/GridProof.v
theories/GridProps.v
theories/GridGen.v
theories/GridTop.v
theories/SpecfactModel.v
theories/SpecfactSpec.v
theories/SpecfactProof.v
theories/SpecfactProps.v
theories/SpecfactTop.v
theories/NsevModel.v
theories/NsevSpec.v
theories/NsevProps.v
theories/NsevSafe.v
theories/NsevSafe2.v
theories/NsevSafe3.v
theories/NsevSafe4.v
theories/NsevSafe5.v
theories/NsevEnv.v
theories/NsevRefuted.v
theories/NsevNewton.v
theories/NsevDisc.v
theories/NsevDisc2.v
theories/NsevRich.v
theories/KdvvModel.v
theories/KdvvSpec.v
theories/KdvvProps.v
theories/KdvvSafe.v
theories/KdvvGrid.v
theories/KdvvSafe2.v
theories/KdvvSafe3.v
theories/KdvvNewton.v
theories/KdvvTop.v
theories/KdvvEnv.v
theories/KdvvRich.v
theories/KdvvEx.v
theories/NsepModel.v
theories/NsepSpec.v
theories/NsepNewton.v
theories/NsepSafe.v
theories/NsepSafe2.v
theories/NsepSafe3.v
theories/NsepSafe4.v
theories/NsepTop.v
theories/NsepEx.v
theories/ManvModel.v
theories/ManvSpec.v
theories/ManvProps.v
theories/ManvSafe.v
theories/ManvSafe2.v
theories/ManvSafe3.v
theories/ManvTop.v
theories/ManvEx.v
theories/InvModel.v
theories/InvSpec.v
theories/InvDarboux.v
theories/InvSoliton.v
theories/InvSolCode.v
theories/InvPerm.v
theories/InvSort.v
theories/InvUnique.v
theories/InvArgs.v
theories/InvRej.v
theories/InvTop.v
theories/InvGrid.v
theories/InvPre.v
theories/InvEx.v
theories/InvCsSpec.v
theories/InvPeel.v
theories/InvCsAlg.v
theories/InvPeelTop.v
theories/InvCs.v
theories/InvCsTm.v
theories/InvCsTop.v
theories/InvCsB.v
theories/InvCsEx.v
theories/ManScatSpec.v
theories/ManScatModel.v
theories/ManScatProof.v
theories/ManScatProps.v
theories/ManScatTop.v
theories/NftSpec.v
theories/NsevCs.v
theories/NsevFast.v
theories/NsevLib.v
theories/NsevCsTop.v
theories/StepSpec.v
theories/StepNft.v
theories/NsevStep.v
theories/NsevEnergy.v
theories/NsevCsEx.v
theories/Roundtrip.v
theories/NsevNc.v
theories/NsevNcEx.v
theories/KdvFast.v
theories/KdvCsTop.v
theories/KdvEnergy.v
theories/KdvCsEx.v
theories/ManNft.v
theories/ManCs.v
theories/ManCsTop.v
theories/ManEnergy.v
theories/ManCsEx.v
theories/NsepFloq.v
theories/NsepGrid.v
theories/NsepGridTop.v
theories/NsepGridEx.v
theories/NsepSub.v
theories/NsepSub2.v
theories/NsepSub3.v
theories/NsepSubTop.v
theories/NsepSubEx.v
theories/NsepSubEx2.v
theories/NsevRichBs.v
theories/KdvNc.v
theories/KdvNcEx.v
theories/Symm.v
theories/Symm2.v
theories/SymmTop.v
theories/SymmTop2.v
theories/ZeroPad.v
theories/SymmEx.v
theories/InvSafe.v
theories/InvZero.v
theories/TimeRev.v
theories/TimeRevTop.v
theories/TimeRevEx.v
theories/KdvSymm.v
theories/KdvSymm2.v
theories/KdvSymmEx.v
theories/ManSymm.v
theories/ManSymmTop.v
theories/ManSymmTop2.v
theories/ManSymmEx.v
theories/ManDil.v
theories/ManPad.v
theories/ManConj.v
theories/ManDilEx.v
theories/ZeroSig.v
