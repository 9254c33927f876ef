-Q theories Verif
theories/Base.v
theories/M_APD.v
theories/M_APDDouble.v
theories/M_APDnan.v
theories/M_APDold.v
theories/M_Alias.v
theories/M_Animate.v
theories/M_Archive.v
theories/M_BaseEA.v
theories/M_BioGP.v
theories/M_Crash.v
theories/M_Create.v
theories/M_Ctor.v
theories/M_DecRun.v
theories/M_Double.v
theories/M_EvoNet.v
theories/M_GPfit.v
theories/M_GPmut.v
theories/M_IOPIS.v
theories/M_IOPISsel.v
theories/M_IndDouble.v
theories/M_IndNaN.v
theories/M_IndRun.v
theories/M_Indicator.v
theories/M_Interrupt.v
theories/M_LatDouble.v
theories/M_Lattice.v
theories/M_MOEAD.v
theories/M_MOEADnan.v
theories/M_MateFn.v
theories/M_Mgmt.v
theories/M_MoeadRun.v
theories/M_NSGA3.v
theories/M_NSGA3Double.v
theories/M_NSGA3nan.v
theories/M_NbDouble.v
theories/M_NetRecomb.v
theories/M_NewRV.v
theories/M_NonPrefDouble.v
theories/M_PBEA.v
theories/M_PPGA.v
theories/M_PPGAnan.v
theories/M_Perf.v
theories/M_Population.v
theories/M_PrefDouble.v
theories/M_Preferences.v
theories/M_RVEA.v
theories/M_RangesDouble.v
theories/M_Recombination.v
theories/M_RefDouble.v
theories/M_RefVec.v
theories/M_Run.v
theories/M_Seed.v
theories/M_Shared.v
theories/M_Snap.v
theories/M_Stop.v
theories/M_SymVec.v
theories/M_Train.v
theories/M_Unbounded.v
theories/P_APD.v
theories/P_APDDouble.v
theories/P_APDnan.v
theories/P_Alias.v
theories/P_Animate.v
theories/P_Archive.v
theories/P_BaseEA.v
theories/P_BioGP.v
theories/P_BioGP2.v
theories/P_BioGP3.v
theories/P_BioGP4.v
theories/P_BioGP5.v
theories/P_Crash.v
theories/P_Crash2.v
theories/P_Crash3.v
theories/P_Ctor.v
theories/P_DecRun.v
theories/P_Double.v
theories/P_Elite.v
theories/P_EvoNet.v
theories/P_GPfit.v
theories/P_GPmut.v
theories/P_IndDouble.v
theories/P_IndNaN.v
theories/P_IndNaN2.v
theories/P_IndNaN3.v
theories/P_IndRun.v
theories/P_Indicator.v
theories/P_Interrupt.v
theories/P_Interrupt2.v
theories/P_Keep.v
theories/P_LatDouble.v
theories/P_Lattice.v
theories/P_LeastSq.v
theories/P_MOEAD.v
theories/P_MOEADnan.v
theories/P_MoeadRun.v
theories/P_NSGA3.v
theories/P_NSGA3Double.v
theories/P_NSGA3nan.v
theories/P_Nadir.v
theories/P_NewRV.v
theories/P_PBEA.v
theories/P_PPGA.v
theories/P_PPGA2.v
theories/P_PPGA3.v
theories/P_PPGAnan.v
theories/P_PPGAnan2.v
theories/P_Perm.v
theories/P_Perm2.v
theories/P_Population.v
theories/P_Preferences.v
theories/P_RVEA.v
theories/P_Recombination.v
theories/P_RefDouble.v
theories/P_RefVec.v
theories/P_RefVec2.v
theories/P_RefVec3.v
theories/P_RefVec4.v
theories/P_RefVec5.v
theories/P_Run.v
theories/P_Run2.v
theories/P_Run3.v
theories/P_RunSel.v
theories/P_Shared.v
theories/P_Shift.v
theories/P_Stop.v
theories/P_Stop2.v
theories/P_Stop3.v
theories/P_SymVec.v
theories/Pareto.v
theories/Properties_APD.v
theories/Properties_APDDouble.v
theories/Properties_APDDouble2.v
theories/Properties_APDDouble3.v
theories/Properties_APDnan.v
theories/Properties_APDold.v
theories/Properties_Alias.v
theories/Properties_Animate.v
theories/Properties_Archive.v
theories/Properties_BaseEA.v
theories/Properties_BioGP.v
theories/Properties_Crash.v
theories/Properties_Crash2.v
theories/Properties_Create.v
theories/Properties_Ctor.v
theories/Properties_Ctor2.v
theories/Properties_DecRun.v
theories/Properties_Double.v
theories/Properties_Elite.v
theories/Properties_EvoNet.v
theories/Properties_GPfit.v
theories/Properties_GPmut.v
theories/Properties_IOPIS.v
theories/Properties_IOPISsel.v
theories/Properties_IndDouble.v
theories/Properties_IndNaN.v
theories/Properties_IndRun.v
theories/Properties_Indicator.v
theories/Properties_InitDouble.v
theories/Properties_InitDouble2.v
theories/Properties_Interrupt.v
theories/Properties_Keep.v
theories/Properties_LatDouble.v
theories/Properties_Lattice.v
theories/Properties_MOEAD.v
theories/Properties_MOEADnan.v
theories/Properties_MateFn.v
theories/Properties_Mgmt.v
theories/Properties_MoeadRef.v
theories/Properties_MoeadRun.v
theories/Properties_NSGA3.v
theories/Properties_NSGA3Double.v
theories/Properties_NSGA3Double2.v
theories/Properties_NSGA3nan.v
theories/Properties_NbDouble.v
theories/Properties_NetRecomb.v
theories/Properties_NewRV.v
theories/Properties_NonPrefDouble.v
theories/Properties_PBEA.v
theories/Properties_PPGA.v
theories/Properties_PPGAnan.v
theories/Properties_Pairs.v
theories/Properties_Perf.v
theories/Properties_Perm.v
theories/Properties_Perm2.v
theories/Properties_Perm3.v
theories/Properties_Population.v
theories/Properties_Population2.v
theories/Properties_PrefDouble.v
theories/Properties_PrefDouble2.v
theories/Properties_PrefDouble3.v
theories/Properties_PrefDouble4.v
theories/Properties_PrefDouble5.v
theories/Properties_Preferences.v
theories/Properties_RVEA.v
theories/Properties_RangesDouble.v
theories/Properties_Recomb2.v
theories/Properties_Recombination.v
theories/Properties_RefDouble.v
theories/Properties_RefDouble2.v
theories/Properties_RefDouble3.v
theories/Properties_RefPref.v
theories/Properties_RefVec.v
theories/Properties_Run.v
theories/Properties_Run2.v
theories/Properties_RunSel.v
theories/Properties_Seed.v
theories/Properties_Seed2.v
theories/Properties_Seed3.v
theories/Properties_Shared.v
theories/Properties_Shift.v
theories/Properties_Shift2.v
theories/Properties_Shift3.v
theories/Properties_Snap.v
theories/Properties_Snap2.v
theories/Properties_Stop.v
theories/Properties_SymVec.v
theories/Properties_Train.v
theories/Properties_Unbounded.v
theories/RVec.v
theories/Spec_APD.v
theories/Spec_Alias.v
theories/Spec_Animate.v
theories/Spec_BioGP.v
theories/Spec_Crash.v
theories/Spec_Ctor.v
theories/Spec_DecRun.v
theories/Spec_Elite.v
theories/Spec_EvoNet.v
theories/Spec_Fronts.v
theories/Spec_GPfit.v
theories/Spec_IndDouble.v
theories/Spec_IndRun.v
theories/Spec_Indicator.v
theories/Spec_Nadir.v
theories/Spec_PBEA.v
theories/Spec_Population.v
theories/Spec_Run.v
theories/Spec_RunSel.v
theories/Spec_SymVec.v
