-Q theories Verif
theories/Base.v
theories/M_Drivers.v
theories/S_Drivers.v
theories/P_Drivers.v
theories/P_BSearch.v
theories/M_Ell.v
theories/S_LinAlg.v
theories/P_LinAlg.v
theories/S_Ell.v
theories/P_EllCalc.v
theories/P_Ell.v
theories/P_Ell2.v
theories/P_Ell3.v
theories/S_Ell1d.v
theories/P_Ell1d.v
theories/P_Ell4.v
theories/T_Ell.v
theories/T_Drivers.v
theories/M_Chol.v
theories/P_Chol.v
theories/P_Chol2.v
theories/T_Chol.v
theories/M_Lmi.v
theories/S_Lmi.v
theories/P_Lmi.v
theories/P_Lmi2.v
theories/T_Lmi.v
theories/M_Misc.v
theories/S_Misc.v
theories/P_Misc.v
theories/T_Misc.v
theories/M_Csd.v
theories/M_Float.v
theories/M_CsdF.v
theories/P_Float.v
theories/S_Csd.v
theories/P_Csd.v
theories/P_Csd2.v
theories/P_CsdF.v
theories/S_CsdF.v
theories/P_CsdF2.v
theories/T_Csd.v
theories/M_Csdigit.v
theories/P_Csdigit.v
theories/T_Csdigit.v
theories/T_CsdF.v
theories/M_Net.v
theories/S_Net.v
theories/P_Net.v
theories/T_Net.v
theories/T_Ratio.v
theories/M_Lowpass.v
theories/S_Lowpass.v
theories/P_Lowpass.v
theories/T_Lowpass.v
theories/M_Fir.v
theories/T_Fir.v
theories/M_Profit.v
theories/S_Profit.v
theories/P_Profit.v
theories/T_Profit.v
theories/S_Det.v
theories/S_Volume.v
theories/P_Det.v
theories/P_Volume.v
theories/P_Conv.v
theories/T_Volume.v
theories/P_Mat.v
theories/P_Spectral.v
theories/M_Mle.v
theories/S_Mle.v
theories/P_Mle.v
theories/T_Mle.v
theories/M_SpecFact.v
theories/S_SpecFact.v
theories/P_Trig.v
theories/P_SpecFact.v
theories/T_SpecFact.v
theories/T_Rates.v
theories/S_Examples.v
theories/M_Examples.v
theories/T_Examples.v
theories/S_LowDiscr.v
theories/M_LowDiscr.v
theories/P_LowDiscr.v
theories/P_Gauss.v
theories/P_Float2.v
theories/P_LowDiscrF.v
theories/T_LowDiscr.v
theories/S_Bspline.v
theories/M_Bspline.v
theories/P_Bspline.v
theories/T_Bspline.v
theories/M_Cholutil.v
theories/P_Cholutil.v
theories/T_Cholutil.v
theories/S_Float.v
theories/P_FSum.v
theories/P_CholF.v
theories/P_CholF2.v
theories/M_FloatD.v
theories/M_FloatN.v
theories/P_BsF.v
theories/P_EllF.v
theories/T_Float.v
theories/T_Float2.v
theories/S_Float2.v
theories/P_NetF.v
theories/T_Float3.v
theories/P_LmiF.v
theories/T_Float4.v
theories/T_Float5.v
theories/T_Float6.v
theories/S_EllF.v
theories/P_EllF2.v
theories/P_EllF3.v
theories/P_EllF4.v
theories/S_EllPar.v
theories/T_Float7.v
theories/T_Float8.v
theories/P_QmiF.v
theories/T_Float9.v
theories/S_EllRun.v
theories/P_EllRun.v
theories/T_Float10.v
theories/S_LowpassF.v
theories/P_LowpassF.v
theories/T_Float11.v
theories/P_WitF.v
theories/S_WitF.v
theories/P_WitF2.v
theories/P_RunF.v
theories/T_Float12.v
theories/T_Float13.v
theories/S_EllMix.v
theories/P_EllMix.v
theories/T_Float14.v
theories/S_Itv.v
theories/T_Float15.v
theories/T_Float16.v
theories/T_Float17.v
theories/T_Float18.v
theories/M_CsdLp.v
theories/S_CsdLp.v
theories/T_CsdLp.v
theories/M_CsdNum.v
theories/T_CsdNum.v
theories/M_Drafts.v
theories/T_Drafts.v
theories/M_Bisect.v
theories/T_Bisect.v
theories/M_CorrFn.v
theories/T_CorrFn.v
theories/T_BsearchQ.v
theories/S_WitQ.v
theories/P_QcutF.v
theories/T_Float19.v
theories/M_ProfitF.v
theories/S_ProfitF.v
theories/P_ProfitF.v
theories/T_ProfitF.v
theories/M_ProfitRbF.v
theories/S_ProfitRbF.v
theories/P_ProfitRbF.v
theories/T_ProfitRbF.v
theories/M_ProfitQF.v
theories/S_ProfitQF.v
theories/T_ProfitQF.v
theories/M_MonoF.v
theories/S_MonoF.v
theories/T_MonoF.v
theories/M_MleF.v
theories/S_MleF.v
theories/T_MleF.v
theories/T_SqrtF.v
theories/T_Ex1F.v
