-Q theories Verif
theories/Num.v
theories/Err.v
theories/Vec.v
theories/VecR.v
theories/OrdR.v
theories/M_Utils.v
theories/M_Preproc.v
theories/M_Robcent.v
theories/L_Mat.v
theories/S_Stats.v
theories/L_Stats.v
theories/L_Scaling.v
theories/L_Scaling2.v
theories/T_Scaling.v
theories/L_Lin.v
theories/L_Preproc.v
theories/L_Missing.v
theories/T_Preproc.v
theories/M_Gsspp.v
theories/S_Radial.v
theories/L_Radial.v
theories/T_Radial.v
theories/M_Msupport.v
theories/M_Plot.v
theories/S_Weights.v
theories/S_Utils.v
theories/L_Msupport.v
theories/L_Utils.v
theories/T_Msupport.v
theories/L_Matmul.v
theories/L_Deflate.v
theories/M_Snipls.v
theories/S_Regress.v
theories/L_Snipls.v
theories/L_Snipls2.v
theories/L_Snipls3.v
theories/T_Snipls.v
theories/M_Rm.v
theories/S_Rm.v
theories/L_Rm.v
theories/L_Rm2.v
theories/T_Rm.v
theories/M_Sprm.v
theories/S_Sprm.v
theories/L_Sprm.v
theories/L_Sprm2.v
theories/L_Sprm3.v
theories/L_Sprm4.v
theories/T_Sprm.v
theories/M_Dicomo.v
theories/S_Dicomo.v
theories/L_Dicomo.v
theories/L_Dicomo2.v
theories/L_Dicomo3.v
theories/L_Dicomo4.v
theories/L_Dicomo5.v
theories/L_Dicomo6.v
theories/L_Dicomo7.v
theories/L_Energy.v
theories/L_Dicomo8.v
theories/L_Dicomo9.v
theories/T_Dicomo.v
theories/S_Dicomo2.v
theories/L_Dicomo10.v
theories/L_Dicomo11.v
theories/T_Dicomo2.v
theories/M_Ipopt.v
theories/S_Ipopt.v
theories/L_Ipopt.v
theories/L_Ipopt2.v
theories/T_Ipopt.v
theories/M_Capi.v
theories/S_Capi.v
theories/L_Capi.v
theories/T_Capi.v
theories/M_Ppdire.v
theories/S_Ppdire.v
theories/S_Ppdire2.v
theories/L_Grid.v
theories/L_Grid2.v
theories/L_Grid3.v
theories/L_Pp.v
theories/L_Pp2.v
theories/L_Pp3.v
theories/L_Pp4.v
theories/L_Pp5.v
theories/L_Pp6.v
theories/L_Pp7.v
theories/L_Pp8.v
theories/M_PpWorld.v
theories/L_PpWorld.v
theories/T_Ppdire.v
theories/T_Ppdire2.v
theories/M_SdrUtils.v
theories/M_Sudire.v
theories/S_Sudire.v
theories/L_Sdr.v
theories/L_SdrMat.v
theories/L_SdrKer.v
theories/L_SdrEig.v
theories/L_SdrPow.v
theories/L_SdrMeth.v
theories/L_SdrFit.v
theories/L_SdrFit2.v
theories/L_SdrFit3.v
theories/L_SdrCov.v
theories/S_SdrDim.v
theories/L_SdrEst.v
theories/L_SdrMore.v
theories/L_SdrEx.v
theories/L_SdrFin.v
theories/T_Sudire.v
theories/M_Params.v
theories/S_Params.v
theories/L_Params.v
theories/T_Params.v
theories/S_Order.v
theories/L_Order.v
theories/L_OrderSc.v
theories/L_OrderSn.v
theories/L_OrderRm.v
theories/L_OrderSp.v
theories/L_OrderDi.v
theories/T_Order.v
theories/S_Units.v
theories/L_Units.v
theories/L_UnitsSn.v
theories/L_UnitsRm.v
theories/L_UnitsSp.v
theories/T_Units.v
theories/S_OrderSd.v
theories/L_OrderSd.v
theories/L_OrderSf.v
theories/L_OrderSx.v
theories/T_OrderSd.v
theories/S_OrderPp.v
theories/L_OrderPp.v
theories/L_OrderPp2.v
theories/L_OrderPp3.v
theories/L_PpTot.v
theories/T_OrderPp.v
theories/S_UnitsPp.v
theories/L_UnitsPp.v
theories/L_UnitsPp2.v
theories/T_UnitsPp.v
theories/M_Dtype.v
theories/L_Dtype.v
theories/T_Dtype.v
theories/M_Plot2.v
theories/S_Plot.v
theories/L_Plot2.v
theories/L_Plot3.v
theories/L_Plot4.v
theories/L_Plot5.v
theories/L_Plot6.v
theories/L_Plot7.v
theories/T_Plot.v
theories/S_UnitsSd.v
theories/L_EqMat.v
theories/L_EqKer.v
theories/L_EqFit.v
theories/L_EqSd.v
theories/L_EqEx.v
theories/T_UnitsSd.v
theories/S_Options.v
theories/L_Options.v
theories/T_Options.v
theories/S_Vars.v
theories/L_Vars.v
theories/L_VarsSn.v
theories/L_VarsRm.v
theories/L_VarsSp.v
theories/L_VarsSp2.v
theories/T_Vars.v
theories/S_Break.v
theories/L_Break.v
theories/T_Break.v
theories/S_Rotate.v
theories/L_Rotate.v
theories/L_Rotate2.v
theories/T_Rotate.v
theories/L_PpErr.v
theories/S_Errors.v
theories/L_Errors.v
theories/T_Errors.v
theories/S_Compress.v
theories/L_Compress.v
theories/T_Compress.v
theories/M_Frames.v
theories/L_Frames.v
theories/T_Frames.v
theories/S_SdrOpt.v
theories/L_SdrOpt.v
theories/L_SdrOptEx.v
theories/T_SdrOpt.v
theories/S_Extra.v
theories/L_Extra.v
theories/T_Extra.v
theories/L_Pca.v
theories/S_Pca.v
theories/L_Pca2.v
theories/L_PcaEx.v
theories/L_Pls.v
theories/L_Pls2.v
theories/L_PlsEx.v
theories/T_Pca.v
theories/S_Nested.v
theories/L_Nested.v
theories/L_Nested2.v
theories/L_Nested3.v
theories/L_NestedEx.v
theories/T_Nested.v
theories/S_Decomp.v
theories/L_Decomp.v
theories/L_Decomp2.v
theories/L_Decomp3.v
theories/T_Decomp.v
theories/S_Full.v
theories/L_Full.v
theories/T_Full.v
theories/S_Errors2.v
theories/L_Errors2.v
theories/T_Errors2.v
theories/L_LowRank.v
theories/L_Young.v
theories/T_Young.v
theories/S_Copies.v
theories/L_Copies.v
theories/L_CopiesSn.v
theories/L_CopiesDi.v
theories/T_Copies.v
theories/S_Errors3.v
theories/L_Errors3.v
theories/T_Errors3.v
theories/S_Krylov.v
theories/L_Krylov.v
theories/L_Cross.v
theories/L_KrylovEx.v
theories/T_Krylov.v
theories/M_Float.v
theories/S_Float.v
theories/L_Float.v
theories/T_Float.v
theories/S_Best.v
theories/L_Best.v
theories/L_SirFull.v
theories/T_Best.v
theories/S_Errors4.v
theories/L_Errors4.v
theories/T_Errors4.v
theories/L_Float2.v
theories/L_Float2Ex.v
theories/T_Float2.v
theories/S_Start.v
theories/L_Start.v
theories/T_Start.v
theories/S_MissReg.v
theories/L_MissReg.v
theories/T_MissReg.v
theories/S_Options3.v
theories/T_Options3.v
theories/S_Irls.v
theories/L_Irls.v
theories/T_Irls.v
theories/S_IrlsSp.v
theories/L_IrlsSp.v
theories/T_IrlsSp.v
theories/S_Clean.v
theories/L_Clean.v
theories/T_Clean.v
theories/S_Exact.v
theories/L_Exact.v
theories/T_Exact.v
theories/S_Coincide.v
theories/L_Coincide.v
theories/T_Coincide.v
theories/L_Coincide2.v
theories/T_Coincide2.v
theories/S_Stop.v
theories/L_Stop.v
theories/T_Stop.v
theories/S_StopSp.v
theories/L_StopSp.v
theories/T_StopSp.v
theories/L_Tol.v
theories/T_Tol.v
theories/S_GridStop.v
theories/L_GridStop.v
theories/T_GridStop.v
theories/L_GridStop2.v
theories/T_GridStop2.v
