-Q theories Verif
theories/Base.v
theories/M_Grid.v
theories/S_Grid.v
theories/L_Grid.v
theories/L_Grid2.v
theories/L_Grid3.v
theories/L_GridP.v
theories/P_Grid.v
theories/M_Deriv.v
theories/S_Deriv.v
theories/L_Deriv.v
theories/L_Deriv2.v
theories/L_Fd.v
theories/L_Fd2.v
theories/P_Deriv.v
theories/M_Prog.v
theories/M_Solvers.v
theories/M_Env.v
theories/S_Solver.v
theories/L_Prog.v
theories/L_Shape.v
theories/L_Indep.v
theories/L_Live.v
theories/L_Lin.v
theories/L_Src.v
theories/L_Cone.v
theories/L_ConeA.v
theories/L_ConeP.v
theories/L_Env.v
theories/P_Solver.v
theories/M_Surface.v
theories/L_Surface.v
theories/L_Leap.v
theories/L_Leap2.v
theories/L_Leap3.v
theories/P_Solver2.v
theories/M_Bound.v
theories/S_Bound.v
theories/L_Bound.v
theories/P_Bound.v
theories/M_Acq.v
theories/S_Acq.v
theories/L_AcqFile.v
theories/L_Acq.v
theories/L_Acq2.v
theories/L_Acq3.v
theories/P_Acq.v
theories/M_Seis.v
theories/S_Seis.v
theories/L_Seis.v
theories/L_Seis2.v
theories/P_Seis.v
theories/M_Conf.v
theories/S_Conf.v
theories/L_Conf.v
theories/P_Conf.v
theories/M_Check.v
theories/S_Check.v
theories/L_Check.v
theories/P_Check.v
theories/M_Common.v
theories/S_Common.v
theories/L_Common.v
theories/P_Common.v
theories/M_Fft.v
theories/S_Fft.v
theories/L_Fft.v
theories/L_Hilbert.v
theories/P_Fft.v
theories/M_Median.v
theories/S_Median.v
theories/L_Median.v
theories/L_Median2.v
theories/P_Median.v
theories/M_Average.v
theories/S_Average.v
theories/L_Average.v
theories/L_Average2.v
theories/L_Average3.v
theories/P_Average.v
theories/M_Model.v
theories/M_ModelEM.v
theories/S_ModelEM.v
theories/L_ModelEM.v
theories/L_ModelEM2.v
theories/L_ModelEM3.v
theories/P_ModelEM.v
theories/P_ModelEM2.v
theories/P_ModelEM3.v
theories/P_ModelEM4.v
theories/S_Model.v
theories/L_Model.v
theories/L_Model2.v
theories/P_Model.v
theories/P_Model2.v
theories/M_Relax.v
theories/S_Step.v
theories/L_Step.v
theories/L_Loop.v
theories/L_StepE.v
theories/L_StepA.v
theories/L_StepM.v
theories/L_StepN.v
theories/L_LoopV.v
theories/L_StepV.v
theories/P_Step.v
theories/M_Signal.v
theories/S_Signal.v
theories/L_Signal.v
theories/P_Signal.v
theories/M_Wave.v
theories/S_Wave.v
theories/L_Wave.v
theories/P_Wave.v
theories/P_Wave2.v
theories/P_Wave3.v
theories/M_Petro.v
theories/S_Petro.v
theories/L_Petro.v
theories/L_Petro2.v
theories/P_Petro.v
theories/P_Petro2.v
theories/P_Petro3.v
theories/P_Reflect.v
theories/P_Signal2.v
theories/S_Butter.v
theories/M_Butter.v
theories/L_Butter.v
theories/L_Butter2.v
theories/L_Butter3.v
theories/L_Butter4.v
theories/P_Butter.v
theories/P_Butter2.v
theories/S_DerivVar.v
theories/L_DerivVar.v
theories/L_DerivVar2.v
theories/L_DerivVar3.v
theories/L_DerivVar4.v
theories/P_DerivVar.v
theories/M_Inter.v
theories/S_Inter.v
theories/L_Inter.v
theories/P_Inter.v
theories/L_Stag.v
theories/P_Stag.v
theories/M_Fir.v
theories/S_Fir.v
theories/L_Fir.v
theories/P_Fir.v
theories/M_Weights.v
theories/S_Weights.v
theories/P_Weights.v
theories/L_Diff.v
theories/S_Energy.v
theories/L_Energy.v
theories/L_Energy2.v
theories/L_Energy3.v
theories/L_Energy4.v
theories/P_Energy.v
theories/P_EnergyEx.v
theories/S_Energy2.v
theories/L_Energy5.v
theories/P_Energy2.v
theories/P_Energy3.v
theories/S_Blowup.v
theories/L_Blowup.v
theories/P_Blowup.v
theories/M_Factory.v
theories/S_Factory.v
theories/P_Factory.v
theories/M_Cop.v
theories/S_Cop.v
theories/L_Cop.v
theories/P_Cop.v
theories/M_Decode.v
theories/S_Decode.v
theories/L_Decode.v
theories/L_Decode2.v
theories/L_Decode3.v
theories/L_Decode4.v
theories/P_Decode.v
theories/M_Graph.v
theories/S_Graph.v
theories/L_Graph.v
theories/P_Graph.v
theories/S_Taylor.v
theories/L_Taylor.v
theories/P_Taylor.v
theories/S_Conv.v
theories/L_Conv.v
theories/L_Conv2.v
theories/P_Conv.v
theories/P_ConvEx.v
theories/S_Conv2.v
theories/L_Conv3.v
theories/L_Conv4.v
theories/L_Conv5.v
theories/P_Conv2.v
theories/P_ConvEx2.v
theories/L_Conv6.v
theories/P_Conv3.v
theories/P_ConvEx3.v
theories/M_PerShot.v
theories/S_PerShot.v
theories/P_PerShot.v
theories/M_GridFile.v
theories/S_GridFile.v
theories/L_GridFile.v
theories/P_GridFile.v
theories/M_ModelFiles.v
theories/S_ModelFiles.v
theories/L_ModelFiles.v
theories/P_ModelFiles.v
theories/M_Compare.v
theories/S_Compare.v
theories/L_Compare.v
theories/P_Compare.v
theories/M_Shrink.v
theories/S_Shrink.v
theories/L_Shrink.v
theories/P_Shrink.v
theories/M_Memory.v
theories/S_Memory.v
theories/L_Memory.v
theories/P_Memory.v
theories/M_Freq.v
theories/S_Freq.v
theories/L_Freq.v
theories/L_Freq2.v
theories/P_Freq.v
theories/M_FreqFile.v
theories/P_FreqFile.v
theories/M_SRFactory.v
theories/P_SRFactory.v
theories/M_IncrFile.v
theories/P_IncrFile.v
theories/M_CutFile.v
theories/P_CutFile.v
theories/M_DecodeF.v
theories/S_DecodeF.v
theories/L_DecodeF.v
theories/P_DecodeF.v
theories/P_DecodeG.v
