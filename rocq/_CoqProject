-Q theories Verif

theories/Num.v
theories/M_Fixed.v
theories/S_Fixed.v
theories/L_Fixed.v
theories/P_Fixed.v
theories/M_State.v
theories/S_State.v
theories/L_State.v
theories/P_State.v
theories/M_Mapper.v
theories/S_Mapper.v
theories/L_Mapper.v
theories/P_Mapper.v
theories/M_Scope.v
theories/S_Scope.v
theories/L_Scope.v
theories/P_Scope.v
theories/M_Wrapper.v
theories/S_Wrapper.v
theories/L_Wrapper.v
theories/P_Wrapper.v
theories/M_Dataset.v
theories/S_Dataset.v
theories/L_Dataset.v
theories/P_Dataset.v
theories/M_Beta.v
theories/S_Beta.v
theories/L_Beta.v
theories/P_Beta.v
theories/M_Callback.v
theories/S_Callback.v
theories/L_Callback.v
theories/P_Callback.v
theories/M_Contr.v
theories/M_Ebops.v
theories/S_Ebops.v
theories/L_Ebops.v
theories/L_Ebops2.v
theories/P_Ebops.v
theories/M_Norm.v
theories/S_Norm.v
theories/L_Norm.v
theories/P_Norm.v
theories/M_Pow2.v
theories/L_Pow2.v
theories/L_Pow2R.v
theories/P_Pow2.v
theories/M_Softmax.v
theories/S_Softmax.v
theories/L_Softmax.v
theories/S_SoftmaxR.v
theories/L_SoftmaxR.v
theories/P_Softmax.v
theories/M_Trace.v
theories/S_Trace.v
theories/L_Trace.v
theories/P_Trace.v
theories/M_Mirror.v
theories/S_Mirror.v
theories/L_Mirror.v
theories/P_Mirror.v
theories/M_Table.v
theories/S_Table.v
theories/L_Table.v
theories/P_Table.v
theories/M_Patch.v
theories/S_Patch.v
theories/L_Patch.v
theories/P_Patch.v
theories/M_Rnn.v
theories/S_Rnn.v
theories/L_Rnn.v
theories/P_Rnn.v
theories/M_Float.v
theories/S_Float.v
theories/L_Float.v
theories/P_Float.v
theories/M_Call.v
theories/S_Call.v
theories/L_Call.v
theories/P_Call.v
theories/M_Total.v
theories/S_Total.v
theories/L_Total.v
theories/P_Total.v
theories/M_Config.v
theories/S_Config.v
theories/L_Config.v
theories/P_Config.v
theories/M_QKeras.v
theories/S_QKeras.v
theories/L_QKeras.v
theories/P_QKeras.v
theories/M_Ops.v
theories/S_Ops.v
theories/L_Ops.v
theories/P_Ops.v
theories/M_Attn.v
theories/S_Attn.v
theories/L_Attn.v
theories/P_Attn.v
theories/S_Einsum.v
theories/M_Einsum.v
theories/L_Einsum.v
theories/P_Einsum.v
theories/M_Cebops.v
theories/S_Cebops.v
theories/L_Cebops.v
theories/P_Cebops.v
theories/M_Net.v
theories/S_Net.v
theories/L_Lift.v
theories/L_Net.v
theories/L_Net2.v
theories/L_Net3.v
theories/L_Net4.v
theories/L_Net5.v
theories/P_Net.v
theories/M_Mini.v
theories/S_Mini.v
theories/L_Mini.v
theories/P_Mini.v
theories/M_Make.v
theories/S_Make.v
theories/L_Make.v
theories/P_Make.v
theories/M_EinsumT.v
theories/S_EinsumT.v
theories/L_EinsumT.v
theories/L_EinsumT2.v
theories/L_EinsumT3.v
theories/L_EinsumT4.v
theories/L_EinsumT5.v
theories/P_EinsumT.v
theories/M_Spike.v
theories/S_Spike.v
theories/L_Spike.v
theories/P_Spike.v
theories/M_Causal.v
theories/S_Causal.v
theories/L_Causal.v
theories/P_Causal.v
theories/M_Calib.v
theories/S_Calib.v
theories/L_Calib.v
theories/L_Calib2.v
theories/L_Calib3.v
theories/P_Calib.v
theories/S_Perm.v
theories/L_Perm.v
theories/P_Perm.v
theories/M_FloatNet.v
theories/S_FloatNet.v
theories/L_FloatNum.v
theories/L_FloatQuant.v
theories/L_FloatNet.v
theories/L_FloatNet2.v
theories/L_FloatNet3.v
theories/P_FloatNet.v
theories/M_Ctor.v
theories/M_CtorTab.v
theories/M_CtorSub.v
theories/S_Ctor.v
theories/L_Ctor.v
theories/L_Ctor2.v
theories/L_Ctor3.v
theories/P_Ctor.v
theories/M_NetX.v
theories/S_NetX.v
theories/L_LiftX.v
theories/L_NetX1.v
theories/L_NetX2.v
theories/L_NetX3.v
theories/L_NetX4.v
theories/L_NetX5.v
theories/L_NetX6.v
theories/L_NetX7.v
theories/L_NetX8.v
theories/L_NetX9.v
theories/P_NetX.v
theories/M_Grad.v
theories/S_Grad.v
theories/L_Grad.v
theories/L_Grad2.v
theories/L_Grad3.v
theories/L_Grad4.v
theories/L_Grad5.v
theories/P_Grad.v
theories/M_Prog.v
theories/S_Prog.v
theories/L_Prog.v
theories/L_Prog2.v
theories/L_Prog3.v
theories/L_Prog4.v
theories/L_Prog5.v
theories/P_Prog.v
theories/M_ProgAttn.v
theories/S_ProgAttn.v
theories/L_ProgAttn.v
theories/L_ProgAttn2.v
theories/P_ProgAttn.v
theories/S_Batch.v
theories/L_Batch.v
theories/L_Batch2.v
theories/P_Batch.v
theories/P_BatchNet.v
theories/M_Cost.v
theories/S_Cost.v
theories/L_Cost.v
theories/L_Cost2.v
theories/P_Cost.v
theories/S_Limit.v
theories/L_Limit.v
theories/L_Limit2.v
theories/L_Limit3.v
theories/L_Limit4.v
theories/L_Limit5.v
theories/P_Limit.v
theories/S_Plain.v
theories/L_Plain.v
theories/P_Plain.v
theories/S_Plain2.v
theories/L_Plain2.v
theories/P_Plain2.v
theories/L_Plain3.v
theories/P_Plain3.v
theories/L_Plain4.v
theories/P_Plain4.v
