-Q theories Verif
theories/Base.v
theories/Lin.v
theories/Data.v
theories/M_Gram.v
theories/M_GramNan.v
theories/M_OLS.v
theories/S_Gram.v
theories/L_Gram.v
theories/L_GramNan.v
theories/L_OLS.v
theories/L_Inv.v
theories/P_Gram.v
theories/M_CD.v
theories/S_CD.v
theories/L_CD1.v
theories/L_CD.v
theories/L_CD2.v
theories/M_Path.v
theories/M_Ridge.v
theories/L_Path.v
theories/L_Path2.v
theories/L_CD3.v
theories/L_CD4.v
theories/L_Path3.v
theories/P_CD.v
theories/P_Path.v
theories/M_Scaler.v
theories/S_Scaler.v
theories/L_Scaler.v
theories/P_Scaler.v
theories/M_Utils.v
theories/S_Utils.v
theories/L_Utils.v
theories/P_Utils.v
theories/M_Links.v
theories/S_Links.v
theories/M_DistTable.v
theories/L_Links.v
theories/L_Links2.v
theories/L_Links3.v
theories/P_Links.v
theories/M_Dist.v
theories/S_Dist.v
theories/L_Dist1.v
theories/L_Dist2.v
theories/L_Dist3.v
theories/L_Dist4.v
theories/L_Dist5.v
theories/L_Dist6.v
theories/M_Mixed.v
theories/S_Mixed.v
theories/L_Mixed.v
theories/M_Init.v
theories/S_Init.v
theories/L_Init.v
theories/P_Dist.v
theories/M_State.v
theories/M_LM.v
theories/S_LM.v
theories/L_LM.v
theories/L_LM2.v
theories/L_LM3.v
theories/L_LM4.v
theories/L_LM5.v
theories/P_LM.v
theories/M_Equation.v
theories/S_Equation.v
theories/L_Equation.v
theories/P_Equation.v
theories/M_GAMLSS.v
theories/M_GAMDist.v
theories/L_GAM1.v
theories/L_GAM2.v
theories/S_GAMLSS.v
theories/L_GAM3.v
theories/L_GAM4.v
theories/L_GAM5.v
theories/L_GAM6.v
theories/L_GAM7.v
theories/L_GAM8.v
theories/L_GAM9.v
theories/L_GAM10.v
theories/L_GAM11.v
theories/L_GAM12.v
theories/L_GAM13.v
theories/L_GAM14.v
theories/L_GAM15.v
theories/L_GAM16.v
theories/L_GAM21.v
theories/L_GAM22.v
theories/L_GAM23.v
theories/S_GAMLasso.v
theories/L_GAM24.v
theories/L_GAMEx6.v
theories/P_GAMLasso.v
theories/L_GAMEx.v
theories/L_GAMEx2.v
theories/L_GAMEx3.v
theories/L_GAMEx4.v
theories/M_Factory.v
theories/S_Factory.v
theories/L_Factory.v
theories/P_Factory.v
theories/L_GAM17.v
theories/L_GAMEx5.v
theories/P_GAMLSS.v
theories/P_GAMLSS2.v
theories/M_Params.v
theories/S_Params.v
theories/L_Params.v
theories/P_Params.v
theories/M_Scipy.v
theories/M_Predict.v
theories/S_Scipy.v
theories/L_Scipy.v
theories/L_Scipy2.v
theories/L_Scipy3.v
theories/L_Predict.v
theories/P_Scipy.v
theories/P_Predict.v
theories/S_Units.v
theories/L_Units.v
theories/L_Units2.v
theories/P_Units.v
theories/S_CD2.v
theories/L_CD5.v
theories/L_CD6.v
theories/P_CDRate.v
theories/M_Float.v
theories/S_Float.v
theories/L_Float.v
theories/L_Float2.v
theories/L_Float3.v
theories/L_Float4.v
theories/L_Float5.v
theories/P_Float.v
theories/S_Target.v
theories/L_Target.v
theories/L_Target2.v
theories/L_Target3.v
theories/L_Target4.v
theories/L_Target5.v
theories/P_Target.v
theories/S_Rows.v
theories/L_Rows.v
theories/L_Rows2.v
theories/L_Rows3.v
theories/L_Rows4.v
theories/P_Rows.v
theories/S_Fitted.v
theories/L_Fitted.v
theories/L_FittedEx.v
theories/P_Fitted.v
theories/S_Order.v
theories/L_Order1.v
theories/L_Order2.v
theories/L_Order3.v
theories/L_Order4.v
theories/L_OrderEx.v
theories/P_Order.v
theories/S_Penal.v
theories/L_Penal.v
theories/L_PenalEx.v
theories/P_Penal.v
theories/S_Newton.v
theories/L_Newton.v
theories/L_NewtonEx.v
theories/P_Newton.v
theories/S_FloatCD.v
theories/L_Float6.v
theories/L_Float7.v
theories/L_Float8.v
theories/P_FloatCD.v
theories/S_FloatScaler.v
theories/L_FloatS.v
theories/L_FloatS2.v
theories/L_FloatS3.v
theories/L_FloatS4.v
theories/L_FloatS5.v
theories/L_FloatS6.v
theories/P_FloatS.v
theories/S_GAMSelect.v
theories/L_GAM18.v
theories/L_GAM19.v
theories/L_GAM20.v
theories/P_GAMSelect.v
theories/L_Init2.v
theories/P_Init.v
theories/S_Learn.v
theories/L_Learn.v
theories/L_Learn2.v
theories/L_LearnEx.v
theories/P_Learn.v
theories/S_Recode.v
theories/L_Recode.v
theories/L_RecodeEx.v
theories/P_Recode.v
theories/S_Super.v
theories/L_Super.v
theories/P_Super.v
theories/S_Windup.v
theories/L_Windup.v
theories/P_Windup.v
theories/S_RidgeLM.v
theories/L_RidgeLM.v
theories/P_RidgeLM.v
theories/S_Mask.v
theories/L_Mask.v
theories/P_Mask.v
theories/L_Weight.v
theories/L_Weight2.v
theories/L_Weight3.v
theories/L_Weight4.v
theories/P_Weight.v
theories/S_Equi.v
theories/L_Equi1.v
theories/L_Equi2.v
theories/L_Equi3.v
theories/L_Equi4.v
theories/L_Equi5.v
theories/L_GAMEx7.v
theories/P_Equi.v
theories/S_Criterion.v
theories/L_Criterion.v
theories/P_Criterion.v
theories/S_Outer.v
theories/L_Outer.v
theories/L_OuterEx.v
theories/P_Outer.v
theories/M_FloatGram.v
theories/S_FloatGram.v
theories/L_FloatGram.v
theories/L_FloatGram2.v
theories/L_FloatGram3.v
theories/L_FloatGram4.v
theories/P_FloatGram.v
theories/S_FloatLasso.v
theories/L_FloatLasso.v
theories/L_FloatLasso2.v
theories/P_FloatLasso.v
