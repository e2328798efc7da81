-Q theories Verif
theories/ASM_Model.v
theories/ASM_Spec.v
theories/BB_Model.v
theories/BB_Proofs.v
theories/BB_Spec.v
theories/BQ_Model.v
theories/BQ_Spec.v
theories/C3_Model.v
theories/C3_Proofs.v
theories/C3_Spec.v
theories/CB_Model.v
theories/CB_Proofs.v
theories/CB_Spec.v
theories/CF_Deriv.v
theories/CF_Float.v
theories/CF_Model.v
theories/CF_Proofs.v
theories/CF_Spec.v
theories/CPC_Float.v
theories/CPC_Model.v
theories/CPC_Proofs.v
theories/CPC_Spec.v
theories/Conn_Model.v
theories/Conn_Proofs.v
theories/Conn_Spec.v
theories/DF_Floors.v
theories/DF_Model.v
theories/DF_Proofs.v
theories/DF_Spec.v
theories/FCSM2D_Model.v
theories/FCSM2D_Proofs.v
theories/FCSM2D_Spec.v
theories/FCSM2D_Window.v
theories/FCSM3D_Grid.v
theories/FCSM3D_Model.v
theories/FCSM3D_Search.v
theories/FCSM3D_Spec.v
theories/FCSM3D_Stack.v
theories/FCSM_Float.v
theories/FRS_Model.v
theories/FRS_Proofs.v
theories/FW_Model.v
theories/FW_Proofs.v
theories/FW_Spec.v
theories/Float32.v
theories/Float32_Proofs.v
theories/Float64.v
theories/FloatR.v
theories/G2_Crop.v
theories/G2_Embed.v
theories/G2_Grow.v
theories/G2_Model.v
theories/G2_Proofs.v
theories/G2_Round.v
theories/G2_Spec.v
theories/GT_Generate.v
theories/GT_Metrics.v
theories/GT_Model.v
theories/GT_Proofs.v
theories/GT_Spec.v
theories/HG_Dyn.v
theories/HG_Model.v
theories/HG_Proofs.v
theories/HG_Spec.v
theories/HG_Wrap.v
theories/HT_Model.v
theories/HT_Proofs.v
theories/HT_Rate.v
theories/HT_Spec.v
theories/I2_Cubic.v
theories/I2_Match.v
theories/I2_Model.v
theories/I2_Proofs.v
theories/I2_Spec.v
theories/I3_Float.v
theories/I3_Model.v
theories/I3_Proofs.v
theories/I3_Spec.v
theories/IG_Curve.v
theories/IG_Jet.v
theories/IG_Model.v
theories/IG_Proofs.v
theories/IG_Smooth.v
theories/IG_Spec.v
theories/IM_Integrate.v
theories/IM_Model.v
theories/IM_Proofs.v
theories/IM_Spec.v
theories/INS_Model.v
theories/INS_Proofs.v
theories/INS_Spec.v
theories/IO_Model.v
theories/IO_Proofs.v
theories/IO_Spec.v
theories/LPD_Model.v
theories/LTB_Last.v
theories/LTB_Model.v
theories/LTB_Proofs.v
theories/LTB_Run.v
theories/LTB_Spec.v
theories/LTU_Model.v
theories/MG_Model.v
theories/MG_Proofs.v
theories/MG_Spec.v
theories/MapById_Iter.v
theories/MapById_Model.v
theories/MapById_More.v
theories/MapById_Proofs.v
theories/MapById_Spec.v
theories/MapByTime_Proofs.v
theories/NE_Model.v
theories/NE_Proofs.v
theories/NE_Spec.v
theories/O3_Model.v
theories/O3_Proofs.v
theories/O3_Spec.v
theories/OMQ_Collator.v
theories/OMQ_Final.v
theories/OMQ_Inv.v
theories/OMQ_Model.v
theories/OMQ_Proofs.v
theories/OMQ_Run.v
theories/OMQ_Spec.v
theories/OP_Build.v
theories/OP_Frames.v
theories/OP_Iter.v
theories/OP_Marks.v
theories/OP_Model.v
theories/OP_Proofs.v
theories/OP_Solve.v
theories/OP_Spec.v
theories/OP_Trim.v
theories/OST_Model.v
theories/OST_Spec.v
theories/PE_Model.v
theories/PE_Proofs.v
theories/PE_Spec.v
theories/PG_Client.v
theories/PG_Delete.v
theories/PG_Front.v
theories/PG_Maps.v
theories/PG_Model.v
theories/PG_Period.v
theories/PG_Proofs.v
theories/PG_Session.v
theories/PG_Session_Call.v
theories/PG_Session_Handle.v
theories/PG_Session_Main.v
theories/PG_Session_Node.v
theories/PG_Session_Trim.v
theories/PG_Session_Work.v
theories/PG_Spec.v
theories/PG_Trim.v
theories/PS_Model.v
theories/PS_Proofs.v
theories/PV_Bounded.v
theories/PV_Model.v
theories/PV_Near.v
theories/PV_Proofs.v
theories/Properties_ASM.v
theories/Properties_BB.v
theories/Properties_BQ.v
theories/Properties_C3.v
theories/Properties_CB.v
theories/Properties_CF.v
theories/Properties_CPC.v
theories/Properties_Conn.v
theories/Properties_DF.v
theories/Properties_FCSM2D.v
theories/Properties_FCSM3D.v
theories/Properties_FRS.v
theories/Properties_FW.v
theories/Properties_G2.v
theories/Properties_GT.v
theories/Properties_HG.v
theories/Properties_HT.v
theories/Properties_I2.v
theories/Properties_I3.v
theories/Properties_IG.v
theories/Properties_IM.v
theories/Properties_INS.v
theories/Properties_IO.v
theories/Properties_LPD.v
theories/Properties_LTB.v
theories/Properties_LTU.v
theories/Properties_MG.v
theories/Properties_Maps.v
theories/Properties_NE.v
theories/Properties_O3.v
theories/Properties_OMQ.v
theories/Properties_OP.v
theories/Properties_OST.v
theories/Properties_PE.v
theories/Properties_PG.v
theories/Properties_PGP.v
theories/Properties_PGS.v
theories/Properties_PS.v
theories/Properties_PV.v
theories/Properties_RDC.v
theories/Properties_RG.v
theories/Properties_RH.v
theories/Properties_RP.v
theories/Properties_RT.v
theories/Properties_RTP.v
theories/Properties_SC.v
theories/Properties_SL.v
theories/Properties_SW.v
theories/Properties_TI.v
theories/Properties_TIB.v
theories/Properties_TM.v
theories/Properties_TP.v
theories/Properties_TSD.v
theories/Properties_TX.v
theories/Properties_VF.v
theories/Properties_WQ.v
theories/Properties_XR.v
theories/RDC_Model.v
theories/RDC_Proofs.v
theories/RDC_Spec.v
theories/RG_Angle.v
theories/RG_Model.v
theories/RG_Proofs.v
theories/RG_Spec.v
theories/RH_Model.v
theories/RH_Proofs.v
theories/RH_Slice.v
theories/RH_Spec.v
theories/RH_Turn.v
theories/RP_Model.v
theories/RP_Spec.v
theories/RTP_Geo.v
theories/RTP_Main.v
theories/RTP_Model.v
theories/RTP_Proofs.v
theories/RTP_Spec.v
theories/RT_Match.v
theories/RT_Model.v
theories/RT_Proofs.v
theories/RT_Shift.v
theories/RT_Spec.v
theories/SC_Model.v
theories/SC_Proofs.v
theories/SC_Spec.v
theories/SL_Final.v
theories/SL_Load.v
theories/SL_Model.v
theories/SL_Order.v
theories/SL_Pay.v
theories/SL_Run.v
theories/SL_Session.v
theories/SL_Spec.v
theories/SL_Write.v
theories/SW_Match.v
theories/SW_Model.v
theories/SW_Proofs.v
theories/SW_Spec.v
theories/TIB_Model.v
theories/TI_Cells.v
theories/TI_Insert.v
theories/TI_Model.v
theories/TI_Proofs.v
theories/TI_Ray.v
theories/TI_Spec.v
theories/TM_Model.v
theories/TM_Proofs.v
theories/TP_Live.v
theories/TP_Model.v
theories/TP_Proofs.v
theories/TP_Spec.v
theories/TP_Steps.v
theories/TSD_Conv.v
theories/TSD_Crop.v
theories/TSD_Grid.v
theories/TSD_Model.v
theories/TSD_Proofs.v
theories/TSD_Spec.v
theories/TSD_Update.v
theories/TX_Model.v
theories/TX_Paint.v
theories/TX_Proofs.v
theories/TX_Spec.v
theories/TX_Three.v
theories/VF_Adaptive.v
theories/VF_Model.v
theories/VF_Proofs.v
theories/VF_Spec.v
theories/Vec.v
theories/WQ_Model.v
theories/WQ_Proofs.v
theories/WQ_Spec.v
theories/XR_Floors.v
theories/XR_Model.v
theories/XR_Proofs.v
theories/XR_Spec.v
theories/XR_Xray.v
theories/ZMap.v
