-Q theories Verif
theories/AB_Demo.v
theories/AB_Model.v
theories/AB_Proofs.v
theories/AB_Props.v
theories/AB_Spec.v
theories/ACO_Model.v
theories/ACO_Proofs.v
theories/ACO_Spec.v
theories/AEO_Demo.v
theories/AEO_Matrix.v
theories/AEO_Model.v
theories/AEO_Proofs.v
theories/AEO_Props.v
theories/AEO_Run.v
theories/AEO_Sort.v
theories/AEO_Spec.v
theories/AEO_Top.v
theories/AEO_Total.v
theories/AP_Batch.v
theories/AP_Demo.v
theories/AP_Model.v
theories/AP_Prob.v
theories/AP_Proofs.v
theories/AP_Props.v
theories/AP_Spec.v
theories/AW_Demo.v
theories/AW_Model.v
theories/AW_Proofs.v
theories/AW_Props.v
theories/AW_Spec.v
theories/AcoXnes_Demo.v
theories/AcoXnes_Props.v
theories/BAT_Demo.v
theories/BAT_Model.v
theories/BAT_Proofs.v
theories/BAT_Props.v
theories/BF_Demo.v
theories/BF_Model.v
theories/BF_Proofs.v
theories/BF_Props.v
theories/BF_Spec.v
theories/BM_Demo.v
theories/BM_Final.v
theories/BM_Model.v
theories/BM_Proofs.v
theories/BM_Props.v
theories/BM_Schwefel.v
theories/BM_Spec.v
theories/BX_Demo.v
theories/BX_Model.v
theories/BX_Proofs.v
theories/BX_Props.v
theories/BX_Spec.v
theories/Base.v
theories/BaseFacts.v
theories/CB_Demo.v
theories/CB_Eval.v
theories/CB_Every.v
theories/CB_Model.v
theories/CB_Proofs.v
theories/CB_Props.v
theories/CB_Spec.v
theories/CB_Total.v
theories/CE_Cec.v
theories/CE_Demo.v
theories/CE_Final.v
theories/CE_Model.v
theories/CE_Proofs.v
theories/CE_Props.v
theories/CE_Spec.v
theories/CG_Demo.v
theories/CG_Model.v
theories/CG_Proofs.v
theories/CG_Props.v
theories/CG_Spec.v
theories/CS_Demo.v
theories/CS_Model.v
theories/CS_Proofs.v
theories/CS_Props.v
theories/CS_Spec.v
theories/CT_Demo.v
theories/CT_Final.v
theories/CT_Model.v
theories/CT_Proofs.v
theories/CT_Props.v
theories/CT_Spec.v
theories/CU_Demo.v
theories/CU_Model.v
theories/CU_Proofs.v
theories/CU_Props.v
theories/CU_Spec.v
theories/CV_Demo.v
theories/CV_Model.v
theories/CV_Proofs.v
theories/CV_Props.v
theories/CV_Spec.v
theories/DE_Model.v
theories/DE_Proofs.v
theories/DE_Props.v
theories/DQ_Demo.v
theories/DQ_Model.v
theories/DQ_More.v
theories/DQ_Proofs.v
theories/DQ_Props.v
theories/DQ_Spec.v
theories/DT_Demo.v
theories/DT_Model.v
theories/DT_Proofs.v
theories/DT_Props.v
theories/DT_Spec.v
theories/Data_Demo.v
theories/Data_Iter.v
theories/Data_Model.v
theories/Data_Proofs.v
theories/Data_Props.v
theories/Data_Spec.v
theories/EDEV_Demo.v
theories/EDEV_Donors.v
theories/EDEV_Model.v
theories/EDEV_Pools.v
theories/EDEV_Proofs.v
theories/EDEV_Props.v
theories/EDEV_Run.v
theories/EDEV_Spec.v
theories/EDEV_Top.v
theories/EDEV_Total.v
theories/EPSO_Demo.v
theories/EPSO_Model.v
theories/EPSO_Proofs.v
theories/EPSO_Props.v
theories/EPSO_Rates.v
theories/EPSO_Spec.v
theories/EPSO_Total.v
theories/ER_Model.v
theories/ER_Proofs.v
theories/ER_Props.v
theories/ER_Spec.v
theories/ES_Model.v
theories/ES_Proofs.v
theories/ES_Props.v
theories/ES_Spec.v
theories/ET_Bayes.v
theories/ET_Demo.v
theories/ET_Model.v
theories/ET_Proofs.v
theories/ET_Props.v
theories/ET_Spec.v
theories/Env_Demo.v
theories/Env_Disc.v
theories/Env_Episode.v
theories/Env_Model.v
theories/Env_Proofs.v
theories/Env_Props.v
theories/Env_Spec.v
theories/FF_Demo.v
theories/FF_Final.v
theories/FF_Model.v
theories/FF_Proofs.v
theories/FF_Props.v
theories/FF_Spec.v
theories/GWO_Model.v
theories/GWO_Proofs.v
theories/GWO_Props.v
theories/GWO_Spec.v
theories/GX_Demo.v
theories/GX_Final.v
theories/GX_Model.v
theories/GX_Proofs.v
theories/GX_Props.v
theories/GX_Spec.v
theories/HCLPSO_Demo.v
theories/HCLPSO_Model.v
theories/HCLPSO_Proofs.v
theories/HCLPSO_Props.v
theories/HCLPSO_Spec.v
theories/HER_Demo.v
theories/HER_Model.v
theories/HER_Proofs.v
theories/HER_Props.v
theories/HER_Spec.v
theories/HHO_Demo.v
theories/HHO_Model.v
theories/HHO_Proofs.v
theories/HHO_Props.v
theories/IP_Check.v
theories/IP_Demo.v
theories/IP_Model.v
theories/IP_Proofs.v
theories/IP_Props.v
theories/IP_Spec.v
theories/KF_Clip.v
theories/KF_Demo.v
theories/KF_Final.v
theories/KF_Model.v
theories/KF_Proofs.v
theories/KF_Props.v
theories/KF_Spec.v
theories/KP_Demo.v
theories/KP_Model.v
theories/KP_Proofs.v
theories/KP_Props.v
theories/KP_Spec.v
theories/LD_Demo.v
theories/LD_Final.v
theories/LD_Model.v
theories/LD_Proofs.v
theories/LD_Props.v
theories/LD_Spec.v
theories/LG_Demo.v
theories/LG_Files.v
theories/LG_Model.v
theories/LG_More.v
theories/LG_Proofs.v
theories/LG_Props.v
theories/LG_Spec.v
theories/LM_Demo.v
theories/LM_Final.v
theories/LM_Model.v
theories/LM_Proofs.v
theories/LM_Props.v
theories/LM_Spec.v
theories/LN_Acer.v
theories/LN_Algs.v
theories/LN_Demo.v
theories/LN_Model.v
theories/LN_More.v
theories/LN_Proofs.v
theories/LN_Props.v
theories/LN_Spec.v
theories/LS_Demo.v
theories/LS_Loss.v
theories/LS_Model.v
theories/LS_Ppo.v
theories/LS_Proofs.v
theories/LS_Props.v
theories/LS_Spec.v
theories/LS_Total.v
theories/MN_Demo.v
theories/MN_Model.v
theories/MN_Proofs.v
theories/MN_Props.v
theories/MN_Spec.v
theories/MO_Demo.v
theories/MO_Eval.v
theories/MO_Model.v
theories/MO_Proofs.v
theories/MO_Props.v
theories/MO_Spec.v
theories/MP_Adam.v
theories/MP_Demo.v
theories/MP_Ints.v
theories/MP_Model.v
theories/MP_Proofs.v
theories/MP_Props.v
theories/MP_Running.v
theories/MP_Spec.v
theories/NA_Demo.v
theories/NA_Final.v
theories/NA_Model.v
theories/NA_Proofs.v
theories/NA_Props.v
theories/NA_Props2.v
theories/NA_Spec.v
theories/NC_Demo.v
theories/NC_Model.v
theories/NC_Proofs.v
theories/NC_Props.v
theories/NC_Spec.v
theories/NDL_Model.v
theories/NDL_Proofs.v
theories/NDL_Sort.v
theories/NDL_Top.v
theories/ND_Crowd.v
theories/ND_Demo.v
theories/ND_Model.v
theories/ND_Niche.v
theories/ND_Proofs.v
theories/ND_Props.v
theories/ND_Same.v
theories/ND_Select.v
theories/ND_Spec.v
theories/NE_Demo.v
theories/NE_Final.v
theories/NE_Model.v
theories/NE_More.v
theories/NE_Proofs.v
theories/NE_Props.v
theories/NE_Spec.v
theories/NSGA_Demo.v
theories/NSGA_Model.v
theories/NSGA_Proofs.v
theories/NSGA_Props.v
theories/NSGA_Spec.v
theories/NSGA_Top.v
theories/NZ_Demo.v
theories/NZ_Model.v
theories/NZ_Proofs.v
theories/NZ_Props.v
theories/NZ_Spec.v
theories/OB_Demo.v
theories/OB_Final.v
theories/OB_Model.v
theories/OB_Proofs.v
theories/OB_Props.v
theories/OB_Spec.v
theories/OI_Demo.v
theories/OI_Model.v
theories/OI_Proofs.v
theories/OI_Props.v
theories/OI_Spec.v
theories/OW_Demo.v
theories/OW_Model.v
theories/OW_Proofs.v
theories/OW_Props.v
theories/OW_Spec.v
theories/Opt_Facts.v
theories/Opt_Facts2.v
theories/Opt_Model.v
theories/Opt_Spec.v
theories/P1_Demo.v
theories/P1_ES.v
theories/P1_Final.v
theories/P1_Model.v
theories/P1_PSO.v
theories/P1_Proofs.v
theories/P1_Props.v
theories/P1_SA.v
theories/P1_Spec.v
theories/P1_Wit.v
theories/P2_DE.v
theories/P2_Demo.v
theories/P2_Elite.v
theories/P2_Final.v
theories/P2_Mem.v
theories/P2_Model.v
theories/P2_Proofs.v
theories/P2_Props.v
theories/P2_Spec.v
theories/P2_Start.v
theories/P2_Wit.v
theories/PD_Bern.v
theories/PD_Chance.v
theories/PD_Demo.v
theories/PD_Final.v
theories/PD_Gauss.v
theories/PD_Model.v
theories/PD_Multi.v
theories/PD_Proofs.v
theories/PD_Props.v
theories/PD_Race.v
theories/PD_Spec.v
theories/PSO_Model.v
theories/PSO_Proofs.v
theories/PSO_Props.v
theories/PX_Demo.v
theories/PX_Final.v
theories/PX_Model.v
theories/PX_Proofs.v
theories/PX_Props.v
theories/PX_Spec.v
theories/PX_Wit.v
theories/Pop_Model.v
theories/Pop_Proofs.v
theories/Pop_Spec.v
theories/QP_Demo.v
theories/QP_Model.v
theories/QP_Proofs.v
theories/QP_Props.v
theories/QP_Spec.v
theories/RLI_DE.v
theories/RLI_Demo.v
theories/RLI_ES.v
theories/RLI_End.v
theories/RLI_Learn.v
theories/RLI_Log.v
theories/RLI_Model.v
theories/RLI_Props.v
theories/RLI_Spec.v
theories/RMS_Demo.v
theories/RMS_Model.v
theories/RMS_Norm.v
theories/RMS_Proofs.v
theories/RMS_Props.v
theories/RMS_Spec.v
theories/RM_Demo.v
theories/RM_Eval.v
theories/RM_Final.v
theories/RM_Integrate.v
theories/RM_Main.v
theories/RM_Model.v
theories/RM_Props.v
theories/RM_Spec.v
theories/RN_Demo.v
theories/RN_Model.v
theories/RN_Proofs.v
theories/RN_Props.v
theories/RN_Spec.v
theories/Replay_Facts.v
theories/Replay_Model.v
theories/Replay_Proofs.v
theories/Replay_Props.v
theories/Replay_Spec.v
theories/Ret_Demo.v
theories/Ret_Disc.v
theories/Ret_Model.v
theories/Ret_Proofs.v
theories/Ret_Props.v
theories/Ret_Retrace.v
theories/Ret_Spec.v
theories/Ring.v
theories/SA_Model.v
theories/SA_Proofs.v
theories/SA_Props.v
theories/SA_Spec.v
theories/SD_Demo.v
theories/SD_Model.v
theories/SD_Proofs.v
theories/SD_Props.v
theories/SD_Spec.v
theories/SG_Demo.v
theories/SG_GA.v
theories/SG_Latin.v
theories/SG_Model.v
theories/SG_NGA.v
theories/SG_NHHO.v
theories/SG_Props.v
theories/SG_Spec.v
theories/SG_Units.v
theories/SG_Wit.v
theories/SR_Demo.v
theories/SR_Final.v
theories/SR_Model.v
theories/SR_Moves.v
theories/SR_Proofs.v
theories/SR_Props.v
theories/SR_Reports.v
theories/SR_Runs.v
theories/SR_Spec.v
theories/SV_Demo.v
theories/SV_Model.v
theories/SV_Params.v
theories/SV_Proofs.v
theories/SV_Props.v
theories/SV_Spec.v
theories/Sched_Model.v
theories/Sched_Proofs.v
theories/Sched_Props.v
theories/Sched_Spec.v
theories/SegTree_Facts.v
theories/SegTree_Model.v
theories/SegTree_Proofs.v
theories/SegTree_Props.v
theories/SegTree_Spec.v
theories/Space_Facts.v
theories/Space_Model.v
theories/Space_Proofs.v
theories/Space_Props.v
theories/Space_Spec.v
theories/Stack_Demo.v
theories/Stack_Model.v
theories/Stack_Proofs.v
theories/Stack_Props.v
theories/Stack_Spec.v
theories/Swarm_Demo.v
theories/Swarm_Model.v
theories/Swarm_Proofs.v
theories/Swarm_Props.v
theories/TG_Demo.v
theories/TG_Model.v
theories/TG_Proofs.v
theories/TG_Props.v
theories/TG_Spec.v
theories/TI_Demo.v
theories/TI_Model.v
theories/TI_Proofs.v
theories/TI_Props.v
theories/TI_Spec.v
theories/TSP_Demo.v
theories/TSP_Model.v
theories/TSP_Proofs.v
theories/TSP_Props.v
theories/TSP_Spec.v
theories/TS_Demo.v
theories/TS_Model.v
theories/TS_Proofs.v
theories/TS_Props.v
theories/TS_Spec.v
theories/TU_Demo.v
theories/TU_Evo.v
theories/TU_Model.v
theories/TU_Proofs.v
theories/TU_Props.v
theories/TU_Run.v
theories/TU_Spec.v
theories/Tune_Demo.v
theories/Tune_Model.v
theories/Tune_Proofs.v
theories/Tune_Props.v
theories/Tune_Spec.v
theories/VR_Demo.v
theories/VR_Facts.v
theories/VR_Model.v
theories/VR_Proofs.v
theories/VR_Props.v
theories/VR_Spec.v
theories/Vec_Demo.v
theories/Vec_Model.v
theories/Vec_Proofs.v
theories/Vec_Props.v
theories/Vec_Spec.v
theories/WR_Demo.v
theories/WR_Model.v
theories/WR_Proofs.v
theories/WR_Props.v
theories/WR_Spec.v
theories/XNES_Model.v
theories/XNES_Proofs.v
theories/XNES_Spec.v
