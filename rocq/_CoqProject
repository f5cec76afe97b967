-Q theories Verif
theories/Base.v
theories/Base64_Model.v
theories/Base64_Spec.v
theories/Base64_Proof.v
theories/Base64_Props.v
theories/Base58_Model.v
theories/Base58_Spec.v
theories/Base58_Proof.v
theories/Base58_Props.v
theories/Str_Model.v
theories/Str_Spec.v
theories/Str_Proof.v
theories/Str_Props.v
theories/StrCpp_Model.v
theories/StrCpp_Spec.v
theories/StrCpp_Proof.v
theories/StrCpp_Props.v
theories/Url_Model.v
theories/Url_Spec.v
theories/Url_Proof.v
theories/Url_Props.v
theories/Cache_Model.v
theories/Cache_Spec.v
theories/Cache_Proof.v
theories/Cache_Props.v
theories/UrlP_Model.v
theories/UrlP_Spec.v
theories/UrlP_Proof.v
theories/UrlO_Model.v
theories/UrlO_Spec.v
theories/UrlO_Proof.v
theories/UrlP_Props.v
theories/Synque_Spec.v
theories/Synque_Model.v
theories/Synque_Proof.v
theories/Synque_Props.v
theories/Shm_Spec.v
theories/Shm_Model.v
theories/Shm_Proof.v
theories/ShmMap_Proof.v
theories/ShmOps_Proof.v
theories/ShmOps2_Proof.v
theories/ShmSys_Model.v
theories/ShmSys_Spec.v
theories/ShmSys_Proof.v
theories/ShmApi_Proof.v
theories/Shm_Props.v
theories/ShmSys_Props.v
theories/ShmQ_Spec.v
theories/ShmQ_Model.v
theories/ShmQSys_Spec.v
theories/ShmQ_Proof.v
theories/ShmQSys_Proof.v
theories/ShmQBox_Proof.v
theories/ShmQ_Props.v
theories/SStore_Model.v
theories/SStore_Spec.v
theories/SStore_Proof.v
theories/SStoreTree_Proof.v
theories/SStoreFlat_Proof.v
theories/SStoreEnum_Proof.v
theories/SStore_Props.v
theories/Util_Model.v
theories/Util_Spec.v
theories/Util_Proof.v
theories/Util_Props.v
theories/Net_Model.v
theories/Net_Spec.v
theories/Net_Proof.v
theories/Net_Props.v
theories/Fd_Model.v
theories/Fd_Spec.v
theories/Fd_Proof.v
theories/Fd_Props.v
theories/Daemon_Model.v
theories/Daemon_Spec.v
theories/Daemon_Props.v
theories/Pid_Model.v
theories/Pid_Props.v
theories/Viet_Model.v
theories/Viet_Spec.v
theories/Viet_Props.v
theories/Txml_Model.v
theories/Txml_Spec.v
theories/Txml_Proof.v
theories/Txml_Props.v
theories/SHeap_Model.v
theories/SHeap_Spec.v
theories/SHeap_Proof.v
theories/SHeap_Props.v
theories/Own_Model.v
theories/Own_Props.v
theories/Load_Model.v
theories/Load_Spec.v
theories/Load_Props.v
theories/Life_Model.v
theories/Life_Spec.v
theories/Life_Props.v
theories/Live_Spec.v
theories/Live_Proof.v
theories/Live_Props.v
theories/LiveQ_Spec.v
theories/LiveQ_Props.v
theories/Log_Model.v
theories/Log_Spec.v
theories/Log_Proof.v
theories/Log_Props.v
theories/Sig_Model.v
theories/Sig_Spec.v
theories/Sig_Props.v
theories/Cap_Model.v
theories/Cap_Spec.v
theories/Cap_Props.v
theories/UrlR_Spec.v
theories/UrlR_Proof.v
theories/UrlR_Props.v
theories/Flt_Model.v
theories/Flt_Spec.v
theories/Flt_Proof.v
theories/Flt_Props.v
theories/Getopt_Spec.v
theories/Getopt_Model.v
theories/Getopt_Proof.v
theories/Getopt_Props.v
theories/SynqueX_Model.v
theories/SynqueX_Props.v
theories/CacheX_Model.v
theories/CacheX_Spec.v
theories/CacheX_Proof.v
theories/CacheX_Props.v
theories/B64At_Model.v
theories/B64At_Props.v
theories/UrlAt_Model.v
theories/UrlAt_Props.v
theories/Url32_Model.v
theories/Url32_Props.v
theories/FltMax_Props.v
theories/CacheUse_Model.v
theories/CacheUse_Props.v
theories/SStoreAgain_Proof.v
theories/SStoreAgain_Props.v
theories/SStoreEach_Spec.v
theories/SStoreEach_Proof.v
theories/SStoreEach_Props.v
theories/Host_Model.v
theories/Host_Spec.v
theories/Host_Proof.v
theories/Host_Props.v
theories/Oom_Model.v
theories/Oom_Spec.v
theories/Oom_Props.v
theories/ShmIter_Model.v
theories/ShmIter_Spec.v
theories/ShmIter_Proof.v
theories/ShmIter_Props.v
theories/LoadX_Model.v
theories/LoadX_Spec.v
theories/LoadX_Proof.v
theories/LoadX_Props.v
theories/SynqueD_Model.v
theories/SynqueD_Spec.v
theories/SynqueD_Props.v
theories/B64Enc_Model.v
theories/B64Enc_Props.v
theories/SHeapX_Props.v
theories/Rt_Spec.v
theories/Rt_Props.v
theories/ShmQD_Spec.v
theories/ShmQD_Proof.v
theories/ShmQD_Props.v
theories/ShmQX_Spec.v
theories/ShmQX_Props.v
theories/Wmm_Model.v
theories/Wmm_Proof.v
theories/Wmm_Props.v
theories/ShmCon_Spec.v
theories/ShmCon_Props.v
theories/ShmQC_Model.v
theories/ShmQC_Spec.v
theories/ShmQC_Proof.v
theories/ShmQC_Props.v
theories/ShmQU_Model.v
theories/ShmQU_Spec.v
theories/ShmQU_Props.v
theories/SynqueW_Spec.v
theories/SynqueW_Props.v
theories/ShmQE_Model.v
theories/ShmQE_Spec.v
theories/ShmQE_Proof.v
theories/ShmQE_Props.v
theories/RepoTests.v
theories/Rand_Model.v
theories/Rand_Spec.v
theories/Rand_Props.v
theories/LifeX_Spec.v
theories/LifeX_Props.v
theories/Rot_Model.v
theories/Rot_Spec.v
theories/Rot_Proof.v
theories/Rot_Props.v
theories/SynqueK_Model.v
theories/SynqueK_Props.v
theories/Key_Model.v
theories/Key_Spec.v
theories/Key_Props.v
theories/Copy_Model.v
theories/Copy_Spec.v
theories/Copy_Props.v
theories/ShmL_Model.v
theories/ShmL_Props.v
theories/SynqueP_Model.v
theories/SynqueP_Spec.v
theories/SynqueP_Props.v
theories/SynqueH_Model.v
theories/SynqueH_Spec.v
theories/SynqueH_Props.v
theories/SynqueS_Model.v
theories/SynqueS_Spec.v
theories/SynqueS_Props.v
theories/Url32R_Props.v
theories/ShmEx_Props.v
theories/SigLoop_Model.v
theories/SigLoop_Spec.v
theories/SigLoop_Props.v
theories/Stream_Model.v
theories/Stream_Props.v
theories/CacheAsg_Props.v
theories/SigEx_Props.v
theories/Base58Ex_Props.v
theories/UrlPre_Props.v
theories/Start_Model.v
theories/Start_Props.v
theories/Exact_Props.v
theories/Exact2_Props.v
theories/Exact3_Props.v
theories/StartRun_Props.v
