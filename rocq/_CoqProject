-Q theories Verif
theories/Base.v
theories/Sched_Model.v
theories/Sched_Proofs.v
theories/Eval_Model.v
theories/Eval_Spec.v
theories/Sort_Proofs.v
theories/Eval_Proofs.v
theories/Eval_Core_Proofs.v
theories/Eval_Main_Proofs.v
theories/EvalPy_Model.v
theories/EvalMem_Model.v
theories/EvalMem_Proofs.v
theories/EvalPy_Spec.v
theories/EvalPy_Proofs.v
theories/Eval_Facts_Proofs.v
theories/Eval_Derived_Proofs.v
theories/EvalApi_Proofs.v
theories/ListEval_Proofs.v
theories/EvalDf_Model.v
theories/EvalDf_Spec.v
theories/EvalDf_Proofs.v
theories/EvalMore_Proofs.v
theories/Entropy_Model.v
theories/Entropy_Proofs.v
theories/EvalProps_Proofs.v
theories/EvalPerm_Proofs.v
theories/Ex_Eval.v
theories/Prop_Eval_A.v
theories/Prop_Eval_B.v
theories/Table_Proofs.v
theories/Rec_Model.v
theories/Rec_Spec.v
theories/Rec_Proofs.v
theories/RecApi_Proofs.v
theories/Ex_Rec.v
theories/Prop_Rec.v
theories/Float_Model.v
theories/Split_Model.v
theories/Split_Spec.v
theories/Split_Proofs.v
theories/SplitDf_Proofs.v
theories/SplitTop_Proofs.v
theories/SplitTotal_Proofs.v
theories/Float_Proofs.v
theories/Ex_Split.v
theories/Prop_Split.v
theories/Knn_Model.v
theories/Knn_Spec.v
theories/Knn_Proofs.v
theories/KnnSel_Proofs.v
theories/KnnSim_Proofs.v
theories/KnnApi_Proofs.v
theories/KnnP3_Proofs.v
theories/KnnTop_Proofs.v
theories/Ex_Knn.v
theories/Prop_Knn.v
theories/Sparse_Model.v
theories/Sparse_Spec.v
theories/Sparse_Proofs.v
theories/Ex_Sparse.v
theories/Prop_Sparse.v
theories/Slim_Model.v
theories/Slim_Spec.v
theories/Slim_Proofs.v
theories/SlimObj_Proofs.v
theories/SlimTop_Proofs.v
theories/Ex_Slim.v
theories/Prop_Slim.v
theories/EarlyStop_Model.v
theories/EarlyStop_Spec.v
theories/EarlyStop_Proofs.v
theories/Ex_EarlyStop.v
theories/Prop_EarlyStop.v
theories/PyStr_Model.v
theories/PyStr_Spec.v
theories/PyStr_Proofs.v
theories/Ex_PyStr.v
theories/Prop_PyStr.v
theories/Tune_Model.v
theories/Tune_Spec.v
theories/Tune_Proofs.v
theories/Doubling_Proofs.v
theories/TuneES_Proofs.v
theories/Ex_Tune.v
theories/Prop_Tune.v
theories/Dl_Model.v
theories/Dl_Spec.v
theories/Dl_Proofs.v
theories/Ex_Dl.v
theories/Prop_Dl.v
theories/Vae_Model.v
theories/Vae_Spec.v
theories/Vae_Proofs.v
theories/Ex_Vae.v
theories/Prop_Vae.v
theories/Mind_Model.v
theories/Mind_Spec.v
theories/Mind_Proofs.v
theories/Ex_Mind.v
theories/Prop_Mind.v
theories/Ials_Model.v
theories/Ials_Spec.v
theories/IalsLin_Proofs.v
theories/IalsCg_Proofs.v
theories/IalsRow_Proofs.v
theories/IalsPool_Proofs.v
theories/IalsGram_Proofs.v
theories/IalsStep_Proofs.v
theories/IalsSub_Proofs.v
theories/IalsBlock_Proofs.v
theories/IalsTrain_Proofs.v
theories/IalsFeat_Proofs.v
theories/IalsEpoch_Proofs.v
theories/IalsLoss_Proofs.v
theories/IalsDet_Proofs.v
theories/Ex_Ials.v
theories/IalsTop_Proofs.v
theories/IalsEx_Proofs.v
theories/Prop_Ials.v
theories/Ease_Model.v
theories/Ease_Spec.v
theories/Ease_Proofs.v
theories/Prop_Ease.v
theories/Score_Model.v
theories/Score_Spec.v
theories/Score_Proofs.v
theories/Ex_Score.v
theories/Prop_Score.v
theories/IalsState_Model.v
theories/IalsState_Spec.v
theories/IalsState_Proofs.v
theories/IalsSave_Proofs.v
theories/IalsStateEx_Proofs.v
theories/Prop_IalsState.v
theories/IalsInit_Model.v
theories/IalsInit_Spec.v
theories/IalsInit_Proofs.v
theories/Ex_IalsInit.v
theories/IalsInitEx_Proofs.v
theories/Prop_IalsInit.v
theories/Sample_Model.v
theories/Sample_Spec.v
theories/Sample_Proofs.v
theories/Prop_Sample.v
theories/History_Model.v
theories/History_Spec.v
theories/History_Proofs.v
theories/Ex_History.v
theories/Prop_History.v
theories/Config_Model.v
theories/Config_Spec.v
theories/Config_Proofs.v
theories/Ex_Config.v
theories/Prop_Config.v
theories/Reader_Model.v
theories/Reader_Spec.v
theories/Reader_Proofs.v
theories/Ex_Reader.v
theories/Prop_Reader.v
theories/EvalRnd_Model.v
theories/EvalRnd_Spec.v
theories/EvalRnd_Proofs.v
theories/EvalRndSim_Proofs.v
theories/EvalRndTop_Proofs.v
theories/EvalRndFloat_Proofs.v
theories/Ex_EvalRnd.v
theories/Prop_EvalRnd.v
theories/EvalNames_Model.v
theories/EvalNames_Spec.v
theories/EvalNames_Proofs.v
theories/Prop_EvalNames.v
theories/Seed_Model.v
theories/Seed_Spec.v
theories/Seed_Proofs.v
theories/SeedTop_Proofs.v
theories/Prop_Seed.v
theories/Ex_Seed.v
theories/Pair_Model.v
theories/Pair_Spec.v
theories/Pair_Proofs.v
theories/PairTop_Proofs.v
theories/Prop_Pair.v
theories/KnnK_Spec.v
theories/KnnK_Proofs.v
theories/Ex_KnnK.v
theories/Prop_KnnK.v
theories/RecNan_Model.v
theories/RecNan_Spec.v
theories/RecNan_Proofs.v
theories/Ex_RecNan.v
theories/Prop_RecNan.v
theories/IalsFp_Model.v
theories/IalsFp_Spec.v
theories/IalsFp_Proofs.v
theories/Ex_IalsFp.v
theories/Prop_IalsFp.v
theories/SchedOne_Proofs.v
theories/EvalRndOne_Proofs.v
theories/KnnRnd_Model.v
theories/KnnRnd_Spec.v
theories/KnnRnd_Proofs.v
theories/KnnRndSet_Proofs.v
theories/KnnRndAcc_Proofs.v
theories/KnnRndCos_Proofs.v
theories/KnnRndTop_Proofs.v
theories/KnnRndDot_Proofs.v
theories/FloatSqrt_Proofs.v
theories/Ex_KnnRnd.v
theories/Prop_KnnRnd.v
theories/SlimRep_Spec.v
theories/SlimRep_Proofs.v
theories/SlimSettle_Proofs.v
theories/SlimOne_Proofs.v
theories/Ex_SlimRep.v
theories/Prop_SlimRep.v
theories/RndScore_Model.v
theories/RndScore_Spec.v
theories/RndScore_Proofs.v
theories/RndScoreApi_Proofs.v
theories/Ex_RndScore.v
theories/Prop_RndScore.v
theories/Share_Model.v
theories/Share_Spec.v
theories/Share_Proofs.v
theories/ShareApi_Proofs.v
theories/ShareEval_Proofs.v
theories/Ex_Share.v
theories/Prop_Share.v
theories/RndPow_Spec.v
theories/RndPow_Proofs.v
theories/RndPowWalk_Proofs.v
theories/RndPowApi_Proofs.v
theories/Ex_RndPow.v
theories/Prop_RndPow.v
theories/RndPowAsym_Proofs.v
theories/RndPowAsymApi_Proofs.v
theories/Prop_RndAsym.v
theories/RndNorm_Model.v
theories/RndNorm_Spec.v
theories/RndNorm_Proofs.v
theories/Ex_RndNorm.v
theories/Prop_RndNorm.v
