-Q theories Verif
theories/ABF_Model.v
theories/ABF_Proofs.v
theories/ABF_Props.v
theories/ABF_Spec.v
theories/Acc.v
theories/Activation_Model.v
theories/Activation_Proofs.v
theories/Activation_Props.v
theories/Activation_Spec.v
theories/Alglib_Model.v
theories/Alglib_Proofs.v
theories/Alglib_Props.v
theories/Alglib_Spec.v
theories/Ask_Model.v
theories/Ask_Proofs.v
theories/Ask_Props.v
theories/Ask_Spec.v
theories/Base.v
theories/BaseFacts.v
theories/Compressed_Proofs.v
theories/Compression_Model.v
theories/Compression_Proofs.v
theories/Compression_Props.v
theories/Compression_Spec.v
theories/Conv_Model.v
theories/Conv_Proofs.v
theories/Conv_Props.v
theories/CrossVal_Proofs.v
theories/CrossVal_Props.v
theories/DataSet_Model.v
theories/DataSet_Proofs.v
theories/DataSet_Props.v
theories/DataSet_Spec.v
theories/Deriv.v
theories/Ensemble_Model.v
theories/Ensemble_Proofs.v
theories/Ensemble_Props.v
theories/Ensemble_Spec.v
theories/Evaluation_Model.v
theories/Evaluation_Proofs.v
theories/Evaluation_Props.v
theories/Evaluation_Spec.v
theories/FC_Model.v
theories/FC_Proofs.v
theories/FC_Props.v
theories/FloatAct_Proofs.v
theories/FloatCE_Proofs.v
theories/FloatCE_Props.v
theories/FloatFilter_Model.v
theories/FloatFilter_Proofs.v
theories/FloatFilter_Props.v
theories/FloatGradReal_Proofs.v
theories/FloatGrad_Model.v
theories/FloatGrad_Proofs.v
theories/FloatGrad_Props.v
theories/FloatGrad_Spec.v
theories/FloatNet_Model.v
theories/FloatNet_Proofs.v
theories/FloatNet_Props.v
theories/FloatNet_Spec.v
theories/FloatNorm_Model.v
theories/FloatNorm_Proofs.v
theories/FloatNorm_Props.v
theories/FloatPool_Model.v
theories/FloatPool_Proofs.v
theories/FloatPool_Props.v
theories/FloatSGD_Model.v
theories/FloatSGD_Proofs.v
theories/FloatSGD_Props.v
theories/FloatSGD_Spec.v
theories/FloatScale_Model.v
theories/FloatScale_Proofs.v
theories/FloatScale_Props.v
theories/FloatSoft_Proofs.v
theories/FloatSplit_Model.v
theories/FloatSplit_Proofs.v
theories/FloatSplit_Props.v
theories/Float_Model.v
theories/Float_Proofs.v
theories/Float_Props.v
theories/Float_Spec.v
theories/GetParams_Props.v
theories/IO_Model.v
theories/IO_Proofs.v
theories/IO_Props.v
theories/IO_Spec.v
theories/IPOP_Model.v
theories/IPOP_Proofs.v
theories/IPOP_Props.v
theories/IPOP_Spec.v
theories/IP_Model.v
theories/IP_Props.v
theories/Image_Spec.v
theories/Interrupt_Model.v
theories/Interrupt_Props.v
theories/KMeans_Model.v
theories/KMeans_Proofs.v
theories/KMeans_Props.v
theories/KMeans_Spec.v
theories/LRN_Model.v
theories/LRN_Proofs.v
theories/LRN_Props.v
theories/LRN_Spec.v
theories/LayerFun_Spec.v
theories/Layer_Layout.v
theories/Layer_Model.v
theories/Layer_Proofs.v
theories/Layer_Spec.v
theories/Learner_Model.v
theories/Learner_Proofs.v
theories/Learner_Props.v
theories/Learner_Spec.v
theories/Log_Model.v
theories/Log_Props.v
theories/Log_Spec.v
theories/MBSGD_Model.v
theories/MBSGD_Proofs.v
theories/MBSGD_Props.v
theories/MBSGD_Spec.v
theories/MLNN_Props.v
theories/MatOps.v
theories/Matrix.v
theories/MaxPool_Proofs.v
theories/MaxPool_Props.v
theories/NetBuild_Model.v
theories/NetBuild_Proofs.v
theories/NetChain_Proofs.v
theories/NetFixed_Proofs.v
theories/NetIO_Model.v
theories/NetIO_Proofs.v
theories/NetIO_Props.v
theories/NetIO_Spec.v
theories/NetInit_Proofs.v
theories/NetInit_Props.v
theories/NetLayer_Model.v
theories/NetLayer_Props.v
theories/NetLayer_Spec.v
theories/NetLayers_Proofs.v
theories/NetNormSet_Proofs.v
theories/NetNorm_Proofs.v
theories/NetNorm_Props.v
theories/NetNorm_Spec.v
theories/NetPrint_Proofs.v
theories/NetSettled_Proofs.v
theories/NetSettled_Props.v
theories/NetUse_Spec.v
theories/Net_Model.v
theories/Net_Proofs.v
theories/Net_Props.v
theories/Optimizable_Model.v
theories/Optimizable_Props.v
theories/OwnLayer_Model.v
theories/OwnLayer_Proofs.v
theories/OwnLayer_Props.v
theories/OwnLayer_Spec.v
theories/Owner_Model.v
theories/Owner_Proofs.v
theories/Owner_Props.v
theories/Owner_Spec.v
theories/PCA_Model.v
theories/PCA_Proofs.v
theories/PCA_Props.v
theories/PCA_Spec.v
theories/ParallelLoops_Proofs.v
theories/ParallelLoops_Spec.v
theories/Parallel_Model.v
theories/Parallel_Proofs.v
theories/Parallel_Props.v
theories/Parallel_Spec.v
theories/Pool.v
theories/Pool_Model.v
theories/Preproc_Model.v
theories/Preproc_Proofs.v
theories/Preproc_Props.v
theories/Preproc_Spec.v
theories/RBMLayer_Proofs.v
theories/RBMNet_Proofs.v
theories/RBMUse_Proofs.v
theories/RBMUse_Spec.v
theories/RBM_Model.v
theories/RBM_Proofs.v
theories/RBM_Props.v
theories/RBM_Spec.v
theories/RSum.v
theories/Reg_Proofs.v
theories/SAEGrad_Proofs.v
theories/SAELayer_Proofs.v
theories/SAEUse_Proofs.v
theories/SAEUse_Spec.v
theories/SAE_Model.v
theories/SAE_Proofs.v
theories/SAE_Props.v
theories/SAE_Spec.v
theories/SVM_Proofs.v
theories/SigmaPiMove_Proofs.v
theories/SigmaPiPass_Proofs.v
theories/SigmaPi_Model.v
theories/SigmaPi_Proofs.v
theories/SigmaPi_Props.v
theories/SigmaPi_Spec.v
theories/SimpleLayers_Model.v
theories/SimpleLayers_Proofs.v
theories/SimpleLayers_Props.v
theories/Storage_Model.v
theories/Storage_Proofs.v
theories/Storage_Props.v
theories/Subs_Proofs.v
theories/Subs_Props.v
theories/TextIO_Model.v
theories/TextIO_Proofs.v
theories/TextIO_Props.v
theories/TextIO_Spec.v
theories/TextNet_Model.v
theories/TextNet_Proofs.v
theories/TextNet_Props.v
theories/TextNet_Spec.v
theories/TextPrint_Proofs.v
theories/TextSVM_Proofs.v
theories/Text_Model.v
theories/Text_Proofs.v
theories/Text_Props.v
theories/Text_Spec.v
theories/TrainCma_Proofs.v
theories/TrainCma_Props.v
theories/TrainExamples_Props.v
theories/TrainSgd_Proofs.v
theories/Train_Model.v
theories/Train_Proofs.v
theories/Train_Props.v
theories/Train_Spec.v
theories/TriangleAngle_Proofs.v
theories/Triangle_Model.v
theories/Triangle_Proofs.v
theories/Triangle_Props.v
theories/Triangle_Spec.v
theories/Vec.v
theories/Weighted_Model.v
theories/Weighted_Proofs.v
theories/Weighted_Props.v
