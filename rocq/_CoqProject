-Q theories Verif
theories/Base.v
theories/Cplx.v
theories/Mpi_Model.v
theories/Mpi_Spec.v
theories/Mpi_Proofs.v
theories/Mpi_Props.v
theories/Stats_Model.v
theories/Stats_Spec.v
theories/Stats_Proofs.v
theories/Stats_Props.v
theories/BranchFree_Model.v
theories/BranchFree_Spec.v
theories/BranchFree_Proofs.v
theories/BranchFree2_Proofs.v
theories/BranchFree3_Proofs.v
theories/BranchFree_Props.v
theories/OpBase_Model.v
theories/OpBase_Spec.v
theories/OpBase_Proofs.v
theories/OpBase_Props.v
theories/Dist.v
theories/Sampler_Model.v
theories/Sampler_Spec.v
theories/Sampler_Proofs.v
theories/Sampler2_Proofs.v
theories/Sampler_Props.v
theories/Keys_Model.v
theories/Keys_Proofs.v
theories/Keys_Props.v
theories/Exact_Model.v
theories/Exact_Spec.v
theories/Exact_Proofs.v
theories/Exact_Props.v
theories/Vqs_Model.v
theories/Vqs_Spec.v
theories/Vqs_Proofs.v
theories/Vqs_Props.v
theories/Sym_Model.v
theories/Sym_Spec.v
theories/Sym_Proofs.v
theories/Sym2_Proofs.v
theories/Sym3_Proofs.v
theories/Sym4_Proofs.v
theories/Sym5_Proofs.v
theories/Sym_Props.v
theories/Rnn_Model.v
theories/Rnn_Spec.v
theories/Rnn_Proofs.v
theories/Rnn2_Proofs.v
theories/Rnn_Props.v
theories/Rbm_Model.v
theories/Rbm_Spec.v
theories/Rbm_Props.v
theories/Cnn_Model.v
theories/Cnn_Spec.v
theories/Cnn_Proofs.v
theories/Cnn_Props.v
theories/Stepper_Model.v
theories/Stepper_Spec.v
theories/Stepper_Proofs.v
theories/Stepper_Props.v
theories/Povm_Model.v
theories/Povm_Spec.v
theories/Povm_Proofs.v
theories/Povm2_Proofs.v
theories/Povm3_Proofs.v
theories/Povm_Props.v
theories/PovmOp_Model.v
theories/PovmOp_Spec.v
theories/PovmOp_Proofs.v
theories/PovmOp2_Proofs.v
theories/PovmOp_Props.v
theories/Tdvp_Model.v
theories/Tdvp_Spec.v
theories/Tdvp_Proofs.v
theories/Tdvp2_Proofs.v
theories/Tdvp3_Proofs.v
theories/Tdvp4_Proofs.v
theories/Tdvp5_Proofs.v
theories/Tdvp6_Proofs.v
theories/Tdvp7_Proofs.v
theories/Tdvp_Props.v
theories/Output_Model.v
theories/Output_Spec.v
theories/Output_Proofs.v
theories/Output2_Proofs.v
theories/Output3_Proofs.v
theories/Output4_Proofs.v
theories/Output_Props.v
theories/Devices_Model.v
theories/Devices_Spec.v
theories/Devices_Proofs.v
theories/Devices_Props.v
theories/Gs_Model.v
theories/Gs_Spec.v
theories/Gs_Proofs.v
theories/Gs_Props.v
theories/Init_Model.v
theories/Init_Spec.v
theories/Init_Proofs.v
theories/Init_Props.v
theories/Measure_Model.v
theories/Measure_Spec.v
theories/Measure_Proofs.v
theories/Measure2_Proofs.v
theories/Measure_Props.v
theories/Vmc_Model.v
theories/Vmc_Spec.v
theories/Vmc_Proofs.v
theories/Vmc2_Proofs.v
theories/Vmc3_Proofs.v
theories/Vmc_Props.v
theories/Wrap_Model.v
theories/Wrap_Spec.v
theories/Wrap_Proofs.v
theories/Wrap_Props.v
theories/Net_Model.v
theories/Net_Spec.v
theories/Net_Proofs.v
theories/Net_Props.v
theories/Est_Model.v
theories/Est_Spec.v
theories/Est_Props.v
theories/Rnet_Model.v
theories/Rnet_Spec.v
theories/Rnet_Proofs.v
theories/Rnet_Props.v
theories/Plain_Model.v
theories/Plain_Spec.v
theories/Plain_Props.v
theories/Evo_Model.v
theories/Evo_Spec.v
theories/Evo_Proofs.v
theories/Evo2_Proofs.v
theories/Evo3_Proofs.v
theories/Evo4_Proofs.v
theories/Evo_Props.v
theories/Square_Spec.v
theories/Square_Proofs.v
theories/Square2_Proofs.v
theories/Square3_Proofs.v
theories/Square_Props.v
theories/Evo2_Props.v
theories/Ergo_Model.v
theories/Ergo_Spec.v
theories/Ergo_Proofs.v
theories/Ergo2_Proofs.v
theories/Ergo3_Proofs.v
theories/Ergo4_Proofs.v
theories/Ergo5_Proofs.v
theories/Ergo6_Proofs.v
theories/Ergo7_Proofs.v
theories/Ergo_Props.v
theories/Direct_Model.v
theories/Direct_Spec.v
theories/Direct_Proofs.v
theories/Direct2_Proofs.v
theories/Direct3_Proofs.v
theories/Direct_Props.v
theories/Conv_Model.v
theories/Conv_Spec.v
theories/Conv_Proofs.v
theories/Conv2_Proofs.v
theories/Conv3_Proofs.v
theories/Conv_Props.v
theories/Many_Model.v
theories/Many_Spec.v
theories/Many_Proofs.v
theories/Many2_Proofs.v
theories/Many3_Proofs.v
theories/Many_Props.v
theories/Lind_Model.v
theories/Lind_Spec.v
theories/Lind_Proofs.v
theories/Lind2_Proofs.v
theories/Lind3_Proofs.v
theories/Lind4_Proofs.v
theories/Lind_Props.v
theories/Msr_Model.v
theories/Msr_Spec.v
theories/Msr_Proofs.v
theories/Msr_Props.v
theories/OpRanks_Model.v
theories/OpRanks_Spec.v
theories/OpRanks_Proofs.v
theories/OpRanks_Props.v
theories/Poly_Spec.v
theories/Poly_Proofs.v
theories/Poly_Props.v
theories/MinConv_Model.v
theories/MinConv_Spec.v
theories/MinConv_Proofs.v
theories/MinConv2_Proofs.v
theories/MinConv_Props.v
theories/AdErr_Model.v
theories/AdErr_Proofs.v
theories/AdErr_Props.v
theories/Cache_Model.v
theories/Cache_Spec.v
theories/Cache_Proofs.v
theories/Cache_Props.v
theories/Layers_Spec.v
theories/Layers_Proofs.v
theories/Layers_Props.v
theories/Ehren_Spec.v
theories/Ehren_Proofs.v
theories/Ehren_Props.v
theories/Spectrum_Spec.v
theories/Spectrum_Proofs.v
theories/Spectral_Proofs.v
theories/Spectrum_Props.v
theories/Descent_Proofs.v
theories/Descent_Props.v
theories/Open_Spec.v
theories/Open_Proofs.v
theories/Open_Props.v
theories/Comm_Model.v
theories/Comm_Spec.v
theories/Comm_Proofs.v
theories/Comm_Props.v
