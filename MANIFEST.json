{
 "claims": [
  {
   "property": "C01",
   "status": "proved",
   "theorems": [
    "C01_distribute_sampling_exact"
   ],
   "note": ""
  },
  {
   "property": "C02",
   "status": "proved",
   "theorems": [
    "C02_ranges_tile"
   ],
   "note": ""
  },
  {
   "property": "C03",
   "status": "proved",
   "theorems": [
    "C03_global_sum_is_total",
    "C03_global_mean_is_weighted_mean",
    "C03_layout_independent"
   ],
   "note": ""
  },
  {
   "property": "C04",
   "status": "partial",
   "theorems": [
    "C04_global_variance_partial",
    "C04_global_variance_refuted"
   ],
   "note": "Right with one device per process; false with two devices (missing psum): witness."
  },
  {
   "property": "C05",
   "status": "partial",
   "theorems": [
    "C05_global_covariance_partial",
    "C05_global_covariance_refuted"
   ],
   "note": "Code returns the transposed second moment without mean subtraction; exact relation proved, documented formula refuted by a witness."
  },
  {
   "property": "C06",
   "status": "partial",
   "theorems": [
    "C06_bcast_partial",
    "C06_gather",
    "C06_bcast_refuted"
   ],
   "note": "Gather proved; broadcast proved for float64; for other element types the root raises and all others block: witness."
  },
  {
   "property": "C07",
   "status": "proved",
   "theorems": [
    "C07_statistics",
    "C07_layout_independent"
   ],
   "note": ""
  },
  {
   "property": "C08",
   "status": "proved",
   "theorems": [
    "C08_covar_data_covar_var"
   ],
   "note": ""
  },
  {
   "property": "C09",
   "status": "partial",
   "theorems": [
    "C09_subset",
    "C09_slice_indices",
    "C09_select",
    "C09_transform_partial",
    "C09_transform_linear_refuted"
   ],
   "note": "subset, select and transform without linearFun (or with linearFun on matrix-shaped samples) proved; linearFun on vector-shaped samples contracts over the batch index: refuted by a witness."
  },
  {
   "property": "C10",
   "status": "partial",
   "theorems": [
    "C10_mean_and_grad_partial",
    "C10_mean_and_grad_refuted"
   ],
   "note": "Exact gradient proved for one device per process; with several devices the call raises (new axis inserted at the wrong place)."
  },
  {
   "property": "C11",
   "status": "proved",
   "theorems": [
    "C11_action"
   ],
   "note": ""
  },
  {
   "property": "C12",
   "status": "partial",
   "theorems": [
    "C12_convention_partial",
    "C12_ket_partial",
    "C12_convention_refuted",
    "C12_order_refuted"
   ],
   "note": "<s|O|s'> proved for strings of Id, Sx, Sy, Sz on pairwise different sites. In general the elements are <s'|O|s> with products in the written order (C12_ket_partial); Sp/Sm and products on one site contradict the documented convention: witnesses."
  },
  {
   "property": "C13",
   "status": "partial",
   "theorems": [
    "C13_algebra_partial",
    "C13_commute",
    "C13_algebra_refuted"
   ],
   "note": "Squares, products and ladder operators proved with -i in place of i, commutation on different sites proved; the usual sign of i is refuted."
  },
  {
   "property": "C14",
   "status": "proved",
   "theorems": [
    "C14_car"
   ],
   "note": ""
  },
  {
   "property": "C15",
   "status": "partial",
   "theorems": [
    "C15_compaction_partial",
    "C15_compaction_refuted"
   ],
   "note": "Exact when every element is zero or above 1e-6 in modulus, with an error bound in general; an element of 1e-7 is dropped (witness)."
  },
  {
   "property": "C16",
   "status": "partial",
   "theorems": [
    "C16_batched_partial",
    "C16_value_partial",
    "C16_estimator",
    "C16_batched_refuted",
    "C16_default_refuted"
   ],
   "note": "Batched equals unbatched for logarithmic states and for even division; value proved. For non-logarithmic states the remainder batch and the default log-amplitudes lack the logarithm: witnesses."
  },
  {
   "property": "C17",
   "status": "partial",
   "theorems": [
    "C17_never_stale",
    "C17_fresh_partial",
    "C17_fresh_refuted",
    "C17_ranks_never_stale",
    "C17_ranks_return_partial",
    "C17_ranks_return_refuted"
   ],
   "note": "An evaluation that returns is never stale, for every history, every number of ranks and every number of prefactors. It fails like a fresh operator if nothing raised before; after a raising prefactor a good call raises (witness). On several ranks every rank returns if nothing raised before and the prefactors can be shared (C19); 50 strings with a prefactor each on two ranks leave rank 1 waiting for ever (witness)."
  },
  {
   "property": "C18",
   "status": "partial",
   "theorems": [
    "C18_constructor_partial",
    "C18_arithmetic_partial",
    "C18_evaluates",
    "C18_arithmetic_refuted"
   ],
   "note": "Operators always in the written order; prefactor is the product of factors when called without arguments or with at most one factor. With two or more factors and arguments the prefactor raises TypeError (proved for every expression, witness given)."
  },
  {
   "property": "C19",
   "status": "partial",
   "theorems": [
    "C19_parallel_partial",
    "C19_all_ranks_partial",
    "C19_parallel_refuted",
    "C19_idle_rank_refuted"
   ],
   "note": "A rank that obtains a vector obtains the serial one; every rank obtains it below 50 prefactors or when each boundary is preceded by a string without prefactor and every rank has work. Otherwise IndexError and deadlock: witnesses."
  },
  {
   "property": "C20",
   "status": "partial",
   "theorems": [
    "C20_shapes_partial",
    "C20_shapes_fail_partial",
    "C20_shapes_refuted",
    "C20_fermion_refuted"
   ],
   "note": "Proved for one-dimensional samples, and for last dimension one without fermions; for all other shapes the evaluation raises (proved), and fermionic signs are lost for last dimension one (witness)."
  },
  {
   "property": "C21",
   "status": "proved",
   "theorems": [
    "C21_valid",
    "C21_basis",
    "C21_determined",
    "C21_symmetric",
    "C21_orientation",
    "C21_unknown"
   ],
   "note": "For all real angles. Real arithmetic; square roots are exact."
  },
  {
   "property": "C22",
   "status": "proved",
   "theorems": [
    "C22_observable",
    "C22_sic",
    "C22_unknown"
   ],
   "note": "For POVMs of every dimension and number of elements whose overlap matrix has the inverse T_inv and states in the real span of the elements; C22_sic covers every Hermitian 2x2 matrix. jnp.linalg.inv is assumed to return the inverse."
  },
  {
   "property": "C23",
   "status": "proved",
   "theorems": [
    "C23_unitary",
    "C23_dissipative",
    "C23_imaginary",
    "C23_conserves",
    "C23_sic_one",
    "C23_sic_two"
   ],
   "note": "General dimension; C23_sic_one and C23_sic_two cover the predefined one- and two-body dictionaries for every Hermitian state. jnp.linalg.inv is assumed to return the inverse."
  },
  {
   "property": "C24",
   "status": "partial",
   "theorems": [
    "C24_counts_partial",
    "C24_shared_refuted",
    "C24_empty"
   ],
   "note": "C24_counts_partial holds for every history in which no term dictionary of the operator is added to another operator afterwards. C24_shared_refuted: adding the dictionary to a second operator overwrites its id, two terms of the first operator then carry the same id and compile drops one of them."
  },
  {
   "property": "C25",
   "status": "proved",
   "theorems": [
    "C25_step",
    "C25_keeps",
    "C25_start",
    "C25_direct_lost"
   ],
   "note": "C25_direct_lost additionally shows that an operator written into povm.operators directly (the case mentioned in the error message of _check_name_availabilty) is dropped silently by the next registration."
  },
  {
   "property": "C26",
   "status": "proved",
   "theorems": [
    "C26_distribution",
    "C26_unknown"
   ],
   "note": "For every POVM of four positive 2x2 matrices that sum to the identity."
  },
  {
   "property": "C27",
   "status": "proved",
   "theorems": [
    "C27_spin_flip",
    "C27_spin_flip_Z2",
    "C27_zeroMag"
   ],
   "note": "Idealised random numbers (independent, exactly distributed draws). Detailed balance for one chain, invariance for any number of chains and steps, and for every returned configuration after thermalisation."
  },
  {
   "property": "C28",
   "status": "partial",
   "theorems": [
    "C28_POVM_proposal_partial",
    "C28_POVM_probabilities_partial",
    "C28_never_decreases_partial",
    "C28_POVM_valid_refuted",
    "C28_POVM_symmetric_refuted"
   ],
   "note": "One site changes by 0, 1 or 2, with the stated probabilities, so entries of samples never decrease; outcome 3 can become 5 and no move is ever reversed (operator precedence): witnesses."
  },
  {
   "property": "C29",
   "status": "partial",
   "theorems": [
    "C29_zeroMag_partial",
    "C29_default_state_refuted"
   ],
   "note": "Conservation, symmetry and zero magnetisation of all samples proved for zero-magnetisation initial states on lattices of two dimensions; from the default all-zeros state there are draws for which no sample ever has zero magnetisation (witness)."
  },
  {
   "property": "C30",
   "status": "partial",
   "theorems": [
    "C30_mcmc_partial",
    "C30_mcmc_device",
    "C30_mcmc_weights",
    "C30_gen_partial",
    "C30_mcmc_refuted",
    "C30_gen_refuted"
   ],
   "note": "Markov chains: proved if multipleOf divides numChains, weights always sum to one. Direct sampling: proved for multipleOf = 1. Otherwise too few samples are returned and weights of direct sampling do not sum to one: witnesses."
  },
  {
   "property": "C31",
   "status": "proved",
   "theorems": [
    "C31_importance"
   ],
   "note": ""
  },
  {
   "property": "C32",
   "status": "proved",
   "theorems": [
    "C32_bookkeeping",
    "C32_update",
    "C32_acceptance_ratio"
   ],
   "note": ""
  },
  {
   "property": "C33",
   "status": "partial",
   "theorems": [
    "C33_consumers",
    "C33_no_reuse_partial",
    "C33_one_rank_partial",
    "C33_set_random_key_refuted"
   ],
   "note": "Proved for any sequence of sample() calls on any number of ranks and devices, and with set_random_key on one rank; set_random_key gives all ranks the same keys (witness). Keys are symbolic paths; distinct paths are taken to be distinct keys."
  },
  {
   "property": "C34",
   "status": "partial",
   "theorems": [
    "C34_enumeration_partial",
    "C34_many_states_partial",
    "C34_enumeration_refuted"
   ],
   "note": "Exact criterion proved: right if and only if the first devices - 1 devices of every rank do not take more states than the rank has, in particular for one device per process or at least (devices-1)^2 states per rank. Otherwise states are counted twice: witness."
  },
  {
   "property": "C35",
   "status": "proved",
   "theorems": [
    "C35_probabilities"
   ],
   "note": ""
  },
  {
   "property": "C36",
   "status": "partial",
   "theorems": [
    "C36_restored_partial",
    "C36_untouched_partial",
    "C36_restored_refuted"
   ],
   "note": "Proved for every normal return, for failing Markov chains and for rejected parameters; when drawing or the final evaluation raises, all samplers leave the temporary parameters in the network (witness). Assumes that nothing else assigns to the network during the call."
  },
  {
   "property": "C37",
   "status": "partial",
   "theorems": [
    "C37_distribution_partial",
    "C37_normalised_partial",
    "C37_lpf_refuted",
    "C37_exp_refuted"
   ],
   "note": "With avgFun_Coefficients_Exp (the default of NQS) the samples do not follow the symmetrised distribution, not even up to normalisation (witness). With avgFun_Coefficients_Sep: Proved for logProbFactor 1/2; avgFun_Coefficients_Sep has the exponent 2 hard coded, so for logProbFactor 1 the reported probabilities are wrong (witness)."
  },
  {
   "property": "C38",
   "status": "proved",
   "theorems": [
    "C38_batched"
   ],
   "note": ""
  },
  {
   "property": "C39",
   "status": "partial",
   "theorems": [
    "C39_set_get_partial",
    "C39_get_set",
    "C39_update_partial",
    "C39_short_partial",
    "C39_length_refuted",
    "C39_uninitialised_refuted"
   ],
   "note": "Round trips and update proved for vectors of the right length; too long vectors are accepted, too short ones are rejected by real networks but can be accepted by complex ones (broadcasting), and update_parameters on an uninitialised network raises: witnesses."
  },
  {
   "property": "C40",
   "status": "partial",
   "theorems": [
    "C40_gradients_partial",
    "C40_gradients_refuted",
    "C40_real_refuted"
   ],
   "note": "Proved for every differentiable network when holomorphic is only set for complex networks satisfying the Cauchy-Riemann equations at the sample. The code checks them at its first sample only: witnesses with a wrong component and with twice as many components."
  },
  {
   "property": "C41",
   "status": "proved",
   "theorems": [
    "C41_dict",
    "C41_nonholomorphic_refuted"
   ],
   "note": "Real and holomorphic networks; the non-holomorphic complex case, outside the claim, disagrees (witness)."
  },
  {
   "property": "C42",
   "status": "proved",
   "theorems": [
    "C42_group",
    "C42_count",
    "C42_generated"
   ],
   "note": ""
  },
  {
   "property": "C43",
   "status": "proved",
   "theorems": [
    "C43_group",
    "C43_generated"
   ],
   "note": "Proves in addition that the orbit consists exactly of the products of the requested symmetries, each once."
  },
  {
   "property": "C44",
   "status": "partial",
   "theorems": [
    "C44_action",
    "C44_exp",
    "C44_invariant_exp",
    "C44_invariant_log",
    "C44_invariant_sep",
    "C44_ring",
    "C44_average_partial",
    "C44_average_refuted"
   ],
   "note": "Transformation law proved wherever the symmetrised amplitude does not vanish (its logarithm is not modelled there). The documented normalisation 1/|S| is missing in avgFun_Coefficients_Exp: the amplitude is |S| times the documented average (witness)."
  },
  {
   "property": "C45",
   "status": "partial",
   "theorems": [
    "C45_normalised_partial",
    "C45_batch_partial",
    "C45_causal",
    "C45_complex_refuted"
   ],
   "note": "Normalisation, sampling law and independence of the samples of a batch proved for every cell and every output layer returning real numbers. False for complex parameters: log_softmax of complex amplitudes is not normalised and samples follow another law (witness)."
  },
  {
   "property": "C46",
   "status": "partial",
   "theorems": [
    "C46_normalised_partial",
    "C46_batch_partial",
    "C46_causal",
    "C46_complex_refuted",
    "C46_gru_refuted"
   ],
   "note": "As C45, for the zig-zag scan. Cells named GRU cannot be constructed (features missing)."
  },
  {
   "property": "C47",
   "status": "partial",
   "theorems": [
    "C47_cnn",
    "C47_cpx_partial",
    "C47_cpx_refuted"
   ],
   "note": "Proved for CNN with any number of axes. False for CpxCNN: after the periodic padding nn.Conv pads with zeros (padding SAME); witness with three sites. For filters of diameter one CpxCNN is invariant."
  },
  {
   "property": "C48",
   "status": "proved",
   "theorems": [
    "C48_log_cosh",
    "C48_bounded",
    "C48_amplitude",
    "C48_amplitude_nospinflip",
    "C48_spinflip",
    "C48_real_amplitude"
   ],
   "note": "Includes arguments where cosh vanishes (logarithm minus infinity)."
  },
  {
   "property": "C49",
   "status": "proved",
   "theorems": [
    "C49_euler",
    "C49_heun",
    "C49_euler_global",
    "C49_heun_global"
   ],
   "note": "Local and global error bounds with explicit constants for every smooth solution of a system of any dimension (right hand side Lipschitz in the state). Real arithmetic."
  },
  {
   "property": "C50",
   "status": "partial",
   "theorems": [
    "C50_step_partial",
    "C50_run_partial",
    "C50_maxstep_refuted",
    "C50_nan_refuted"
   ],
   "note": "All clauses proved for initial steps not above maxStep, positive tolerance and norms that return numbers. False without: the very first step may exceed maxStep, and an error estimate that is not a number is accepted."
  },
  {
   "property": "C51",
   "status": "proved",
   "theorems": [
    "C51_terminates",
    "C51_bound",
    "C51_bounded"
   ],
   "note": "Explicit bound on the rejections; also for every bounded right hand side."
  },
  {
   "property": "C52",
   "status": "proved",
   "theorems": [
    "C52_real",
    "C52_imag",
    "C52_zero"
   ],
   "note": "The eigenvalue solvers are assumed correct (oracle). Imaginary part of the equation with a Monte-Carlo sampler: for spectra without coinciding eigenvalues. For F = 0 the reported residual is NaN."
  },
  {
   "property": "C53",
   "status": "partial",
   "theorems": [
    "C53_partial",
    "C53_no_iteration",
    "C53_no_iteration_refuted",
    "C53_endless_refuted"
   ],
   "note": "Holds for 0 < pinvCutoff < 1/100 and pinvTol < 1. With pinvTol >= 1 or pinvCutoff >= 1/100 the loop body never runs and the code reads an unassigned variable; with pinvCutoff = 0 the search need not end."
  },
  {
   "property": "C54",
   "status": "partial",
   "theorems": [
    "C54_restored_partial",
    "C54_minsr_restored_partial",
    "C54_crossval",
    "C54_raises_refuted"
   ],
   "note": "Calls that return restore the parameters; a call that raises in between does not. Cross validation does not change update or stored equation."
  },
  {
   "property": "C55",
   "status": "proved",
   "theorems": [
    "C55_minsr"
   ],
   "note": "The pseudo-inverse routine is assumed exact for Gram matrices (oracle)."
  },
  {
   "property": "C56",
   "status": "partial",
   "theorems": [
    "C56_history_partial",
    "C56_snr_partial",
    "C56_exact_refuted"
   ],
   "note": "Holds for the Monte-Carlo samplers; with ExactSampler the ratio uses the sample number of whichever sampler last called distribute_sampling."
  },
  {
   "property": "C57",
   "status": "partial",
   "theorems": [
    "C57_order_partial",
    "C57_aligned_partial",
    "C57_append_only_partial",
    "C57_late_refuted",
    "C57_failed_refuted",
    "C57_shrink_refuted"
   ],
   "note": "Aligned for observables that are given in every call, with names without slash and one shape per name; earlier rows are kept by every call (failing ones included) whose values have the stored shape. Refuted: an observable first given later starts at row 0; after a failing call times and values are shifted against each other; a shorter array cuts all earlier rows."
  },
  {
   "property": "C58",
   "status": "partial",
   "theorems": [
    "C58_retrieve_partial",
    "C58_negative_time_refuted",
    "C58_failing_refuted"
   ],
   "note": "For non-empty histories of checkpoints of one length in a fresh group, every number of ranks, every valid index (also negative) and every time >= 0. Refuted: negative times are ignored; if rank 0 raises (no checkpoint) the other ranks wait in bcast."
  },
  {
   "property": "C59",
   "status": "partial",
   "theorems": [
    "C59_redirect_partial",
    "C59_arrives_partial",
    "C59_metadata_partial",
    "C59_kept_partial",
    "C59_init",
    "C59_other_ranks",
    "C59_root_refuted"
   ],
   "note": "For group names other than '/', arrays that have the shape of their data set. Refuted: set_group('/') after set_group('a') keeps writing to a."
  },
  {
   "property": "C60",
   "status": "partial",
   "theorems": [
    "C60_totals_partial",
    "C60_unstarted_refuted"
   ],
   "note": "For histories in which every stop follows a start of the same name. Refuted otherwise: the reading of the clock is recorded."
  },
  {
   "property": "C61",
   "status": "partial",
   "theorems": [
    "C61_search_partial",
    "C61_returns_partial",
    "C61_start_refuted",
    "C61_extra_step_refuted",
    "C61_stale_variance_refuted",
    "C61_shift_left_refuted"
   ],
   "note": "Number of steps, records and damped shift are proved for every equation object and every variance sequence, with the criterion referring to the variance computed in the last step. The full statement is false: the variance starts as the constant 1 and lags one step behind, and the diagonal shift of the equation object stays modified."
  },
  {
   "property": "C62",
   "status": "partial",
   "theorems": [
    "C62_measure_partial",
    "C62_means_partial",
    "C62_devices_refuted",
    "C62_bare_tuple_refuted",
    "C62_povm_partial",
    "C62_povm_error_refuted"
   ],
   "note": "measure is right with one device per process, its means with any number. Refuted: variance and error with several devices; the error reported by measure_povm is variance/sqrt(N), for correlators even with the variance of another quantity."
  },
  {
   "property": "C63",
   "status": "partial",
   "theorems": [
    "C63_first_call_partial",
    "C63_repeated_partial",
    "C63_second_call_refuted",
    "C63_two_nets_refuted",
    "C63_ring_rotation_refuted",
    "C63_three_dimensions_refuted"
   ],
   "note": "The first call with one network builds what is described; without activation functions any sequence of calls does. Refuted: a second call with the same description if activation functions are named, two networks, rotation on rings, three dimensions."
  },
  {
   "property": "C64",
   "status": "partial",
   "theorems": [
    "C64_selection_partial",
    "C64_collectives_partial",
    "C64_first_call_partial",
    "C64_changed_partial",
    "C64_mydevice_constant_refuted",
    "C64_mydevice_refuted",
    "C64_order_refuted",
    "C64_objects_refuted",
    "C64_empty_selection_refuted"
   ],
   "note": "Collective operations run on the selected devices up to order in every session, and on exactly the selected list if it changed as a multiset. Refuted: myDevice never changes, the order may be stale, objects built earlier keep their devices, an empty selection takes effect although it raises."
  },
  {
   "property": "C65",
   "status": "proved",
   "theorems": [
    "C65_character",
    "C65_generators",
    "C65_dropped_refuted"
   ],
   "note": "For inconsistent factors, outside the claim, the code silently drops one of them (witness: two sites, translation and reflection coincide)."
  },
  {
   "property": "C66",
   "status": "proved",
   "theorems": [
    "C66_character",
    "C66_count",
    "C66_symnet",
    "C66_unchecked_refuted"
   ],
   "note": "Both directions. Outside the claim: incompatible factors (momentum pi/2 together with quarter turns) are accepted silently (witness)."
  },
  {
   "property": "C67",
   "status": "partial",
   "theorems": [
    "C67_invariant_partial",
    "C67_spinflip_refuted",
    "C67_reshape"
   ],
   "note": "Proved for orbits without spin flips. With spin flips the matrices act on 0/1 occupations instead of spins, so the flipped configuration has another amplitude (witness)."
  },
  {
   "property": "C68",
   "status": "proved",
   "theorems": [
    "C68_recorded"
   ],
   "note": ""
  },
  {
   "property": "C69",
   "status": "proved",
   "theorems": [
    "C69_stored",
    "C69_dataset",
    "C69_dataset_root",
    "C69_final",
    "C69_twice",
    "C69_other_ranks"
   ],
   "note": ""
  },
  {
   "property": "C70",
   "status": "partial",
   "theorems": [
    "C70_expectation_partial",
    "C70_pauli_partial",
    "C70_convention_refuted"
   ],
   "note": "Holds for the operator that the strings evaluate (bra convention), and for the operator written down if it is a sum of products of Pauli matrices on different sites. Refuted for i S+ - i S-: the expectation value of the complex conjugate operator is returned. Needs elements that are zero or above 1e-6 and no rank without states."
  },
  {
   "property": "C71",
   "status": "proved",
   "theorems": [
    "C71_force",
    "C71_descent"
   ],
   "note": "Gradients handed to the statistics are assumed to be the log-derivatives (C36-C38); eigenvalue solver as in C52."
  },
  {
   "property": "C72",
   "status": "proved",
   "theorems": [
    "C72_conserved",
    "C72_residual"
   ],
   "note": "First order in the step; eigenvalue solver as in C52."
  },
  {
   "property": "C73",
   "status": "partial",
   "theorems": [
    "C73_two_networks",
    "C73_orbit",
    "C73_sampler_net_partial",
    "C73_symmetrised",
    "C73_markov_partial",
    "C73_complex_phase_refuted"
   ],
   "note": "True except for an unsymmetrised pair whose phase network is complex valued: there eval_real leaves out a part of Re log psi and the chain does not keep |psi|^2 (witness)."
  },
  {
   "property": "C74",
   "status": "partial",
   "theorems": [
    "C74_delegation",
    "C74_usable",
    "C74_refused",
    "C74_born_partial",
    "C74_symmetrised_partial",
    "C74_default_refuted",
    "C74_complex_phase_refuted",
    "C74_nested_refuted"
   ],
   "note": "Detection and delegation are proved for all nestings. The distribution is right without orbit, and with orbit for avgFun_Coefficients_Sep, if the phase network is real valued. Refuted: default averaging function, complex phase networks, a SymNet inside a pair."
  },
  {
   "property": "C75",
   "status": "partial",
   "theorems": [
    "C75_ffn_partial",
    "C75_no_function",
    "C75_extra_refuted",
    "C75_parity"
   ],
   "note": "True for at most layers+1 functions; with more, the output layer uses the very last one instead of its own (witness)."
  },
  {
   "property": "C76",
   "status": "partial",
   "theorems": [
    "C76_dtype_partial",
    "C76_two_digits",
    "C76_dtype_refuted",
    "C76_names",
    "C76_suffix",
    "C76_cplx_bound",
    "C76_cplx_rank",
    "C76_cplx_init_bound"
   ],
   "note": "Version numbers are compared as strings, so that 0.10 to 0.39 are taken for releases before 0.4.0 and creating parameters raises TypeError; true for one-digit minor numbers and for major numbers above zero. The interface of flax is part of the specification."
  },
  {
   "property": "C77",
   "status": "partial",
   "theorems": [
    "C77_relay_1d",
    "C77_relay_2d",
    "C77_vanilla_1d",
    "C77_vanilla_2d",
    "C77_defined_1d",
    "C77_defined_2d",
    "C77_gated",
    "C77_custom_2d_refuted",
    "C77_mismatch"
   ],
   "note": "flax cells enter as functions that keep shapes. Refuted: a custom cell with the documented signature in two dimensions is called with three arguments."
  },
  {
   "property": "C78",
   "status": "partial",
   "theorems": [
    "C78_scaled_2d_partial",
    "C78_scaled_1d_partial",
    "C78_input_1d_refuted",
    "C78_complex_refuted"
   ],
   "note": "True for real parameters, apart from the input layer of the one-dimensional network, which is made with the fixed scale 0.1. Complex parameters do not depend on initScale at all."
  },
  {
   "property": "C79",
   "status": "partial",
   "theorems": [
    "C79_estimator_gradient",
    "C79_energy_gradient_partial",
    "C79_no_parameters"
   ],
   "note": "The gradient of the estimator is proved in full. The expectation value inherits the limits of C10 (one device per process) and C40 (a holomorphic flag must be right)."
  },
  {
   "property": "C80",
   "status": "partial",
   "theorems": [
    "C80_wave_function_1d",
    "C80_wave_function_2d_partial",
    "C80_gru_2d_refuted",
    "C80_unknown_name",
    "C80_real_output"
   ],
   "note": "Proved for all named cells in one dimension and for RNN and LSTM in two; a two-dimensional GRU network with at least one layer raises TypeError. The flax cells enter as functions that keep shapes."
  },
  {
   "property": "C81",
   "status": "partial",
   "theorems": [
    "C81_exact_partial",
    "C81_markov_partial",
    "C81_gradient_partial",
    "C81_estimator_partial",
    "C81_plain_partial",
    "C81_exact_refuted",
    "C81_markov_refuted",
    "C81_gradient_refuted"
   ],
   "note": "Proved for logarithmic states. With logarithmic=False only the operators honour the flag (and only for the transformed configurations, see C16): both samplers draw from |exp(psi)| and gradients() returns the derivative of psi, not of ln psi; C81_plain_partial says exactly what is computed instead."
  },
  {
   "property": "C82",
   "status": "partial",
   "theorems": [
    "C82_new",
    "C82_report_partial",
    "C82_keeps",
    "C82_euler_partial",
    "C82_heun_partial",
    "C82_adaptive_partial",
    "C82_evolve_heun_partial",
    "C82_evolve_adaptive_partial",
    "C82_returns",
    "C82_evolve_returns",
    "C82_trajectory",
    "C82_minsr",
    "C82_metric",
    "C82_values_partial",
    "C82_set_cross_validation",
    "C82_S_refuted"
   ],
   "note": "Steps, trajectories, energies, residuals, SNR and spectrum as claimed. get_S and S_dot report the evaluation made last (end of the step), so the norm built from S_dot in the examples measures errors with the metric of the last attempted point; C82_S_refuted is a Heun step after which get_S is not the matrix of its start. Evaluations that return NaN end the model's run."
  },
  {
   "property": "C83",
   "status": "partial",
   "theorems": [
    "C83_spin_flip_partial",
    "C83_spin_flip_Z2_partial",
    "C83_spin_flip_iff",
    "C83_zeroMag",
    "C83_alternating",
    "C83_spin_flip_refuted"
   ],
   "note": "Proved without condition for the zero-magnetisation proposal. For single flips proved exactly when |psi|^mu is not constant (with the global flip also for constant |psi|^mu if the number of sites is odd). Refuted otherwise: with constant |psi|^mu and an even number of updates per sweep (default 10) all samples have the parity of the initial configuration; with the default arguments the estimate of the parity sign is 1 with certainty, its average is 0. Real-number arithmetic, ideal random numbers."
  },
  {
   "property": "C84",
   "status": "partial",
   "theorems": [
    "C84_estimate_partial",
    "C84_measure_partial",
    "C84_error_partial",
    "C84_wave_function_partial",
    "C84_multipleOf_refuted",
    "C84_devices_refuted",
    "C84_chain_refuted"
   ],
   "note": "Proved for multipleOf = 1: unbiased, mean square deviation Var/N on any number of processes and devices; reported error right with one device per process. Refuted: with multipleOf = 2 the estimates are half as large as they should be; with d devices per process the square of the reported error is d times too small (exact value proved, witness d = 2); with Markov chains measure can report mean 1, variance 0 and error 0 with certainty for an observable whose average is 0. Real-number arithmetic, ideal random numbers."
  },
  {
   "property": "C85",
   "status": "partial",
   "theorems": [
    "C85_direct_mean_partial",
    "C85_direct_rate_partial",
    "C85_spin_flip_partial",
    "C85_spin_flip_Z2_partial",
    "C85_zeroMag",
    "C85_chain_refuted",
    "C85_multipleOf_refuted"
   ],
   "note": "Proved: exact means and the 1/numSamples rate for direct samples with multipleOf = 1; convergence for Markov chains with single flips if |psi|^mu varies, with Z2 flips also for an odd number of sites, with zero magnetisation flips always. Refuted: for constant |psi| and default arguments the sampled S is zero with certainty where the exact one is 1; with multipleOf = 2 a constant gradient gets S = 1/8 instead of 0. Not covered: the solution of the equation (its inverse is discontinuous where S is singular), rates for Markov chains. Real-number arithmetic, ideal random numbers."
  },
  {
   "property": "C86",
   "status": "proved",
   "theorems": [
    "C86_lindblad",
    "C86_standard",
    "C86_observable",
    "C86_total"
   ],
   "note": "For operators whose dictionaries are not added to another operator afterwards (the case refuted in C24) and terms on one or two sites (the only ones for which the code builds the product POVM). Real-number arithmetic; the inverse of the overlap matrix is exact."
  },
  {
   "property": "C87",
   "status": "proved",
   "theorems": [
    "C87_state",
    "C87_local",
    "C87_bound",
    "C87_recorded",
    "C87_exact"
   ],
   "note": "Exact sampler that enumerates all outcomes (C34), matrix elements that are zero or larger than 1e-6 (the threshold of get_O_loc), real networks, operators whose dictionaries are not added to another operator afterwards (C24). C87_recorded is about the first stage of a step with right-hand-side prefactor -1 and a positive variance of the local values. Real-number arithmetic."
  },
  {
   "property": "C88",
   "status": "partial",
   "theorems": [
    "C88_holomorphic_partial",
    "C88_real_partial",
    "C88_real_refuted",
    "C88_nonholomorphic_refuted"
   ],
   "note": "False as stated (C88_real_refuted, C88_nonholomorphic_refuted); proved for holomorphic gradients and for real networks with real log-derivatives and local energies. Exact sampler that enumerates all configurations (C34), exact pseudo-inverse of the tangent kernel, Euler steps, matrix elements that are zero or larger than 1e-6. Real-number arithmetic."
  },
  {
   "property": "C89",
   "status": "proved",
   "theorems": [
    "C89_poly5",
    "C89_poly6",
    "C89_slope",
    "C89_parity",
    "C89_flip_cnn",
    "C89_flip_cpx",
    "C89_flip_needs_no_bias"
   ],
   "note": "Real-number arithmetic."
  },
  {
   "property": "C90",
   "status": "partial",
   "theorems": [
    "C90_direct",
    "C90_spin_flip_partial",
    "C90_spin_flip_Z2_partial",
    "C90_zeroMag",
    "C90_chain_refuted"
   ],
   "note": "Proved in full for directly drawn samples and for zero magnetisation; for spin flips the chains must be aperiodic (|psi| not constant, or an odd number of sites with Z2), otherwise false (C90_chain_refuted). Exact pseudo-inverse of the tangent kernel (pinvTol = 0), multipleOf = 1 for direct samples. Real-number arithmetic."
  },
  {
   "property": "C91",
   "status": "partial",
   "theorems": [
    "C91_evolve",
    "C91_tolerance_partial",
    "C91_tolerance_refuted"
   ],
   "note": "Proved: the loop ends, number of passes, overshoot, global error. The error of an accepted step is below the tolerance only up to the factor theta/(1-theta) when two half steps are better than one full step by theta (C91_tolerance_partial); in general it can be twice the tolerance, for every tolerance, with a smooth equation (C91_tolerance_refuted), contrary to the docstring. Real-number arithmetic."
  },
  {
   "property": "C92",
   "status": "partial",
   "theorems": [
    "C92_constructor",
    "C92_assignments",
    "C92_numbers",
    "C92_first_use",
    "C92_same_mu_partial",
    "C92_settings_partial",
    "C92_mu_refuted",
    "C92_net_refuted"
   ],
   "note": "Proved for all histories without assignments to mu and net (C92_settings_partial), and with them as long as no earlier call used the same combination of settings with another mu or net (C92_same_mu_partial). False in general: compiled functions keep mu of their first trace and the network of their first use, so the chains follow the old ones while the weights use the new ones (C92_mu_refuted, C92_net_refuted); C92_first_use says exactly which are used. Networks without direct sampling, one process with one device."
  },
  {
   "property": "C93",
   "status": "partial",
   "theorems": [
    "C93_cnn",
    "C93_cpx_partial",
    "C93_cpx_refuted"
   ],
   "note": "Proved in full for CNN, as an equivalence with an independent description of the layers. CpxCNN evaluates centred filters with zeros around (C93_cpx_partial); with periodicBoundary the array is continued periodically, then surrounded by zeros, and grows from layer to layer, so the layers are not periodic convolutions (C93_cpx_refuted). channels and actFun must not be empty (IndexError otherwise), sizes at least one."
  },
  {
   "property": "C94",
   "status": "proved",
   "theorems": [
    "C94_recorded",
    "C94_zero",
    "C94_follows"
   ],
   "note": "Exact sampler with complete enumeration and no rank without states (C34 says when), logarithmic wave function on a chain, matrix elements of the Hamiltonian zero or above 1e-6 (C16), positive energy variance (the recorded error is NaN otherwise). H and the observables are the operators the strings act as, which are the ones written down unless ladder operators occur (C12, C70). C94_follows: with makeReal = 'imag' the tangent space must be complex."
  },
  {
   "property": "C95",
   "status": "proved",
   "theorems": [
    "C95_distance",
    "C95_observables"
   ],
   "note": "Same setting as C94. The exact motion along the curve is assumed (continuous time); errors of the integrator are the subject of C50, C51 and C91. The integral appears as a primitive of any bound of the recorded quantity."
  },
  {
   "property": "C96",
   "status": "proved",
   "theorems": [
    "C96_spectrum",
    "C96_bounds",
    "C96_deviation",
    "C96_ground",
    "C96_search"
   ],
   "note": "Exact sampler with complete enumeration and no rank without states (C34 says when), logarithmic wave function on a chain, matrix elements of the Hamiltonian zero or above 1e-6 (C16). H is the operator the strings act as, the one written down unless ladder operators occur (C12, C70). C96_search: TDVP calls whose update is finite; measure leaves the equation object alone; that energy and variance are those before the last step is the finding C61_stale_variance_refuted."
  },
  {
   "property": "C97",
   "status": "proved",
   "theorems": [
    "C97_rate",
    "C97_decay",
    "C97_converges"
   ],
   "note": "Exact sampler with complete enumeration and no rank without states (C34 says when), logarithmic wave function on a chain, matrix elements of the Hamiltonian zero or above 1e-6 (C16). Continuous time: the curve has the returned velocity at each time (how far the steppers deviate from such a curve: C49 and C91). H is the operator the strings act as, the one written down unless ladder operators occur (C12, C70). C97_case is an infinite trajectory the object itself produces, with the regularisation that the loop reaches in one pass (pinvTol = 1/2)."
  },
  {
   "property": "C98",
   "status": "proved",
   "theorems": [
    "C98_distance",
    "C98_growth",
    "C98_observables"
   ],
   "note": "Setting of C87: SIC measurement, exact sampler that enumerates all outcomes (C34), matrix elements zero or above 1e-6, operators whose dictionaries are not added to another operator afterwards (C24). The local values have a positive variance along the trajectory (the code divides by it). Continuous time: the curve has the returned velocity at each time; errors of the integrators are the subject of C50, C51 and C91. C98_case is a dephasing spin with L = 0 whose trajectory the object itself produces and follows the exact solution up to (1 - damping) T."
  },
  {
   "property": "C99",
   "status": "partial",
   "theorems": [
    "C99_once_partial",
    "C99_newest_partial",
    "C99_evaluation",
    "C99_gather_refuted",
    "C99_local_refuted",
    "C99_earlier_refuted"
   ],
   "note": "Proved for the time within the reductions (Allreduce), together with the sum over the devices of the process that global_sum starts with. Refuted as stated: gathers (MinSR.solve) and broadcasts are never counted; the sum over the devices, which is no communication, is counted; what an evaluation does after its report (variance of the local energies in MinSR, cross validation in TDVP) is attributed to the next evaluation, whose record can exceed its duration. Durations are real numbers, exceptions inside a reduction are not modelled."
  }
 ]
}
