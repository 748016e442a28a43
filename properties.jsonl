{"id": "C01", "title": "Sample quotas add up over all MPI ranks", "statement": "When every rank calls distribute_sampling with the same arguments, all ranks report the same global number of samples, this number is exactly the sum over ranks of (returned samples per chain x chains on that rank), it is at least the number requested, and it exceeds it by less than (number of ranks x chains per rank). Without localDevices the returned per-rank counts sum to exactly the requested number and differ by at most one between ranks.", "quantifier": "all requested sample numbers, all communicator sizes >= 1, all device counts and chains per device >= 1, all ranks", "why_tests_cant": "Tests run with one rank and a handful of sample numbers; the remainder arithmetic depends on every combination of n mod ranks, devices and chains.", "anchors": ["jVMC/mpi_wrapper.py: distribute_sampling"]}
{"id": "C02", "title": "Ranks own contiguous, disjoint, exhaustive index ranges", "statement": "After distribute_sampling(n) without localDevices, the ranges [first_sample_id(), first_sample_id()+count) of the ranks are disjoint, in rank order, and together are exactly 0..n-1.", "quantifier": "all n >= 0, all communicator sizes >= 1, all indices", "why_tests_cant": "Needs all ranks at once and all remainders; the test-suite runs in one process.", "anchors": ["jVMC/mpi_wrapper.py: first_sample_id, distribute_sampling"]}
{"id": "C03", "title": "Global sums and means do not depend on how the data is laid out", "statement": "global_sum returns the sum over all data of all ranks, devices and batch entries and global_mean the weighted sum of p*x; both depend only on the multiset of (weight, value) pairs, not on how they are split over ranks, devices and batch, and every rank gets the same value.", "quantifier": "all data sets, all weights, all partitions into ranks x devices x batch", "why_tests_cant": "Equality for all splittings is a statement about infinitely many layouts, most of which need several processes and devices.", "anchors": ["jVMC/mpi_wrapper.py: global_sum, global_mean, mean_helper"]}
{"id": "C04", "title": "global_variance is the weighted variance of all the data", "statement": "global_variance(data, p) equals sum p |x - mean|^2 over all ranks, devices and batch entries.", "quantifier": "all data, weights and partitions into ranks x devices x batch", "why_tests_cant": "With a single device per process the tests pass; the claim is about every device count.", "anchors": ["jVMC/mpi_wrapper.py: global_variance, _sum_sq_pmapd"]}
{"id": "C05", "title": "global_covariance is the documented covariance matrix", "statement": "global_covariance(data, p) equals <X X^dagger> - <X><X^dagger> taken over the weighted data, as documented.", "quantifier": "all data sets (including those with non-zero mean), weights and layouts", "why_tests_cant": "No finite set of data sets settles an identity of matrices for all data; zero-mean samples hide the missing term.", "anchors": ["jVMC/mpi_wrapper.py: global_covariance, _cov_helper"]}
{"id": "C06", "title": "Collectives deliver the same data to all ranks and never leave ranks waiting", "statement": "bcast_unknown_size gives every rank a copy of the root's array; gather returns on every rank the concatenation, in rank order, of all ranks' data flattened over devices and batch; either every rank completes the call or every rank raises.", "quantifier": "all arrays and element types on the root, all communicator sizes, all roots", "why_tests_cant": "Deadlock freedom is a property of all interleavings of several processes.", "anchors": ["jVMC/mpi_wrapper.py: bcast_unknown_size, gather"]}
{"id": "C07", "title": "SampledObs statistics are the weighted statistics of the data", "statement": "For non-negative weights that sum to one, SampledObs(data,w).mean() is sum w x, covar(other) is <conj(A) B> - conj(<A>)<B>, var() is the diagonal of covar() and is non-negative, and covar() is Hermitian and positive semi-definite; none of them depends on the splitting over ranks and devices.", "quantifier": "all data, all weights, all numbers of observables, all layouts", "why_tests_cant": "An algebraic identity (and positivity) over all complex data cannot be settled by sampling data sets.", "anchors": ["jVMC/stats.py: SampledObs.__init__, mean, covar, var"]}
{"id": "C08", "title": "covar_data and covar_var describe the covariance estimator itself", "statement": "For strictly positive weights, covar_data(other).mean() equals covar(other) and covar_data(other).var() equals covar_var(other), which is the weighted variance of conj(A-<A>)(B-<B>).", "quantifier": "all data, all positive weights, all layouts", "why_tests_cant": "The identity has to hold for all weights; uniform weights hide wrong powers of w.", "anchors": ["jVMC/stats.py: SampledObs.covar_data, covar_var"]}
{"id": "C09", "title": "subset, select and transform equal rebuilding the object from the transformed samples", "statement": "subset(start,end,step) has the same mean, centred data and weights as a SampledObs built from the per-device slices with weights renormalised to one; select(ixs) equals the SampledObs built from the selected components; transform(f, linearFun) equals the SampledObs built from linearFun applied to f of every sample.", "quantifier": "all data, weights, slices, index lists, functions", "why_tests_cant": "The stored data is pre-centred and pre-weighted, so equality relies on algebra with arbitrary weights and means that tests sample at only a few points.", "anchors": ["jVMC/stats.py: SampledObs.subset, select, transform"]}
{"id": "C10", "title": "mean_and_grad returns the exact derivative of the expectation value", "statement": "When the samples are the full basis with the Born weights of the wave function, the gradient returned by mean_and_grad is the derivative of the expectation value with respect to each parameter, including the contribution of the parameter dependence of the estimator.", "quantifier": "all differentiable wave functions and estimators, all parameters, all numbers of devices", "why_tests_cant": "Finite differences at a few points only approximate the derivative of a few networks.", "anchors": ["jVMC/stats.py: SampledObs.mean_and_grad"]}
{"id": "C11", "title": "A branch-free operator acts as the sum of its operator strings", "statement": "For every operator assembled from strings of local operators with prefactors, the list of (s', matrix element) produced for a configuration s represents the action of the sum over strings of prefactor x product of the local operators (rightmost first): for every function f on configurations, sum_k matEl_k f(s'_k) equals the corresponding sum over strings; shorter strings padded with identities and merged diagonal strings do not change it.", "quantifier": "all local dimensions, all operator strings (any length, repeated sites), prefactors, configurations and functions f", "why_tests_cant": "Infinitely many operators; merged diagonal terms and padding interact in ways a few Hamiltonians do not exercise.", "anchors": ["jVMC/operator/branch_free.py: BranchFreeOperator.compile, _get_s_primes"]}
{"id": "C12", "title": "Returned matrix elements follow the documented convention <s|O|s'>", "statement": "The matrix element returned for (s, s') is <s|O|s'>, where products of local operators are operator products in the written order.", "quantifier": "all operators built from the predefined local operators, all s, s'", "why_tests_cant": "For symmetric operators the two conventions agree, so only exhaustive reasoning about all operators separates them.", "anchors": ["jVMC/operator/branch_free.py: Sx, Sy, Sz, Sp, Sm, creation, annihilation, BranchFreeOperator._get_s_primes", "jVMC/operator/base.py: get_s_primes"]}
{"id": "C13", "title": "Predefined spin operators satisfy the spin algebra", "statement": "The predefined operators satisfy Sx^2=Sy^2=Sz^2=1, Sx Sy = i Sz (and cyclic), operators on different sites commute, Sp = (Sx + i Sy)/2 and Sm = (Sx - i Sy)/2 on every configuration and site.", "quantifier": "all system sizes, all sites, all configurations", "why_tests_cant": "Products on the same site and ladder/Pauli relations over all configurations are algebraic identities.", "anchors": ["jVMC/operator/branch_free.py: Sx, Sy, Sz, Sp, Sm"]}
{"id": "C14", "title": "Fermionic operators satisfy the canonical anticommutation relations", "statement": "On every occupation configuration the strings built from creation and annihilation satisfy c_i c_j^dagger + c_j^dagger c_i = delta_ij, c_i c_j + c_j c_i = 0 and c_i^dagger c_j^dagger + c_j^dagger c_i^dagger = 0, and number(i) equals c_i^dagger c_i.", "quantifier": "all numbers of sites, all pairs of sites, all configurations", "why_tests_cant": "The sign depends on the occupation of all other sites; tests check two sites.", "anchors": ["jVMC/operator/branch_free.py: creation, annihilation, number, BranchFreeOperator._get_s_primes"]}
{"id": "C15", "title": "Dropping zero matrix elements does not change the local estimator", "statement": "The compaction of get_s_primes (keeping only non-zero elements, truncating to the largest count in the batch, padding) does not change sum_{s'} O_{s,s'} f(s') for any sample of the batch.", "quantifier": "all matrix-element arrays, all batches, all functions f", "why_tests_cant": "Depends on the position and number of zeros for every sample of a batch simultaneously, and on tiny but non-zero elements.", "anchors": ["jVMC/operator/base.py: Operator._find_nonzero, set_zero_to_zero, get_s_primes, _get_O_loc"]}
{"id": "C16", "title": "Batched and unbatched local estimators agree", "statement": "get_O_loc gives the same O_loc(s) = sum_s' O_{s,s'} psi(s')/psi(s) for every sample whatever ElocBatchSize is, whether or not logPsiS is passed, and for logarithmic and plain wave functions.", "quantifier": "all batch sizes >= 1, all sample numbers, all operators and wave functions", "why_tests_cant": "The re-batching arithmetic and the remainder batch have different code paths for every (samples, batch size) pair.", "anchors": ["jVMC/operator/base.py: get_O_loc, get_O_loc_batched, get_O_loc_unbatched"]}
{"id": "C17", "title": "Operators never serve stale compiled data", "statement": "After any sequence of add and evaluation calls, with any numbers of arguments, an evaluation uses exactly the strings added so far and the prefactor values at the given arguments, as a freshly built operator would.", "quantifier": "all histories of add / get_s_primes / get_O_loc calls and arguments", "why_tests_cant": "Caching bugs show up only for particular call histories.", "anchors": ["jVMC/operator/base.py: get_s_primes", "jVMC/operator/branch_free.py: add, __iadd__, compile, arg_fun"]}
{"id": "C18", "title": "Operator-string arithmetic multiplies prefactors and keeps operator order", "statement": "Any expression built with * from scalars, functions, local operators and operator strings evaluates to an operator string whose prefactor is the product of all the scalar factors (evaluated at the given arguments) and whose local operators appear in the written order.", "quantifier": "all expressions, all argument lists (in particular a time argument, which the TDVP equation always passes)", "why_tests_cant": "The nesting of prefactors is unbounded and errors only show up when arguments are supplied.", "anchors": ["jVMC/operator/branch_free.py: OpStr.__new__, __mul__, __rmul__, scal_opstr, LocalOp.__mul__, __rmul__, _prod_fun, _id_prefactor"]}
{"id": "C19", "title": "Parallel prefactor evaluation equals serial evaluation", "statement": "On any number of MPI ranks the vector of prefactors used on each rank equals the one a serial evaluation gives: f_o(*args) for strings with a prefactor and 1 otherwise.", "quantifier": "all operator lists, all positions of the prefactored strings, all communicator sizes", "why_tests_cant": "The parallel branch is entered only with at least 50 prefactors and several ranks.", "anchors": ["jVMC/operator/branch_free.py: BranchFreeOperator.compile (arg_fun)"]}
{"id": "C20", "title": "Branch-free operators accept configurations of any shape", "statement": "For every sample shape (d1,...,dk) the operator acts on the flattened configuration and returns configurations of the same shape.", "quantifier": "all sample shapes, all operators", "why_tests_cant": "Shape handling must hold for every lattice dimension and extent.", "anchors": ["jVMC/operator/branch_free.py: BranchFreeOperator._get_s_primes"]}
{"id": "C21", "title": "The single-site POVM is valid for every orientation", "statement": "For all angles theta and phi the four POVM elements are positive semi-definite, sum to the identity, and form a basis of the 2x2 matrices (so the overlap matrix is invertible and every density matrix is determined by its outcome probabilities); theta and phi are the angles of the first element on the Bloch sphere.", "quantifier": "all real theta, phi", "why_tests_cant": "A continuum of parameters.", "anchors": ["jVMC/operator/povm.py: get_M, POVM.__init__"]}
{"id": "C22", "title": "POVM observables reproduce quantum expectation values", "statement": "For every Hermitian matrix A and every state rho with outcome probabilities P^a = tr(rho M^a), sum_a P^a O^a equals tr(rho A) where O = matrix_to_povm(A, mode='observable') (for other matrices its real part); the predefined X, Y and Z observables are the Pauli matrices for every orientation of the POVM.", "quantifier": "all dimensions, all A, all rho in the span of the POVM elements", "why_tests_cant": "An identity over all matrices.", "anchors": ["jVMC/operator/povm.py: matrix_to_povm, get_observables"]}
{"id": "C23", "title": "POVM time evolution operators implement the Lindblad equation and conserve probability", "statement": "For every rho, sum_b Omega^{ab} P^b equals tr(M^a L[rho]) with L[rho] = -i[A,rho] (mode 'unitary') or A rho A^dagger - {A^dagger A, rho}/2 (mode 'dissipative'); in both modes each column of Omega sums to zero. With A Hermitian, mode 'imaginary' gives -{A,rho}. The predefined operators X, Y, Z, XX, YY, ZZ, decayup, decaydown and dephasing are those of the corresponding matrices.", "quantifier": "all dimensions, all A, all rho in the span, all informationally complete POVMs", "why_tests_cant": "An identity over all matrices and POVMs.", "anchors": ["jVMC/operator/povm.py: matrix_to_povm, get_unitaries, get_dissipators"]}
{"id": "C24", "title": "A compiled POVM operator counts every added term exactly once", "statement": "For any list of added terms with distinct sites, compile terminates and for every configuration a and function f the connected configurations and matrix elements represent sum over terms of strength x (term matrix on its sites, identity elsewhere).", "quantifier": "all lists of terms of any interaction range and order, all configurations, all functions, all iteration orders of Python sets, all histories of sharing term dictionaries between operators", "why_tests_cant": "Terms are regrouped by common site prefixes; correctness depends on all combinations and on the iteration order of sets.", "anchors": ["jVMC/operator/povm.py: POVMOperator.add, compile, _get_s_primes"]}
{"id": "C25", "title": "POVM operator names are unique and never overwritten", "statement": "In any sequence of add_unitary / add_dissipator / add_imaginary calls, a name that is already taken raises and changes nothing, and every registered name keeps the matrix it was registered with and appears in operators.", "quantifier": "all sequences of registrations", "why_tests_cant": "Histories are unbounded.", "anchors": ["jVMC/operator/povm.py: POVM.add_unitary, add_dissipator, add_imaginary, _check_name_availabilty, _update_operators"]}
{"id": "C26", "title": "Predefined one-particle POVM distributions are probability distributions", "statement": "For every valid name and every POVM the entries returned by get_1_particle_distributions are non-negative and sum to one and equal <s|M^a|s>.", "quantifier": "all names, all POVMs with positive elements summing to one", "why_tests_cant": "A continuum of POVMs.", "anchors": ["jVMC/operator/povm.py: get_1_particle_distributions"]}
{"id": "C27", "title": "Metropolis sampling leaves the target distribution invariant", "statement": "For every wave function, every mu and each predefined spin-flip proposal, one update step satisfies detailed balance with respect to |psi|^mu, and therefore any number of sweeps leaves this distribution invariant.", "quantifier": "all networks, mu, system sizes, numbers of steps", "why_tests_cant": "Stationarity of a Markov kernel is a statement about all states and transition probabilities; sampling tests have statistical error and finite size.", "anchors": ["jVMC/sampler.py: MCSampler._sweep, propose_spin_flip, propose_spin_flip_Z2"]}
{"id": "C28", "title": "The POVM proposal produces valid outcomes and is symmetric", "statement": "propose_POVM_outcome maps configurations with entries in {0,1,2,3} to configurations with entries in {0,1,2,3} for every random draw, and proposes s'->s with the same probability as s->s'.", "quantifier": "all configurations and random draws", "why_tests_cant": "Needs all draws for all configurations and chains of updates.", "anchors": ["jVMC/sampler.py: propose_POVM_outcome"]}
{"id": "C29", "title": "The zero-magnetisation proposal conserves magnetisation and is symmetric", "statement": "Starting from a configuration with as many ones as zeros, propose_spin_flip_zeroMag always returns such a configuration, for all draws, and the proposal probabilities are symmetric; all samples of a sampler using it have zero magnetisation.", "quantifier": "all even system sizes, configurations, draws, numbers of steps, initial states (including the default one)", "why_tests_cant": "Must hold for all histories of a Markov chain.", "anchors": ["jVMC/sampler.py: propose_spin_flip_zeroMag, MCSampler.__init__"]}
{"id": "C30", "title": "sample() returns the promised number of samples with weights that sum to one", "statement": "MCSampler.sample(numSamples, multipleOf) returns over all ranks and devices at least numSamples configurations, a number divisible by multipleOf, equal to get_last_number_of_samples(), and the returned weights sum to one.", "quantifier": "all numSamples, multipleOf, numChains, device counts, communicator sizes, Markov-chain and autoregressive samplers", "why_tests_cant": "The number depends on several roundings with all arguments and on all ranks.", "anchors": ["jVMC/sampler.py: MCSampler.sample, _get_samples_gen, _get_samples_mcmc, get_last_number_of_samples", "jVMC/mpi_wrapper.py: distribute_sampling"]}
{"id": "C31", "title": "Importance weights turn samples of |psi|^mu into Born averages", "statement": "For every mu, weighting configurations drawn from |psi|^mu with the weights of sample() and normalising gives exactly the average with respect to |psi|^(1/logProbFactor); weights are positive and equal when mu = 1/logProbFactor.", "quantifier": "all wave functions, mu, logProbFactor > 0, observables", "why_tests_cant": "An identity over all wave functions.", "anchors": ["jVMC/sampler.py: MCSampler.sample"]}
{"id": "C32", "title": "Markov-chain bookkeeping is consistent", "statement": "After any number of updates the log-probability carried by every chain is mu times the real part of the log-amplitude of its current configuration; every chain's configuration changes only to the proposed configuration; numbers of proposed moves equal chains x steps and accepted moves never exceed proposed ones, so the acceptance ratio lies in [0,1].", "quantifier": "all networks, proposals, chain numbers, step numbers, random draws", "why_tests_cant": "An invariant over unbounded executions and all random draws.", "anchors": ["jVMC/sampler.py: MCSampler._sweep, _get_samples, _mc_init, acceptance_ratio"]}
{"id": "C33", "title": "Random keys are never reused", "statement": "Across all ranks, devices, chains, steps and successive calls of sample(), no random key is consumed twice; in particular different ranks draw from different streams, also after set_random_key.", "quantifier": "all numbers of ranks, devices, chains, sweeps, steps, calls", "why_tests_cant": "Key reuse does not fail a test, it silently correlates samples.", "anchors": ["jVMC/sampler.py: MCSampler.__init__, set_random_key, _get_samples_mcmc, _get_samples, _sweep"]}
{"id": "C34", "title": "ExactSampler enumerates every basis state exactly once", "statement": "Over all ranks and devices the configurations that are not masked out are exactly all lDim^N basis configurations, each once.", "quantifier": "all N, lDim, numbers of ranks and devices", "why_tests_cant": "The distribution involves roundings per rank and per device; tests use one rank and power-of-two sizes.", "anchors": ["jVMC/sampler.py: ExactSampler.get_basis, _get_basis_ldim2, _get_basis, _compute_probabilities"]}
{"id": "C35", "title": "ExactSampler probabilities are the normalised Born probabilities after any history", "statement": "After any sequence of earlier sample calls with any parameters, the returned probabilities are |psi(s)|^(1/logProbFactor) divided by their sum, masked entries have probability zero, and they sum to one.", "quantifier": "all histories of sample calls, all wave functions", "why_tests_cant": "The internal running normalisation makes results history dependent a priori.", "anchors": ["jVMC/sampler.py: ExactSampler._compute_probabilities, _normalize, sample"]}
{"id": "C36", "title": "Sampling with given parameters leaves the network's parameters untouched", "statement": "A call of sample(parameters=...) draws with the given parameters and when it returns or raises the network holds the parameters it had before.", "quantifier": "all samplers, parameters, and points of failure inside the call", "why_tests_cant": "Needs every crash point.", "anchors": ["jVMC/sampler.py: MCSampler.sample, _get_samples_mcmc, ExactSampler.sample", "jVMC/vqs.py: set_parameters, get_parameters"]}
{"id": "C37", "title": "Symmetrised autoregressive sampling draws from the symmetrised Born distribution", "statement": "For an autoregressive network wrapped in SymNet with probability averaging, the distribution of a direct sample followed by a random symmetry operation is exactly |Psi_sym|^(1/logProbFactor), which is normalised.", "quantifier": "all networks with normalised output, all symmetry orbits closed under inverses, all logProbFactor", "why_tests_cant": "Equality of distributions for all networks.", "anchors": ["jVMC/sampler.py: MCSampler._randomize_samples, _get_samples_gen", "jVMC/nets/sym_wrapper.py: avgFun_Coefficients_Sep"]}
{"id": "C38", "title": "Batched network evaluation equals evaluation sample by sample", "statement": "Evaluating the wave function or its gradients on a batch gives for each configuration the value of the network on this configuration, in order, for every batch size.", "quantifier": "all batch sizes >= 1, all numbers of samples, all networks", "why_tests_cant": "Padding and reshaping depend on all (samples, batch size) pairs.", "anchors": ["jVMC/vqs.py: create_batches, eval_batched, NQS._eval, _get_gradients"]}
{"id": "C39", "title": "Parameters round-trip through the flat parameter vector", "statement": "get_parameters() after set_parameters(P) returns P, set_parameters(get_parameters()) changes nothing, update_parameters(d) adds d to the flat vector, for real and complex networks; a vector of wrong length is rejected; on a network that was not initialised, update_parameters sets the parameters as documented.", "quantifier": "all parameter trees, all vectors", "why_tests_cant": "All tree shapes and vectors, wrong lengths, uninitialised networks.", "anchors": ["jVMC/vqs.py: NQS.set_parameters, get_parameters, update_parameters, _param_unflatten, init_net"]}
{"id": "C40", "title": "Gradients are the derivatives with respect to the entries of the flat parameter vector", "statement": "The k-th component returned by gradients() is the derivative of log psi with respect to the k-th entry of get_parameters(), for real networks, holomorphic and non-holomorphic complex networks.", "quantifier": "all parameter trees and all differentiable networks, all k", "why_tests_cant": "Finite-difference tests check a few networks approximately.", "anchors": ["jVMC/vqs.py: flat_gradient, flat_gradient_real, flat_gradient_holo, flat_gradient_cpx_nonholo, NQS.gradients, _param_unflatten"]}
{"id": "C41", "title": "gradients_dict and grad_dict_to_vec_map agree with gradients", "statement": "For every leaf, gradients(s) restricted to the indices grad_dict_to_vec_map gives for this leaf equals gradients_dict(s) of this leaf; the index sets of the leaves partition all indices.", "quantifier": "all parameter trees, real and holomorphic networks", "why_tests_cant": "All tree shapes.", "anchors": ["jVMC/vqs.py: NQS.gradients_dict, grad_dict_to_vec_map, dict_gradient_real"]}
{"id": "C42", "title": "1D orbits are symmetry groups", "statement": "For every L and every selection of symmetries get_orbit_1D returns pairwise different (signed) permutation matrices that contain the identity and are closed under products and inverses, with the expected number of elements.", "quantifier": "all L >= 1, all subsets of symmetries", "why_tests_cant": "Group axioms for all L.", "anchors": ["jVMC/util/symmetries.py: get_orbit_1D, get_maps_1D, get_orbits_from_maps_1D"]}
{"id": "C43", "title": "2D orbits are symmetry groups", "statement": "For every L and every selection of symmetries get_orbit_2D_square returns (signed) permutation matrices that contain the identity and are closed under products and inverses.", "quantifier": "all L >= 1, all subsets of symmetries", "why_tests_cant": "Group axioms for all L and all 16 selections.", "anchors": ["jVMC/util/symmetries.py: get_orbit_2D_square, get_maps_2D, get_orbits_from_maps_2D"]}
{"id": "C44", "title": "SymNet amplitudes transform with the symmetry factors", "statement": "For an orbit that is a group and factors that are a character chi of it, exp(logPsi) of SymNet with exponential averaging satisfies Psi(g s) = chi(g)^-1 Psi(s) for all g and s; for trivial factors the wave function is invariant, for all three averaging functions; and it equals the average over the orbit of the network's amplitudes as documented.", "quantifier": "all networks, groups, characters, configurations", "why_tests_cant": "All networks and groups.", "anchors": ["jVMC/nets/sym_wrapper.py: SymNet, avgFun_Coefficients_Exp, avgFun_Coefficients_Log, avgFun_Coefficients_Sep", "jVMC/util/symmetries.py: LatticeSymmetry"]}
{"id": "C45", "title": "1D autoregressive networks are normalised and sample their own distribution", "statement": "For every cell function, sum over all configurations of exp(Re logPsi/logProbFactor) is one, and the probability with which sample() produces s is exactly exp(Re logPsi(s)/logProbFactor). The factor of a site depends on that site and the sites before it only.", "quantifier": "all L, inputDim, cells, parameters (real or complex)", "why_tests_cant": "All networks and all system sizes.", "anchors": ["jVMC/nets/rnn1d_general.py: RNN1DGeneral.__call__, rnn_cell, sample, log_coeffs_to_log_probs"]}
{"id": "C46", "title": "2D autoregressive networks are normalised and sample their own distribution", "statement": "The same for the two-dimensional network; the factor of a site depends only on the sites visited so far by the zig-zag path (even rows from left to right, odd rows from right to left).", "quantifier": "all L, inputDim, cells, parameters", "why_tests_cant": "All networks and all system sizes; evaluation and sampling are separate implementations.", "anchors": ["jVMC/nets/rnn2d_general.py: RNN2DGeneral.__call__, sample, rnn_cell_V, rnn_cell_V_sample, reverse_line"]}
{"id": "C47", "title": "Convolutional networks with periodic boundary are translation invariant", "statement": "For stride one and periodic boundary the output of CNN and CpxCNN is unchanged when the input configuration is translated.", "quantifier": "all sizes, filter diameters, channels, parameters, activation functions", "why_tests_cant": "All parameters and translations.", "anchors": ["jVMC/nets/cnn.py: CNN, CpxCNN"]}
{"id": "C48", "title": "RBM amplitudes are products of hyperbolic cosines and spin-flip symmetric without bias", "statement": "exp(log_cosh(x)) = cosh(x) for every complex x, CpxRBM amplitudes equal prod_j cosh(w_j.(2s-1)+b_j), and without bias the amplitude is unchanged when all spins are flipped.", "quantifier": "all weights, biases, configurations", "why_tests_cant": "Identity over all complex arguments including branch cuts.", "anchors": ["jVMC/nets/activation_functions.py: log_cosh", "jVMC/nets/rbm.py: CpxRBM, RBM"]}
{"id": "C49", "title": "The fixed-step integrators have the advertised order", "statement": "One Euler step has local error O(dt^2) and one Heun step O(dt^3) for every sufficiently smooth ODE.", "quantifier": "all smooth right-hand sides (Lipschitz in y), all dt > 0", "why_tests_cant": "Order is an asymptotic statement for all ODEs.", "anchors": ["jVMC/util/stepper.py: Euler.step, Heun.step"]}
{"id": "C50", "title": "The adaptive integrator returns an accepted step and proposes a bounded next step", "statement": "AdaptiveHeun.step returns the result of two Heun half steps of the returned size from the unchanged initial state, the estimated error is at most the tolerance, the size of the step taken never exceeds maxStep and the next step is between 0.2 and 2 times the taken one.", "quantifier": "all right-hand sides, norms, tolerances, step sizes, histories", "why_tests_cant": "Depends on the history of rejected steps.", "anchors": ["jVMC/util/stepper.py: AdaptiveHeun.step"]}
{"id": "C51", "title": "The adaptive integrator terminates", "statement": "The rejection loop terminates whenever the error estimate is bounded by C*dt for small dt and tol > 0, with an explicit bound on the number of rejections.", "quantifier": "all right-hand sides satisfying the bound", "why_tests_cant": "Termination for all inputs.", "anchors": ["jVMC/util/stepper.py: AdaptiveHeun.step"]}
{"id": "C52", "title": "The TDVP/SR update solves the regularised equation and never increases the energy to first order", "statement": "For F other than zero the reported residual is ||S x - F||/||F|| for the computed x, it is at most one, and for the real part of the equation (S positive semi-definite) the overlap of the update with F is non-negative. For F = 0 the update vanishes.", "quantifier": "all Hermitian positive semi-definite S, all F, all regularisation settings and signal-to-noise ratios", "why_tests_cant": "All matrices and settings.", "anchors": ["jVMC/util/tdvp.py: TDVP.solve, get_tdvp_equation"]}
{"id": "C53", "title": "The regularisation loop of the TDVP solver terminates with a result", "statement": "For all settings of pinvTol and pinvCutoff the solver's cut-off search terminates and produces an update.", "quantifier": "all pinvTol, pinvCutoff, spectra", "why_tests_cant": "Termination for all settings.", "anchors": ["jVMC/util/tdvp.py: TDVP.solve"]}
{"id": "C54", "title": "Evaluating the TDVP equation has no side effects on the wave function and cross validation does not change the result", "statement": "After TDVP.__call__ the wave function holds the parameters it had before (also if the call raises), and the returned update and stored equation are the same with and without crossValidation.", "quantifier": "all wave functions, samplers, settings, points of failure", "why_tests_cant": "All crash points and settings.", "anchors": ["jVMC/util/tdvp.py: TDVP.__call__"]}
{"id": "C55", "title": "MinSR returns the minimum-norm solution of the same least-squares problem", "statement": "Given a pseudo-inverse of the tangent kernel, the MinSR update x satisfies the normal equations O^dagger O x = -O^dagger e, and no other solution has a smaller norm.", "quantifier": "all centred gradient matrices and local energies, all numbers of samples and parameters", "why_tests_cant": "All matrices.", "anchors": ["jVMC/util/minsr.py: MinSR.solve", "jVMC/stats.py: SampledObs.tangent_kernel"]}
{"id": "C56", "title": "The signal-to-noise ratio depends only on the equation's own samples", "statement": "The signal-to-noise ratio stored by a TDVP object depends only on its gradients, local energies and the number of samples of its own sampler, not on what other samplers did before.", "quantifier": "all histories of sampler constructions and calls", "why_tests_cant": "History dependence through a module-level variable.", "anchors": ["jVMC/util/tdvp.py: TDVP._get_snr", "jVMC/mpi_wrapper.py: globNumSamples, distribute_sampling"]}
{"id": "C57", "title": "Observable records are append-only and aligned with their times", "statement": "After any sequence of write_observables calls to a group, the k-th entry of every stored observable is the value passed in the k-th call, next to the k-th time; earlier entries never change, also when a later call fails part-way.", "quantifier": "all histories of writes, all sets of observables per call, all failing writes", "why_tests_cant": "Histories and failure points are unbounded.", "anchors": ["jVMC/util/output_manager.py: OutputManager.write_observables"]}
{"id": "C58", "title": "Checkpoints are retrieved as written", "statement": "get_network_checkpoint() returns the last written (time, weights), with idx=i the i-th, with time=t one whose time is nearest to t; every rank gets the same result and all ranks perform the same collective calls.", "quantifier": "all histories of checkpoints, all queries, all communicator sizes", "why_tests_cant": "Histories are unbounded.", "anchors": ["jVMC/util/output_manager.py: write_network_checkpoint, get_network_checkpoint"]}
{"id": "C59", "title": "set_group redirects subsequent output", "statement": "After set_group(g) everything written goes to group g, and nothing written earlier is lost unless the file was opened without append.", "quantifier": "all histories of set_group and write calls", "why_tests_cant": "History dependent.", "anchors": ["jVMC/util/output_manager.py: OutputManager.set_group, write_observables, write_metadata"]}
{"id": "C60", "title": "Timings add up", "statement": "After any sequence of start/stop/add timing calls the recorded total of a name is the sum of its elapsed times, the count is the number of completed measurements, and the sums since the last print add up to the total.", "quantifier": "all sequences of timing calls", "why_tests_cant": "Histories are unbounded.", "anchors": ["jVMC/util/output_manager.py: start_timing, stop_timing, add_timing, print_timings"]}
{"id": "C61", "title": "ground_state_search performs at most numSteps steps and stops as soon as the variance criterion is met", "statement": "The loop performs exactly min(numSteps, first n at which the energy variance is at most varianceTol) steps, writes one record per step plus one, and the diagonal shift used in step n is 0.95^n times the initial one; the equation object is left as it was found.", "quantifier": "all variance sequences, all numSteps, varianceTol, shifts", "why_tests_cant": "Depends on an unbounded run.", "anchors": ["jVMC/util/util.py: ground_state_search"]}
{"id": "C62", "title": "measure reports mean, variance and standard error", "statement": "For every operator in the observables dictionary measure returns the weighted mean of the real part of the local estimator, its variance, and sqrt(variance/number of samples) as Monte-Carlo error, in the order given; measure_povm does the same for POVM observables.", "quantifier": "all observables dictionaries, samples, weights", "why_tests_cant": "Data dependent identity.", "anchors": ["jVMC/util/util.py: measure", "jVMC/operator/povm.py: measure_povm"]}
{"id": "C63", "title": "init_net builds the described network whenever it is called", "statement": "init_net(descr, dims) succeeds for one or two networks and calling it twice with the same description gives the same network.", "quantifier": "all descriptions, all call histories", "why_tests_cant": "The function mutates its argument; histories matter.", "anchors": ["jVMC/util/util.py: init_net", "jVMC/nets/two_nets_wrapper.py: TwoNets"]}
{"id": "C64", "title": "Selecting devices takes effect everywhere", "statement": "After set_pmap_devices(ds) all later collective operations run on ds and myDevice is the first device of ds.", "quantifier": "all sequences of device selections and collective calls", "why_tests_cant": "Compiled helper functions are cached across calls.", "anchors": ["jVMC/global_defs.py: set_pmap_devices, pmap_devices_updated", "jVMC/mpi_wrapper.py: jit_my_stuff", "jVMC/stats.py: jit_my_stuff"]}
{"id": "C65", "title": "Symmetry factors of rings are a character with the requested values on the generators", "statement": "For every L and every selection of symmetries with mutually consistent factors, the factors returned by get_orbit_1D are multiplicative, translation by x sites has translation_factor^x, the reflection has reflection_factor and the spin flip has spinflip_factor.", "quantifier": "all L >= 1, all selections, all consistent complex factors", "why_tests_cant": "Removal of duplicates must keep a consistent factor for every L.", "anchors": ["jVMC/util/symmetries.py: get_orbit_1D, get_orbits_from_maps_1D"]}
{"id": "C67", "title": "Symmetrised convolutional networks are invariant under their orbit", "statement": "The output of CpxCNNSym is unchanged when a symmetry of its orbit is applied to the configuration.", "quantifier": "all orbits that are groups, all inner networks, all configurations", "why_tests_cant": "All parameters and all group elements; a wrong convention for the spin values is invisible for orbits without spin flips.", "anchors": ["jVMC/nets/cnn.py: CpxCNNSym.__call__"]}
{"id": "C68", "title": "The recorded TDVP error is the relative distance between exact and variational motion", "statement": "In the first stage of an integration step the object records the mean and the variance of the local energy and the error Var(sum_k x_k O_k + p E_loc)/Var(E_loc), with the update x, the log-derivatives O_k, the local energy and the prefactor p.", "quantifier": "all samples, weights, updates, prefactors of modulus one, non-zero energy variance, with and without cross validation", "why_tests_cant": "All data; the code computes it from the covariances.", "anchors": ["jVMC/util/tdvp.py: TDVP._get_tdvp_error, __call__"]}
{"id": "C69", "title": "Error data are stored once and never overwritten", "statement": "write_error_data on the rank asked for stores exactly the array passed under /error_data/name, independently of the current group, changes nothing else, and the other ranks do nothing. What is stored survives every later history of calls unchanged; a second write under the same name raises an error and changes nothing. write_dataset stores the array below the group named, or in the root group.", "quantifier": "all names without slash, all arrays, ranks, files and later histories of calls", "why_tests_cant": "Histories and files are unbounded.", "anchors": ["jVMC/util/output_manager.py: OutputManager.write_error_data, write_dataset"]}
{"id": "C70", "title": "With the exact sampler local energies have the quantum mechanical mean and variance", "statement": "Sampling, evaluating local energies and taking statistics as TDVP does gives <psi|O|psi>/<psi|psi> and the variance of O in psi for the operator O that was written down; the variance vanishes exactly if psi is an eigenvector.", "quantifier": "all chains, local dimensions, numbers of ranks and devices for which the enumeration is complete, batch sizes, wave functions, operators, earlier calls", "why_tests_cant": "Exponentially many configurations; tests compare a few known Hamiltonians, whose ladder operators come in real symmetric combinations.", "anchors": ["jVMC/sampler.py: ExactSampler", "jVMC/operator/base.py: get_O_loc", "jVMC/operator/branch_free.py", "jVMC/stats.py: SampledObs", "jVMC/util/tdvp.py: TDVP.__call__"]}
{"id": "C71", "title": "Stochastic reconfiguration goes downhill", "statement": "With the exact sampler, real parameters and a Hermitian operator, the force of TDVP with prefactor 1 and real parts is minus half of the gradient of the energy, and the update returned by solve never increases the energy to first order; the rate vanishes only if the update does, for every choice of cutoffs, regularisation and diagonal shift.", "quantifier": "all wave functions with known log-derivatives, all settings, all operators given by strings", "why_tests_cant": "A statement about derivatives for all parameters.", "anchors": ["jVMC/util/tdvp.py: get_tdvp_equation, solve", "jVMC/stats.py: get_covar"]}
{"id": "C72", "title": "Real time evolution conserves the energy up to the residual", "statement": "With the exact sampler, real parameters and a Hermitian operator, a solution of the TDVP equation with prefactor i and imaginary parts keeps the energy to first order; for the regularised solution the rate of change is at most residual times the norms of update and energy gradient, with the residual returned by solve.", "quantifier": "all wave functions with known log-derivatives, all settings, all operators given by strings", "why_tests_cant": "A statement about derivatives for all parameters and regularisations.", "anchors": ["jVMC/util/tdvp.py: get_tdvp_equation, solve"]}
{"id": "C73", "title": "The Markov chain is driven by Re log psi", "statement": "get_sampler_net returns a function that evaluates Re(log psi(s)) of the same state that __call__ evaluates, for single networks, pairs of networks and symmetrised networks, so that the Markov chain satisfies detailed balance with respect to |psi|^mu and its samples keep that distribution.", "quantifier": "all networks and nestings of TwoNets and SymNet, all configurations, proposals, mu, numbers of chains and steps", "why_tests_cant": "Networks and nestings are unbounded; the shortcut eval_real for pairs is only equal for some phase networks.", "anchors": ["jVMC/vqs.py: NQS.__init__, get_sampler_net", "jVMC/nets/two_nets_wrapper.py: TwoNets", "jVMC/sampler.py: MCSampler._mc_init, _sweep"]}
{"id": "C74", "title": "Direct sampling is offered exactly when possible and draws from the Born distribution of the whole state", "statement": "A state is a generator exactly if its amplitude network has a sample function; an MCSampler that can be constructed can sample; and if the amplitude network samples its own distribution, then the samples returned for the whole (paired, symmetrised) state follow |psi|^2 of that state.", "quantifier": "all networks and nestings, orbits, averaging functions, phase networks", "why_tests_cant": "Delegation through wrappers for all networks; equality of distributions cannot be tested pointwise.", "anchors": ["jVMC/vqs.py: NQS.__init__, sample", "jVMC/nets/two_nets_wrapper.py: TwoNets", "jVMC/nets/sym_wrapper.py: SymNet", "jVMC/sampler.py: MCSampler.__init__, _get_samples_gen"]}
{"id": "C75", "title": "A feed-forward network evaluates the layers it is given", "statement": "FFN(layers, bias, actFun)(s) is the network whose unit i in layer l+1 is f_l(sum_j W_l(i,j) x_l(j) + b_l(i)) on the classical spins of s, where f_l is the l-th activation function, or the last one if fewer functions than layers are given. Without bias and with odd functions it is odd under turning over all spins, even if the function of the output layer is even.", "quantifier": "all numbers of layers and widths, all weights, biases, activation functions and configurations", "why_tests_cant": "Numbers of layers, functions and weights are unbounded, and a wrong choice of the function of one layer is invisible for equal functions.", "anchors": ["jVMC/nets/ffn.py: FFN.__call__"]}
{"id": "C76", "title": "Layers get parameters of the requested data type in every admissible flax release", "statement": "Layers built with the arguments from init_fn_args create parameters of the requested type in all flax releases setup.py admits; only arguments named *init are passed on as initialisation functions; complex random parameters are bounded by 1/sqrt of the fan.", "quantifier": "all release numbers, data types, argument lists, shapes and random numbers", "why_tests_cant": "Only one flax release is installed when tests run; the comparison of version strings goes wrong for others.", "anchors": ["jVMC/nets/initializers.py: init_fn_args, cplx_init, cplx_variance_scaling", "setup.py"]}
{"id": "C77", "title": "Stacks of recurrent cells hand states upwards", "statement": "The cell stack transforms the input, hands the output of every cell to the next one, stores the new carry of cell j at place j, and returns the output of the last cell; all built-in cells keep the shapes of the carries, so that the stack is defined for every depth; custom cells with the documented signature can be used.", "quantifier": "all depths, hidden sizes, weights, activation functions, carries and inputs, one and two dimensions", "why_tests_cant": "Depth and sizes are unbounded; tests use depth one or two.", "anchors": ["jVMC/nets/rnn1d_general.py: RNNCellStack, RNNCell, GRUCell, LSTMCell", "jVMC/nets/rnn2d_general.py: RNNCellStack, RNNCell, GRUCell, LSTMCell"]}
{"id": "C78", "title": "initScale scales the initial parameters of recurrent networks", "statement": "Every initial kernel entry made with initScale = x is sqrt(x) times the entry made with initScale = 1 from the same random numbers.", "quantifier": "all sizes, depths, scales and random numbers, real and complex parameters", "why_tests_cant": "Tests never compare initial parameters for different scales.", "anchors": ["jVMC/nets/rnn1d_general.py: RNN1DGeneral.setup", "jVMC/nets/rnn2d_general.py: RNN2DGeneral.setup"]}
{"id": "C79", "title": "Gradients of estimators and of expectation values in the flat parameter vector", "statement": "The k-th entry of an estimator's gradient is the derivative of the estimator when the k-th entry of the flat parameter vector of the state is changed, for real and complex parameters. With all basis states and Born weights, mean_and_grad returns the expectation value and the derivatives of the expectation value in the entries of that vector.", "quantifier": "all parameter trees, networks and estimators with derivatives, bases, distributions over processes, real, complex and holomorphic states", "why_tests_cant": "Finite differences test single networks and entries; the order of the entries and the sign of the imaginary parts must agree between two independent implementations for all trees.", "anchors": ["jVMC/stats.py: flat_grad, SampledObs.mean_and_grad", "jVMC/vqs.py: gradients, set_parameters"]}
{"id": "C80", "title": "Recurrent networks with named cells are normalised wave functions at every depth", "statement": "A recurrent network in one or two dimensions whose cell is given by name (RNN, LSTM, GRU) can be set up and evaluated for every depth and hidden size; |psi|^(1/kappa) sums to one over all configurations; sample() never fails and returns every configuration with probability |psi|^(1/kappa); with realValuedOutput log psi is real.", "quantifier": "all depths, hidden sizes, local dimensions, lattice sizes, activation functions and real parameters of the shapes flax creates", "why_tests_cant": "Exact normalisation over all configurations can only be tested for tiny lattices, few depths and single parameter sets.", "anchors": ["jVMC/nets/rnn1d_general.py: RNN1DGeneral", "jVMC/nets/rnn2d_general.py: RNN2DGeneral"]}
{"id": "C81", "title": "States that return psi instead of ln psi are treated consistently", "statement": "NQS has a flag logarithmic. For a state with either value of the flag the exact sampler returns |psi|^(1/logProbFactor) normalised, the Markov chain obeys detailed balance with respect to |psi|^mu, gradients() returns the derivatives of ln psi, and local estimators are sums of O_ss' psi(s')/psi(s), where psi is exp of the network's output if logarithmic is True and the output itself otherwise.", "quantifier": "all networks, parameters, configurations, basis distributions over ranks and devices, sampling histories, symmetric update proposers, exponents", "why_tests_cant": "The test suite only uses logarithmic networks; the equality of distributions and derivatives is a statement about all networks.", "anchors": ["jVMC/vqs.py:115-182 NQS.__init__ (logarithmic)", "jVMC/vqs.py:226-287", "jVMC/vqs.py:337-352 get_sampler_net", "jVMC/sampler.py:504-516", "jVMC/operator/base.py:189-192"]}
{"id": "C82", "title": "Time steps with TDVP integrate the TDVP equation and report the start of the step", "statement": "A step of Euler, Heun or AdaptiveHeun with a TDVP object as right hand side that returns leaves the wave function as it was and equals the integrator's step for the time derivative that a new TDVP object would give; repeated steps with set_parameters in between follow the integrator's trajectory. Afterwards every getter of the object (energy, variance, residuals, signal-to-noise ratio, spectrum, S, S_dot) reports the values of the beginning of the step, whatever happened to the object before and however many attempts AdaptiveHeun needed. Evaluations other than number 0 do not touch the reports; a new object has nothing to report. MinSR objects keep mean and variance in the same way.", "quantifier": "all networks, parameters, times, step sizes, error norms (also those that read the object), numbers of attempts and steps, histories of the object, samplers, settings with and without cross validation", "why_tests_cant": "Tests read the energy after single steps of one example; that no history, retry or later evaluation can leak into the reports is a statement about all executions.", "anchors": ["jVMC/util/tdvp.py:96-132", "jVMC/util/tdvp.py:215-326", "jVMC/util/stepper.py:14-182", "jVMC/util/minsr.py:29-158", "examples/ex2_unitary_time_evolution.py:70-79"]}
{"id": "C66", "title": "Factors on square lattices form a character", "statement": "The factors that get_orbit_2D_square returns are multiplicative, with factor 1 for the identity and the requested factors for single translations, reflections, the quarter turn and the spin flip, exactly if the requested factors are compatible (L steps and four quarter turns are the identity, reflections and spin flips their own inverses, reflections and quarter turns invert or exchange steps, reflections invert quarter turns, and the coincidences on one and on two by two sites). The number of returned operations is the order of the generated group. The wave function symmetrised over the orbit transforms with these factors.", "quantifier": "all L > 0, all sixteen choices of symmetries, all complex factors, all networks and configurations", "why_tests_cant": "Tests use two lattice sizes and factors 1 and -1; duplicates removed by np.unique keep the factor of their first occurrence, which is right only if all representations of an operation agree, for every size and choice.", "anchors": ["jVMC/util/symmetries.py:43-143", "jVMC/nets/sym_wrapper.py:7-61"]}
{"id": "C83", "title": "Markov chains converge, estimates become exact", "statement": "From any initial configurations the distribution of a chain of the Markov chain sampler approaches |psi|^mu / Z, and the mean square error of the weighted estimate of every observable goes to zero when the number of requested samples grows, for any number of ranks, devices and chains, any thermalisation and any number of updates per sweep.", "quantifier": "all wave functions with finite logarithm, all mu and logProbFactor, the three proposals for spins, all observables, all initial configurations, all layouts", "why_tests_cant": "Tests compare averages for one wave function and a tolerance; convergence is a statement about limits, and fails only for special wave functions (constant modulus), initial states and sweep lengths.", "anchors": ["jVMC/sampler.py:18-77", "jVMC/sampler.py:118-121", "jVMC/sampler.py:216-318"]}
{"id": "C84", "title": "Estimates from direct samples and their reported error", "statement": "With samples drawn directly from a generating network the weighted estimate of every observable equals the average for |psi|^(1/logProbFactor) in expectation, its mean square deviation is the variance of the observable divided by the reported number of samples (at least the requested one), and the error that measure reports is that deviation: the mean of its square is (1 - 1/N) times the mean square deviation.", "quantifier": "all generators with the probabilities of the wave function, all observables, all numbers of samples, processes and devices", "why_tests_cant": "Tests see one seed; bias and error bars are statements about the distribution of all outcomes. A wrong error bar passes every tolerance test of the mean.", "anchors": ["jVMC/sampler.py:171-181", "jVMC/sampler.py:210-250", "jVMC/util/util.py:91-157", "jVMC/mpi_wrapper.py:53-95"]}
{"id": "C85", "title": "The sampled TDVP equation approaches the exact one", "statement": "The matrix S and the vector F that TDVP computes from samples, and the mean energy and energy variance it stores, approach those for the exact probabilities |psi|^(1/logProbFactor)/Z in mean square when more samples are requested; with N directly drawn samples S, F and the variance are on average (1 - 1/N) times the exact ones, the mean energy is unbiased, and the mean square deviations are at most K/numSamples with K independent of the numbers of samples, processes and devices.", "quantifier": "all wave functions, local energies, gradients, settings of TDVP, numbers of processes, devices and chains, thermalisations and initial states", "why_tests_cant": "The claim is a limit over the number of samples and an average over all random outcomes; a test sees one seed, one number of samples and one device layout, with a tolerance that hides a bias of order 1/N.", "anchors": ["jVMC/util/tdvp.py:134-150", "jVMC/util/tdvp.py:268-281", "jVMC/stats.py:136-252", "jVMC/sampler.py:210-330"]}
{"id": "C86", "title": "POVM operators on a lattice are the Lindbladian of its spins", "statement": "For N spins in a state rho measured with the product of the predefined single-site POVMs, the compiled POVM operator applied to the outcome probabilities P(a) = Tr(rho M_a) gives Tr(M_a L(rho)), where L is the sum over the added terms of strength times -i[A, rho] for unitaries, A rho A^dagger - {A^dagger A, rho}/2 for dissipators and -{A, rho} for imaginaries, and A acts on the sites of the term and as the identity elsewhere; the means of converted observables are Tr(rho A) and the probabilities add up to Tr(rho).", "quantifier": "all N, orientations of the POVM, Hermitian rho, outcomes a, lists of terms on one or two distinct sites in any order (predefined names or matrices converted with matrix_to_povm), iteration orders of Python sets", "why_tests_cant": "The tests compare a few expectation values of four spins with stored or analytic curves at a tolerance of 1e-2; a wrong index order of one matrix or a wrong site for padded terms can be invisible for symmetric couplings, and every lattice size and placement of the sites would need its own reference calculation.", "anchors": ["jVMC/operator/povm.py:89-232", "jVMC/operator/povm.py:261-275", "jVMC/operator/povm.py:351-432"]}
{"id": "C87", "title": "POVM networks follow the Lindblad equation up to the recorded TDVP error", "statement": "Every distribution of POVM outcomes of N spins belongs to exactly one Hermitian matrix rho. For a real network of log-probabilities, the exact sampler and a compiled POVM operator with generator L: the local values are Tr(M_a L(rho)) / P(a), their mean is Tr(L(rho)), zero for Lindblad terms. Whatever velocity u the parameters have, the rate of change of the mean of a converted observable A differs from Tr(L(rho) A) by at most the square root of Var(A) times the variance of the mismatch; with the update of a TDVP step the latter is the recorded variance times the recorded tdvp_error. If some velocity reproduces the currents exactly, every solution of the unregularised equation gives every observable its exact rate.", "quantifier": "all N, POVM orientations, networks (any differentiable real function of n parameters), parameters, lists of one- and two-site terms, observables on one or two sites, MPI ranks, devices, batch sizes, eigensolvers, regularisations", "why_tests_cant": "The Lindblad test compares three expectation values of one network and one Hamiltonian with precomputed curves at a tolerance of 2e-2 after many steps; a wrong factor in the local values, in the measure (logProbFactor) or in the recorded error of a network that is not expressive would stay within the tolerance or not be compared at all.", "anchors": ["jVMC/util/tdvp.py:140-170", "jVMC/util/tdvp.py:268-315", "jVMC/operator/povm.py:351-432", "jVMC/sampler.py:494-522", "jVMC/operator/base.py:110-190"]}
{"id": "C88", "title": "A MinSR step keeps the type of the parameters and goes downhill", "statement": "In a ground state search with MinSR and the exact sampler, adding dt times the update to the parameters gives a network of the same kind (real parameters stay real), the parameters move with a velocity that solves the equation of stochastic reconfiguration without regularisation, and the energy decreases to first order unless its gradient vanishes. This holds for complex networks with holomorphic gradients (the real numbers that make up the parameters move with twice the real part of the update) and for real networks with real log-derivatives and local energies. It fails for the others, because the complex update is never reduced to real numbers: a real network with complex amplitudes holds non-real parameters after one step, and for a complex network that is not holomorphic the step can cancel although the energy has a slope.", "quantifier": "all networks (differentiable functions of n real numbers), parameters, time steps, local dimensions, system sizes, Hermitian sums of operator strings, MPI ranks, devices, batch sizes", "why_tests_cant": "The test runs MinSR on one holomorphic complex RBM and compares the final energy; a real network with complex output or a non-holomorphic network is never stepped, and a step that does not move the parameters raises nothing.", "anchors": ["jVMC/util/minsr.py:60-73", "jVMC/util/stepper.py:38-40", "jVMC/util/util.py:188-193", "jVMC/vqs.py:409-444", "jVMC/vqs.py:66-69"]}
{"id": "C89", "title": "Polynomial activation functions and spin flips", "statement": "The polynomials that are offered as activation functions do what their names say: poly5 agrees with tanh up to (17/315)|x|^7 + 1e-9 and poly6 with the function log_cosh of the same module up to (17/2520)x^8 + 1e-9 for real |x| <= 1, the derivative of poly6 is poly5 up to 2e-9, poly5 is odd and poly6 and square are even for all complex arguments. Hence convolutional networks (CNN and CpxCNN) without bias in the first layer, which is the default, and with an even first activation function give a configuration and the one with all spins flipped the same log-amplitude; with a bias in the first layer this fails.", "quantifier": "all real x with |x| <= 1 (errors), all complex x (parity), all shapes, filters, strides, channels, numbers of layers, boundary conditions, parameters and configurations (networks)", "why_tests_cant": "A test of the symmetry evaluates one network at a few configurations; a wrong coefficient changes the network function by less than the tolerance of the tests that use these activations.", "anchors": ["jVMC/nets/activation_functions.py:6-31", "jVMC/nets/cnn.py:40-79", "jVMC/nets/cnn.py:106-143"]}
{"id": "C90", "title": "MinSR updates converge to the exact stochastic-reconfiguration update", "statement": "The MinSR update computed from samples converges in probability, when more samples are requested, to the exact update: the shortest solution of the stochastic-reconfiguration equation S u = -F with the exact covariances. For directly drawn samples the probability of a deviation larger than e is at most K/numSamples, with K independent of the numbers of samples, processes and devices. S may be singular (redundant parameters, normalisation): directions in which the state does not change get no update for any sample, so no regularisation is needed. The same holds for Markov chains that are not confined to a part of the configurations; for constant |psi| and single flips the update is zero with certainty though the exact one is not.", "quantifier": "all wave functions on finite configuration spaces, numbers of parameters, local energies, log-derivatives, numbers of samples, processes, devices, chains, thermalisation steps and initial states, deviations e", "why_tests_cant": "A test draws one sample of fixed size and compares the energy after many steps; that the limit is the least-length solution of a singular equation, and that the probability of a large deviation falls with the number of samples, cannot be read off a run.", "anchors": ["jVMC/util/minsr.py:60-73", "jVMC/util/minsr.py:123-142", "jVMC/stats.py:332-336", "jVMC/sampler.py:232-250", "jVMC/sampler.py:252-287"]}
{"id": "C91", "title": "Integration until a final time with the adaptive stepper is accurate", "statement": "The loop of the examples that calls the adaptive Heun stepper while t < tmax ends for every bounded right-hand side, after a number of passes bounded in terms of the tolerance, with a time that exceeds tmax by less than maxStep; the final state differs from the solution of the differential equation by at most exp(K T) T (M3/12 + K M2/4) (maxStep/2)^2 for a Lipschitz right-hand side and a smooth solution. Every accepted step has, in the given norm, an error smaller than the tolerance.", "quantifier": "all right-hand sides (bounded; Lipschitz with smooth solutions for the error), initial states, dimensions, tolerances, maximal and initial step sizes, final times", "why_tests_cant": "A test integrates one equation; that the loop ends for all right-hand sides, and an error bound for all smooth ones, cannot be seen in runs; nor can tests exclude equations for which the two estimates agree by accident.", "anchors": ["jVMC/util/stepper.py:112-182", "examples/ex2_unitary_time_evolution.py:71-78", "examples/ex5_dissipative_Lindblad.py:76-86"]}
{"id": "C92", "title": "The Markov chain sampler never uses stale settings", "statement": "Whatever was done with an MCSampler before - calls of sample, assignments to its attributes, set_number_of_samples, changes of the parameters of the network - the next call of sample follows the current settings: the chains start from the current states and are driven by the current network, parameters, exponent mu, numbers of sweeps, update proposer and its argument; amplitudes and weights belong to the same network, parameters and mu. Assignments change exactly what they name; the number of samples recorded is the smallest multiple of the number of chains and of multipleOf that is not below the number asked for (or the default). The constructor accepts exactly the settings with an update proposer (or a network that samples itself) and 0 <= mu <= 2.", "quantifier": "all histories of calls and assignments, networks, parameters, proposers, settings", "why_tests_cant": "Tests use a sampler with one setting; staleness of compiled functions shows only in particular sequences of assignments and calls, and only in the distribution of the samples.", "anchors": ["jVMC/sampler.py:102-160", "jVMC/sampler.py:189-223", "jVMC/sampler.py:252-287", "jVMC/sampler.py:315-341"]}
{"id": "C93", "title": "A convolutional network evaluates exactly the layers it is given", "statement": "The output of a convolutional network is obtained by evaluating its layers one after another: spins as -1 and 1; in layer l a filter of the given size is moved with the given strides over the lattice, with periodic boundary conditions if periodicBoundary is set and zeros around otherwise; weighted sums over pixels and channels, plus a bias (firstLayerBias decides for the first layer, bias for the others); then the l-th activation function, or the last one given if there are fewer than layers; finally the sum over everything divided by the square root of the number of entries.", "quantifier": "all numbers of dimensions, lattice, filter sizes and strides, numbers of layers and channels, activation functions, parameters, boundary conditions, configurations", "why_tests_cant": "A test evaluates one network of fixed size or compares translated inputs; an indexing, padding or bias fault for other dimensions, strides or numbers of layers stays unseen, and a wrong boundary condition still gives a plausible number.", "anchors": ["jVMC/nets/cnn.py:31-79", "jVMC/nets/cnn.py:97-143"]}
{"id": "C94", "title": "Every observable changes at its exact rate up to the recorded TDVP error", "statement": "With the exact sampler: while the parameters move with the velocity returned by TDVP, the rate of change of the expectation value of every Hermitian observable differs from its rate under the exact motion d psi/dt = -x H psi (real or imaginary time, x the prefactor) by at most twice the square root of variance of the observable times variance of the energy times the TDVP error recorded in the same call; so all rates are exact when the recorded error is zero. If the tangent space contains the exact direction, every solution of the unregularised equation has exact rates.", "quantifier": "all log-amplitudes with derivatives, parameters, Hamiltonians and observables that are sums of operator strings, prefactors of modulus one, times, numbers of MPI ranks and devices, batch sizes, earlier calls, solver settings", "why_tests_cant": "A test follows a few observables of one small system within a tolerance; the bound concerns all observables and networks, and a recorded error that is too small (wrong prefactor, missing variance) is not visible in any single observable.", "anchors": ["jVMC/util/tdvp.py:96-104", "jVMC/util/tdvp.py:134-148", "jVMC/util/tdvp.py:219-326", "jVMC/sampler.py:504-522"]}
{"id": "C95", "title": "The recorded TDVP errors bound the distance from the exact state", "statement": "With the exact sampler and real time evolution under a Hermitian, possibly time-dependent Hamiltonian: when the parameters move along a curve with the velocities that TDVP returns, the trace distance between the state of the network and the solution of the Schroedinger equation grows at most by the time integral of the square root of recorded error times recorded energy variance; every expectation value stays within twice the operator norm times this integral of the exact one.", "quantifier": "all networks with differentiable log-amplitudes, all trajectories, Hamiltonians of operator strings with time-dependent prefactors, durations, initial states, numbers of MPI ranks and devices, solver settings and regularisations", "why_tests_cant": "The exact solution is available only for tiny systems and short times, so a test can compare a few of them; that the recorded numbers certify the accuracy for every system and duration cannot be tested.", "anchors": ["jVMC/util/tdvp.py:96-104", "jVMC/util/tdvp.py:134-148", "jVMC/util/tdvp.py:219-326", "jVMC/sampler.py:504-522"]}
{"id": "C96", "title": "The recorded energy and its variance locate the spectrum", "statement": "With the exact sampler and a Hermitian Hamiltonian: the recorded mean energy is real, not below the ground state energy and not above the largest eigenvalue; some eigenvalue is within the square root of the recorded variance; a measurement of the energy deviates by d from the mean with probability at most variance over d^2; with a gap between e0 and e1 the ground state energy is at least mean - variance/(e1 - mean), and the overlap with the ground states is at least (e1 - mean)/(e1 - e0). So when ground_state_search stops because of varianceTol, the energy it reports is within sqrt(varianceTol) of an exact eigenvalue and not below the ground state energy (it belongs to the parameters before the last step). Every Hermitian operator on the basis has the complete system of eigenvectors this refers to.", "quantifier": "all Hermitian sums of operator strings, log-amplitudes, system sizes, numbers of MPI ranks and devices, batch sizes, histories of the sampler, searches with any number of steps, tolerance, step size, regularisation and output", "why_tests_cant": "Tests compare the energy of one small model with exact diagonalisation; a mean or variance that is slightly too small looks like a good optimisation, and the implication from variance to spectrum quantifies over all Hamiltonians and states.", "anchors": ["jVMC/util/util.py:160-212", "jVMC/util/tdvp.py:116-148", "jVMC/util/tdvp.py:292-296", "jVMC/sampler.py:504-522", "jVMC/stats.py:208-253"]}
{"id": "C97", "title": "Imaginary time evolution reaches the ground state at the rate the recorded errors certify", "statement": "With the exact sampler, rhsPrefactor = 1 and a Hermitian Hamiltonian, the parameters move with the velocity the TDVP object returns. Then the rate of the energy is -2 times the recorded variance, up to a relative deviation of at most the square root of the recorded TDVP error; it is negative whenever the recorded error is below 1, and zero if the variance is zero. If all recorded errors along the trajectory are at most eps^2 <= 1 the energy never exceeds its initial value; and if moreover e0 is the ground state energy, all other eigenvalues are at least e1 and the energy starts below e1, then energy - e0 is at most (initial energy - e0) exp(-2 (1 - eps) (e1 - initial energy) t) and the probability to find a ground state is at least 1 minus that over e1 - e0. So with eps < 1 a trajectory that does not end converges to the ground state.", "quantifier": "all Hermitian sums of operator strings, differentiable log-amplitudes, trajectories, lengths of time, gaps, numbers of parameters, MPI ranks and devices, batch sizes, regularisations, histories of the sampler", "why_tests_cant": "Tests run a few steps for one model and compare with a loose tolerance; a velocity with the wrong factor, a force of the wrong sign in one parameter block, or an error that is recorded too small all still lower the energy in a test.", "anchors": ["jVMC/util/tdvp.py:96-148", "jVMC/util/tdvp.py:183-213", "jVMC/util/tdvp.py:215-304", "jVMC/sampler.py:504-522", "jVMC/stats.py:208-253"]}
{"id": "C98", "title": "Recorded TDVP errors bound the distance of a POVM network from the exact solution of the Lindblad equation", "statement": "A real network of log-probabilities of POVM outcomes moves with the velocity that the TDVP object returns (exact sampler, rhsPrefactor = -1, a compiled POVM operator of Lindblad terms). chi(t) is any Hermitian solution of the Lindblad equation. If recorded error times recorded variance is at most b(t)^2 along the trajectory and the exact dynamics stretches distances of outcome probabilities at most at the rate L, then the Euclidean distance between the probabilities of the network and those of chi at time T is at most exp(L T) times the initial distance plus the integral of exp(-L t) b(t). Some finite L exists for every compiled operator. The mean of every converted observable differs from Tr(chi(T) A) by at most that bound times the Euclidean size of its array.", "quantifier": "all numbers of spins, orientations of the measurement, histories of additions, Lindblad terms, networks, trajectories, lengths of time, exact solutions, observables on one or two sites, MPI ranks and devices, batch sizes, regularisations, histories of the sampler", "why_tests_cant": "Tests compare one or two observables of a small system with a reference at a fixed tolerance; they say nothing about the true distance when the recorded error is not negligible, and a recorded error or variance that is too small would pass unnoticed.", "anchors": ["jVMC/util/tdvp.py:96-148", "jVMC/util/tdvp.py:183-213", "jVMC/util/tdvp.py:215-304", "jVMC/operator/povm.py:351-432", "jVMC/sampler.py:494-522", "jVMC/operator/base.py:110-190"]}
{"id": "C99", "title": "Communication times are reported once, completely, and by the evaluation that caused them", "statement": "Over any program of one process (reductions, gathers, broadcasts, other work, evaluations of TDVP and MinSR with any or no output manager, printed timings) no second of communication is counted twice or lost: the totals recorded under MPI communication by all output managers plus the time that waits to be reported equal the time spent communicating. The newest record of an evaluation is the communication since the previous report, the count is the number of evaluations with that output manager, each phase is recorded with its duration, and the recorded communication of an evaluation is at most its duration.", "quantifier": "all programs, durations, numbers of output managers, evaluations with and without output manager, cross validation on or off", "why_tests_cant": "The counter is module state shared by all callers; timings differ from run to run, so tests cannot compare them with expected values, and a doubled, dropped or displaced contribution looks like noise.", "anchors": ["jVMC/mpi_wrapper.py:114-147", "jVMC/mpi_wrapper.py:177-217", "jVMC/mpi_wrapper.py:278-299", "jVMC/util/tdvp.py:256-326", "jVMC/util/minsr.py:114-158", "jVMC/util/output_manager.py:182-218"]}
