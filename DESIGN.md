# Formal model of jVMC (vmc_jax): design

The Python sources in /repo are read as text; nothing of them is executed.
Everything below lives in `rocq/theories` (Coq 8.16.1, standard library only).

## Layout

For every area `X` there are up to four files:

* `X_Model.v`  - the functions of the Python code as total Gallina functions.
  Each definition cites file and lines and says what is simplified. No proofs.
* `X_Spec.v`   - a small independent specification (what a user expects),
  written without the helpers of the model.
* `X_Proofs.v` - lemmas.
* `X_Props.v`  - only the property theorems, each closed by `exact lemma`,
  followed by `Print Assumptions`, with `Example`s showing that the hypotheses
  are met by a concrete non-trivial case.

Theorem names start with the property id: `C01_...`. A suffix `_partial` marks a
theorem that proves only a part of the property (its comment says what is
missing); `_refuted` marks a theorem `exists ..., ~ ...` showing that the
property as stated is false for the modelled code (a finding).

## Modelling conventions

* Python exceptions are values (`Err e`); a call that blocks forever in MPI and
  an endless loop are values, too.
* An array over (devices x batch) is a list (devices) of lists (batch); the
  data of all MPI ranks is a further list (ranks). All ranks are modelled
  together (SPMD).
* Floating point numbers are modelled by exact real numbers `R` (complex numbers
  by pairs of reals, own development `Cplx.v`), or by an arbitrary commutative
  ring where only ring operations matter. Rounding, overflow, NaN are not
  modelled unless a definition says so.
* JAX: `vmap`/`pmap`/`jit`/`scan` are `map`/`map`/identity/fold. Automatic
  differentiation is represented by the mathematical derivative with JAX'
  conventions. `numpy`/`jax.numpy` primitives are modelled by their documented
  semantics, including clamping of out-of-range gathers where it matters.
* Random numbers: proposal functions take their draws as arguments; statements
  quantify over all draws or use the uniform distribution over them. Random
  keys are symbolic terms.
* Networks, cells, operators given by users, eigen-solvers and inverses are
  parameters (section variables), their assumed behaviour is a hypothesis of
  the theorem and is shown to be satisfiable.

## Trusted base

* The Coq kernel (and `coqchk`).
* Axioms: only those of the standard library, as printed by `Print Assumptions`
  (see the table at the end): the ones behind the real numbers, functional
  extensionality, excluded middle and, for the spectral theorem behind C96 only,
  indefinite description. Theorems about integers and lists are axiom free.
* The faithfulness of the hand-written model to the Python code, including the
  modelling conventions above.

## Plan per property

| id | what is modelled | how it is proved |
|----|------------------|------------------|
| C01 | `distribute_sampling` on all ranks, Z arithmetic | sum over ranks split at the remainder, division lemmas |
| C02 | `first_sample_id` + `distribute_sampling(None)` | partial sums by induction over rank |
| C03 | `global_sum`, `global_mean` over ranks x devices x batch, psum and Allreduce as sums | sums over concatenation; permutation invariance |
| C04 | `global_variance` with the missing psum over devices | equality for one device; witness with two devices |
| C05 | `global_covariance` | identity with documented formula for zero mean; witness otherwise |
| C06 | `bcast_unknown_size`, `gather` as per-rank programs of collectives | execution of matched programs; witness of blocking for non-float64 |
| C07 | `SampledObs` constructor, `mean`, `covar`, `var` | algebra of finite sums over C, positivity by sums of squares |
| C08 | `covar_data`, `covar_var` | same, division by positive weights |
| C09 | `subset`, `select`, `transform` | same; equality of the rebuilt object |
| C10 | `mean_and_grad` formula; Born weights | derivative of a quotient of sums (Coq `derivable_pt_lim`) |
| C11 | branch-free `compile`, `_get_s_primes` | induction over strings; matrix action as independent spec |
| C12 | same, with matrix-element spec `<s|O|s'>` | characterisation plus witnesses |
| C13 | predefined operators | case analysis over local states, witnesses for false relations |
| C14 | fermionic sign with mask | induction over configurations, sign parity |
| C15 | `_find_nonzero`, `set_zero_to_zero`, truncation | sorted index lists, induction; error bound and witness for tiny elements |
| C16 | `get_O_loc`, `get_O_loc_batched` incl. padding | list lemmas about chunks; witness for non-logarithmic psi |
| C17 | operator object as state machine, on one rank and on several ranks with a collective evaluation of prefactors | refinement to a list of strings for all histories; ranks that wait for ever stay out |
| C18 | `OpStr`, `LocalOp`, `scal_opstr`, partial application | induction over expressions; witness for TypeError with arguments |
| C19 | `arg_fun` for all ranks | index arithmetic, witness for IndexError |
| C20 | broadcasting rule in the sign factor | shape computation, witness |
| C21 | `get_M` for all theta, phi | explicit 2x2 complex matrices, trigonometric identities |
| C22-C23 | `matrix_to_povm` by sums over indices for any dimension | trace algebra with abstract POVM satisfying the inverse relation |
| C24 | `POVMOperator.add`, `compile`, `_get_s_primes` | invariant over the regrouping loop; any set order; heap of dictionaries for sharing |
| C25 | registry as state machine | invariant over histories |
| C26 | `get_1_particle_distributions` | sums over POVM elements |
| C27 | one Metropolis step as finite Markov kernel | detailed balance, sum over states, induction over steps |
| C28 | `propose_POVM_outcome` | witness |
| C29 | `propose_spin_flip_zeroMag` | counting ones; symmetry by involution of draws |
| C30 | sample counts of both samplers | arithmetic; witness with multipleOf |
| C31 | weights | algebra with exp |
| C32 | `_sweep`, `_get_samples`, `_mc_init` | invariant over steps |
| C33 | symbolic keys | prefix-freeness of split paths, induction over the run |
| C34 | `get_basis`, `_get_basis_ldim2`, `_get_basis` | digits bijection, tiling; witness with negative count |
| C35 | `sample` of ExactSampler with `lastNorm` | algebra with exp/log, induction over history |
| C36 | parameter swapping with exceptions | state machine with failure points |
| C37 | `_randomize_samples` + `avgFun_Coefficients_Sep` | finite distributions, re-indexing by group inverse |
| C38 | `create_batches`, `eval_batched` | chunk/concat lemmas |
| C39 | flatten/unflatten | induction over leaves |
| C40 | gradient layouts | induction over leaves with derivative hypotheses |
| C41 | dictionary gradients | induction over leaves |
| C42-C43 | index maps and their products | arithmetic modulo L |
| C44 | SymNet | re-indexing of sums over a group |
| C45-C46 | RNN evaluation and sampling | induction over sites |
| C47 | convolution with wrap padding | re-indexing modulo L; witness for CpxCNN |
| C48 | log_cosh, RBM | complex exponential algebra |
| C49 | Euler/Heun | Taylor-Lagrange |
| C50-C51 | AdaptiveHeun loop with fuel | invariant, geometric decrease |
| C52-C53 | `solve` given eigen-decomposition | unitary change of basis; loop with fuel |
| C54 | `__call__` state machine | symbolic execution with failures |
| C55 | MinSR | Moore-Penrose algebra |
| C56 | global variable | witness of history dependence |
| C57-C60 | output file as path -> dataset map | invariants over histories |
| C61 | search loop | induction over steps |
| C62 | `measure`, `measure_povm` | algebra; witness for the POVM error |
| C63 | Python keyword binding, mutation of the description | witness |
| C64 | device selection | state machine |
| C65 | symmetry factors of 1D orbits | determinant-like count of reflections, induction over generators |
| C67 | symmetrised CNN | composition of C44 and C47 |
| C68 | TDVP error formula | algebra of the quadratic form in exact arithmetic |
| C69 | output of error data | state machine over the file |
| C70 | exact sampler, operators, statistics together | composition of C11, C16, C34, C35, C04; Born-weighted sums; eigenvector iff variance zero |
| C71 | force and update of SR, exact sampler | derivative of the Rayleigh quotient; positivity of the regularised inverse |
| C72 | real time evolution, exact sampler | antisymmetry of Im S; Cauchy-Schwarz with the residual of C52 |
| C73 | function used by the Markov chain | case analysis of the network tree, composed with C27 |
| C74 | direct sampling through wrappers | induction over the network tree, composed with C37 |
| C75 | feed-forward networks | induction over layers; parity by induction |
| C76 | arguments of flax layers | digits of decimal numerals, string order |
| C77 | recurrent stacks | induction over depth, relation with a separate relay semantics |
| C78 | initial scale | algebra of variance scaling; witnesses |
| C79 | estimator gradients | composition of C40 and C10 over the flat parameter vector |
| C80 | recurrent networks end to end | invariant: carries keep their shapes; refinement of C45/C46's scans by the scans with errors |
| C81 | states with logarithmic=False | composition of C16, C27, C35, C40 with the coefficient meant by the flag; derivative of the exponential; witnesses |
| C82 | integrators driven by TDVP, getters | invariant over stateful right hand sides (history independence of an evaluation), induction over attempts and steps; witness with one parameter |
| C66 | `get_orbit_2D_square` | affine maps of the lattice with point group; uniqueness of the representation up to small lattices; relations of the generators; counting by a duplicate-free list |
| C83 | `MCSampler` (Markov chains) | Doeblin minorisation from connected, aperiodic proposals; second moment of the total of all chains; invariant (parity) for the failing case |
| C84 | `MCSampler` (generator), `measure` | second moments of sums of independent draws over ranks and devices; cross moment of the first devices with the total |
| C85 | `TDVP.get_tdvp_equation` on samples | covariance bounded by mean square deviations of finitely many estimates; second moments of independent draws |
| C86 | compiled `POVMOperator` and registry for N spins | what is seen of rho on the sites of a term: weighted partial traces commute with embedded matrices; C23 on the seen matrix |
| C87 | POVM networks: local values, TDVP equation and recorded error against Tr(M_a L(rho)) | dual frame gives rho; C86 turns local values into currents; average rate = covariance with the motion of the network; Cauchy-Schwarz for the bound, C68 for the recorded error |
| C88 | MinSR steps: type of the parameters, SR equation, descent; counterexamples | pairs of flat entries with O_I = i O_R give u_I = -i u_R, so unflattening doubles the real part; minimality of the MinSR solution makes it real for real data; variance identity for the descent |
| C89 | polynomial activations against tanh and log cosh, parity, spin-flip symmetry of convolutional networks | Taylor remainders through signs of derivatives; the input of the first activation changes sign |
| C90 | MinSR updates converge in probability to the shortest solution of the exact equation | the kernel of the exact S annihilates every sampled S, so all updates lie in the range of one projection, on which a generalised inverse built from the tangent kernel bounds the perturbation; mean-square bounds of C85 and the Markov inequality |
| C91 | the adaptive evolution loop ends, its error is bounded | step sizes are bounded below by the acceptance test for bounded right-hand sides; each accepted step is two Heun steps of C45 of at most maxStep/2; discrete Gronwall |
| C92 | the sampler uses current settings | invariant over histories: dictionary and trace cache hold the first network and mu for every number of samples and combination |
| C93 | CNN evaluates the layers it is given | layers are characterised by equations at all positions, which determine them; induction over layers |
| C94 | observables change at the exact rate up to the recorded TDVP error | both rates are covariances with the local observable; Cauchy-Schwarz; C68 |
| C95 | recorded TDVP errors bound the distance from the exact state | differential inequality for the fidelity; mean value theorem for the square root; C68 |
| C96 | recorded energy and variance locate the spectrum | spectral theorem (maximum of the quadratic form, Bolzano-Weierstrass); moments of the energy distribution; C61, C70 |
| C97 | imaginary time evolution reaches the ground state at the certified rate | covariance of log-velocity and local energy split into residual and variance; Cauchy-Schwarz; Temple's inequality; mean value theorem |
| C98 | POVM networks stay near the exact solution of the Lindblad equation | C87 gives what is recorded; linearity of the compiled operator; balance of the currents; Cauchy-Schwarz; growth of a square root with exponential stretching |
| C99 | Communication times are reported once and by the evaluation that caused them | balance of recorded and pending seconds over programs; entries of dictionaries; three refutations |

## What is modelled, area by area

"Abstract" means: a parameter of the definitions (Section variable), so that the
theorems hold for every choice that meets the hypotheses shown in the statement.

| area | code | simplified or left out |
|------|------|------------------------|
| Base, Cplx | - | exceptions as values, complex numbers as pairs of reals |
| Mpi | `mpi_wrapper.py` | transport of MPI, timing of communication (area Comm); collectives are matched calls on all ranks |
| Stats | `stats.py` | real arithmetic; arrays with one feature axis; pmap = map over devices |
| BranchFree, OpBase | `operator/base.py`, `operator/branch_free.py` | dtypes and jit; user functions for prefactors abstract |
| Sampler, Keys, Exact | `sampler.py` | random draws are arguments, keys symbolic terms; log-probabilities are exact reals |
| Vqs | `vqs.py` | networks are functions of a flat list of leaves; derivatives are hypotheses (what JAX returns), flax containers are lists of leaves |
| Sym | `util/symmetries.py`, `nets/sym_wrapper.py` | permutation matrices as index maps (their matrix product is proved equal) |
| Rnn | `nets/rnn*.py` | cells and dense layers abstract, `nan_to_num` and the subtraction of the maximum in `log_softmax` left out |
| Rbm, Cnn | `nets/rbm.py`, `nets/cnn.py`, `nets/activation_functions.py` | kernels arbitrary, batch axis left out |
| Stepper | `util/stepper.py` | real arithmetic, right-hand side does not raise, NaN only where a definition says so |
| Povm, PovmOp | `operator/povm.py` | `linalg.inv` exact, dtype conversion, 1x1 broadcasting and negative sites left out |
| Tdvp | `util/tdvp.py`, `util/minsr.py` | `eigh`/`pinv` abstract with their documented contract; the sampler's network is the wave function; timings left out |
| Output | `util/output_manager.py` | HDF5 file as partial map from paths, real values, absolute names, attributes, chunking and `print` left out, opening a file does not fail |
| Devices | `global_defs.py` | a compiled function is its device list; in-place change of the list `devices()` left out |
| Gs | `util/util.py` ground state search | right-hand side, variance and measurement are oracles, variance is a number |
| Init | `util/util.py` init_net | constructors and evaluation are oracles, keys "type" and "parameters" present |
| Measure | `util/util.py` measure, measure_povm | local estimators are an oracle, observable indices in range |
| Vmc | composition in `util/tdvp.py` 268-281 | all ranks at once; log-amplitudes and log-derivatives are functions of the configuration, chains only |
| Wrap | `vqs.py` 164-172, 226-375, `nets/two_nets_wrapper.py`, `nets/sym_wrapper.py` 42-66, `sampler.py` 103-129, 210-250 | modules are trees of plain networks, pairs and symmetrised networks; parameters fixed |
| Net | `nets/ffn.py`, `nets/initializers.py`, `nets/rnn1d_general.py` 22-53, 105-134, 180-229, `nets/rnn2d_general.py` 23-59, 113-145, 242-314 | weights are given real numbers; flax GRU and LSTM cells are functions; random numbers are arguments; no broadcasting in `at[].set` |
| Est | `stats.py` 110-133, 185-188, 219-231: flat_grad, estimator gradients, mean_and_grad applied to a variational state | jax.grad is specified by partial derivatives (C40); leaves of one tree share one type |
| Rnet | `nets/rnn1d_general.py` 105-177, `nets/rnn2d_general.py` 113-237 with the stacks of Net | real parameters, named cells; flax GRU and LSTM cells are functions |
| Plain | `vqs.py` 158, 226-287, 337-352 with `sampler.py` 504-516 and `operator/base.py` 189-192 | one network, no orbit |
| Evo | `util/tdvp.py` 74-132, 215-326 and `util/minsr.py` 29-158 as right hand side of `util/stepper.py` 14-182; loop of `examples/ex2_unitary_time_evolution.py` 70-79 | the right hand side changes a state and may raise; updates of NaNs end the run |
| Square | `util/symmetries.py` 43-143 (definitions in Sym_Model) | as Sym |
| Ergo | `sampler.py` 118-121, 221-223, 252-318 (one draw of all ranks and devices; the steps are those of Sampler_Model) | as Sampler |
| Direct | `sampler.py` 210-219, 232-250 (all ranks and devices), `util.py` 91-157 with one observable | random keys are ideal; the distribution of one draw is a parameter, tied to the network by C74 |
| Conv | `tdvp.py` 134-150, 268-281 for a sample of all ranks and devices | local energies and gradients are functions of one configuration (C16, C38); samples from the models of C83 and C84 |
| Many | `povm.py` 192-214, 261-275: registry of the predefined arrays | arrays carry their dimension |
| Lind | `tdvp.py` 268-281 with `lDim=4`, `logProbFactor=1` and a POVMOperator: samples, local values, gradients on all ranks | exact sampler, real network given by its values and gradients |
| Msr | `stepper.py` 38-40, `util.py` 192-193 and `vqs.py` 409-444 for a complex update | lengths agree, no casts |
| OpRanks | `base.py` 108-152 and `branch_free.py` 413-436 on several ranks | all ranks run the same program with the same arguments; samples may differ |
| Poly | no new model: `activation_functions.py` in Rbm_Model, `cnn.py` in Cnn_Model | |
| MinConv | `minsr.py` 123-142 with 60-73 for a sample | local energies and gradients are functions of the configuration; timings, metadata |
| AdErr | loops `while t < tmax` of `examples/ex2` 71-78, `ex5` 76-86, `ex6` 82-92 with AdaptiveHeun | measurements and output in the loop; the examples `ex0`, `ex4`, `ex5`, `ex6` construct TDVP with a keyword `svdTol` that `TDVP.__init__` (tdvp.py 74) does not have, and stop with TypeError before the loop |
| Cache | MCSampler as an object: `sampler.py` 102-160, 189-223, 252-287, compiled functions and traces | network objects and proposers are numbered; the random key is part of the distribution; direct sampling is C58, C85 |
| Layers | none new; specification of the layers of `cnn.py` (area Cnn) | - |
| Ehren | none new; exact motion, fidelity and trace distance specified in Ehren_Spec; the recorded numbers come from `tdvp_call` (area Tdvp) with the exact evaluation of area Vmc | see C94, C95 in the manifest |
| Spectrum | none new; eigensystems and outcome probabilities specified in Spectrum_Spec; the search is `ground_state_search` (area Gs) with calls of `tdvp_call` (area Tdvp) and the exact evaluation of area Vmc | see C96 in the manifest |
| Descent | none new; trajectories of calls of `tdvp_call` as in area Ehren (prefactor 1), spectra as in area Spectrum | see C97 in the manifest |
| Open | none new; trajectories of calls of `tdvp_call` (prefactor -1) with the parts of area Lind | see C98 in the manifest |
| Comm | accounting of `communicationTime` in `global_sum`, `global_mean`, `global_variance`, `global_covariance`, `bcast_unknown_size`, `gather`, `get_communication_time`; the timed phases of `TDVP.__call__` and `MinSR.__call__` | values; exceptions inside a reduction; time for bookkeeping |

## What is not modelled

Floating-point rounding, performance, JAX compilation, the contents of flax
layers other than those named above, HDF5 internals, MPI transport, plotting and
the example scripts.

## Axioms per theorem

Output of `Print Assumptions` for every theorem named in MANIFEST.json
(the command stands below each theorem in the `_Props` files). Abbreviations:

* D = `ClassicalDedekindReals.sig_forall_dec` (Coq.Reals)
* N = `ClassicalDedekindReals.sig_not_dec` (Coq.Reals)
* F = `FunctionalExtensionality.functional_extensionality_dep` (Coq.Logic)
* C = `Classical_Prop.classic` (Coq.Logic)
* I = `IndefiniteDescription.constructive_indefinite_description` (Coq.Logic)
* none = "Closed under the global context"

| theorem | file | axioms |
|---------|------|--------|
| `C01_distribute_sampling_exact` | Mpi_Props.v | none |
| `C02_ranges_tile` | Mpi_Props.v | none |
| `C03_global_sum_is_total` | Mpi_Props.v | D F |
| `C03_global_mean_is_weighted_mean` | Mpi_Props.v | D F |
| `C03_layout_independent` | Mpi_Props.v | D F |
| `C04_global_variance_partial` | Mpi_Props.v | D F |
| `C04_global_variance_refuted` | Mpi_Props.v | D F |
| `C05_global_covariance_partial` | Mpi_Props.v | D F |
| `C05_global_covariance_refuted` | Mpi_Props.v | D F |
| `C06_bcast_partial` | Mpi_Props.v | none |
| `C06_gather` | Mpi_Props.v | none |
| `C06_bcast_refuted` | Mpi_Props.v | none |
| `C07_statistics` | Stats_Props.v | D F N |
| `C07_layout_independent` | Stats_Props.v | D F N |
| `C08_covar_data_covar_var` | Stats_Props.v | D F N |
| `C09_subset` | Stats_Props.v | D F N |
| `C09_slice_indices` | Stats_Props.v | none |
| `C09_select` | Stats_Props.v | D F N |
| `C09_transform_partial` | Stats_Props.v | D F N |
| `C09_transform_linear_refuted` | Stats_Props.v | D F N |
| `C10_mean_and_grad_partial` | Stats_Props.v | D F N |
| `C10_mean_and_grad_refuted` | Stats_Props.v | D F N |
| `C11_action` | BranchFree_Props.v | D F |
| `C12_convention_partial` | BranchFree_Props.v | D F |
| `C12_ket_partial` | BranchFree_Props.v | D F |
| `C12_convention_refuted` | BranchFree_Props.v | D F |
| `C12_order_refuted` | BranchFree_Props.v | D F |
| `C13_algebra_partial` | BranchFree_Props.v | D F |
| `C13_commute` | BranchFree_Props.v | D F |
| `C13_algebra_refuted` | BranchFree_Props.v | D F |
| `C14_car` | BranchFree_Props.v | D F |
| `C15_compaction_partial` | OpBase_Props.v | D F N |
| `C15_compaction_refuted` | OpBase_Props.v | D F N |
| `C16_batched_partial` | OpBase_Props.v | C D F N |
| `C16_value_partial` | OpBase_Props.v | C D F N |
| `C16_estimator` | OpBase_Props.v | D F N |
| `C16_batched_refuted` | OpBase_Props.v | C D F N |
| `C16_default_refuted` | OpBase_Props.v | C D F N |
| `C17_never_stale` | OpBase_Props.v | D |
| `C17_fresh_partial` | OpBase_Props.v | D |
| `C17_fresh_refuted` | OpBase_Props.v | D |
| `C17_ranks_never_stale` | OpRanks_Props.v | D |
| `C17_ranks_return_partial` | OpRanks_Props.v | D |
| `C17_ranks_return_refuted` | OpRanks_Props.v | D F |
| `C18_constructor_partial` | BranchFree_Props.v | D F |
| `C18_arithmetic_partial` | BranchFree_Props.v | D F |
| `C18_evaluates` | BranchFree_Props.v | D |
| `C18_arithmetic_refuted` | BranchFree_Props.v | D |
| `C19_parallel_partial` | BranchFree_Props.v | D |
| `C19_all_ranks_partial` | BranchFree_Props.v | D |
| `C19_parallel_refuted` | BranchFree_Props.v | D |
| `C19_idle_rank_refuted` | BranchFree_Props.v | D |
| `C20_shapes_partial` | BranchFree_Props.v | D F |
| `C20_shapes_fail_partial` | BranchFree_Props.v | D |
| `C20_shapes_refuted` | BranchFree_Props.v | D |
| `C20_fermion_refuted` | BranchFree_Props.v | D F |
| `C21_valid` | Povm_Props.v | D F N |
| `C21_basis` | Povm_Props.v | D F N |
| `C21_determined` | Povm_Props.v | D F N |
| `C21_symmetric` | Povm_Props.v | D F N |
| `C21_orientation` | Povm_Props.v | D F N |
| `C21_unknown` | Povm_Props.v | D F N |
| `C22_observable` | Povm_Props.v | D F |
| `C22_sic` | Povm_Props.v | D F N |
| `C22_unknown` | Povm_Props.v | D F |
| `C23_unitary` | Povm_Props.v | D F |
| `C23_dissipative` | Povm_Props.v | D F |
| `C23_imaginary` | Povm_Props.v | D F |
| `C23_conserves` | Povm_Props.v | D F |
| `C23_sic_one` | Povm_Props.v | D F N |
| `C23_sic_two` | Povm_Props.v | D F N |
| `C24_counts_partial` | PovmOp_Props.v | D F |
| `C24_shared_refuted` | PovmOp_Props.v | D F |
| `C24_empty` | PovmOp_Props.v | none |
| `C25_step` | PovmOp_Props.v | none |
| `C25_keeps` | PovmOp_Props.v | none |
| `C25_start` | PovmOp_Props.v | none |
| `C25_direct_lost` | PovmOp_Props.v | none |
| `C26_distribution` | Povm_Props.v | D F N |
| `C26_unknown` | Povm_Props.v | D F N |
| `C27_spin_flip` | Sampler_Props.v | D F N |
| `C27_spin_flip_Z2` | Sampler_Props.v | D F N |
| `C27_zeroMag` | Sampler_Props.v | D F N |
| `C28_POVM_proposal_partial` | Sampler_Props.v | D F |
| `C28_POVM_probabilities_partial` | Sampler_Props.v | D F |
| `C28_never_decreases_partial` | Sampler_Props.v | D F N |
| `C28_POVM_valid_refuted` | Sampler_Props.v | D F |
| `C28_POVM_symmetric_refuted` | Sampler_Props.v | D F |
| `C29_zeroMag_partial` | Sampler_Props.v | D F N |
| `C29_default_state_refuted` | Sampler_Props.v | D F N |
| `C30_mcmc_partial` | Sampler_Props.v | none |
| `C30_mcmc_device` | Sampler_Props.v | D F N |
| `C30_mcmc_weights` | Sampler_Props.v | D F N |
| `C30_gen_partial` | Sampler_Props.v | D F |
| `C30_mcmc_refuted` | Sampler_Props.v | none |
| `C30_gen_refuted` | Sampler_Props.v | D F |
| `C31_importance` | Sampler_Props.v | D F N |
| `C32_bookkeeping` | Sampler_Props.v | D F N |
| `C32_update` | Sampler_Props.v | D F N |
| `C32_acceptance_ratio` | Sampler_Props.v | D F |
| `C33_consumers` | Keys_Props.v | none |
| `C33_no_reuse_partial` | Keys_Props.v | none |
| `C33_one_rank_partial` | Keys_Props.v | none |
| `C33_set_random_key_refuted` | Keys_Props.v | none |
| `C34_enumeration_partial` | Exact_Props.v | none |
| `C34_many_states_partial` | Exact_Props.v | none |
| `C34_enumeration_refuted` | Exact_Props.v | none |
| `C35_probabilities` | Exact_Props.v | C D F N |
| `C36_restored_partial` | Vqs_Props.v | D F |
| `C36_untouched_partial` | Vqs_Props.v | D |
| `C36_restored_refuted` | Vqs_Props.v | D F |
| `C37_distribution_partial` | Sym_Props.v | C D F N |
| `C37_normalised_partial` | Sym_Props.v | C D F N |
| `C37_lpf_refuted` | Sym_Props.v | C D F N |
| `C37_exp_refuted` | Sym_Props.v | C D F N |
| `C38_batched` | Vqs_Props.v | none |
| `C39_set_get_partial` | Vqs_Props.v | D F |
| `C39_get_set` | Vqs_Props.v | D F |
| `C39_update_partial` | Vqs_Props.v | D F |
| `C39_short_partial` | Vqs_Props.v | D |
| `C39_length_refuted` | Vqs_Props.v | D |
| `C39_uninitialised_refuted` | Vqs_Props.v | D |
| `C40_gradients_partial` | Vqs_Props.v | D F |
| `C40_gradients_refuted` | Vqs_Props.v | D F N |
| `C40_real_refuted` | Vqs_Props.v | D F N |
| `C41_dict` | Vqs_Props.v | D |
| `C41_nonholomorphic_refuted` | Vqs_Props.v | D |
| `C42_group` | Sym_Props.v | D |
| `C42_count` | Sym_Props.v | D |
| `C42_generated` | Sym_Props.v | D |
| `C43_group` | Sym_Props.v | D |
| `C43_generated` | Sym_Props.v | D |
| `C44_action` | Sym_Props.v | none |
| `C44_exp` | Sym_Props.v | C D F N |
| `C44_invariant_exp` | Sym_Props.v | C D F N |
| `C44_invariant_log` | Sym_Props.v | D F |
| `C44_invariant_sep` | Sym_Props.v | C D F N |
| `C44_ring` | Sym_Props.v | C D F N |
| `C44_average_partial` | Sym_Props.v | C D F N |
| `C44_average_refuted` | Sym_Props.v | C D F N |
| `C45_normalised_partial` | Rnn_Props.v | C D F N |
| `C45_batch_partial` | Rnn_Props.v | C D F N |
| `C45_causal` | Rnn_Props.v | C D F N |
| `C45_complex_refuted` | Rnn_Props.v | C D F N |
| `C46_normalised_partial` | Rnn_Props.v | C D F N |
| `C46_batch_partial` | Rnn_Props.v | C D F N |
| `C46_causal` | Rnn_Props.v | C D F N |
| `C46_complex_refuted` | Rnn_Props.v | C D F N |
| `C46_gru_refuted` | Rnn_Props.v | none |
| `C47_cnn` | Cnn_Props.v | D F N |
| `C47_cpx_partial` | Cnn_Props.v | D F N |
| `C47_cpx_refuted` | Cnn_Props.v | D F N |
| `C48_log_cosh` | Rbm_Props.v | C D F N |
| `C48_bounded` | Rbm_Props.v | C D F N |
| `C48_amplitude` | Rbm_Props.v | C D F N |
| `C48_amplitude_nospinflip` | Rbm_Props.v | C D F N |
| `C48_spinflip` | Rbm_Props.v | C D F N |
| `C48_real_amplitude` | Rbm_Props.v | C D F N |
| `C49_euler` | Stepper_Props.v | C D F N |
| `C49_heun` | Stepper_Props.v | C D F N |
| `C49_euler_global` | Stepper_Props.v | C D F N |
| `C49_heun_global` | Stepper_Props.v | C D F N |
| `C50_step_partial` | Stepper_Props.v | C D F N |
| `C50_run_partial` | Stepper_Props.v | C D F N |
| `C50_maxstep_refuted` | Stepper_Props.v | C D F N |
| `C50_nan_refuted` | Stepper_Props.v | C D F N |
| `C51_terminates` | Stepper_Props.v | C D F N |
| `C51_bound` | Stepper_Props.v | D F |
| `C51_bounded` | Stepper_Props.v | C D F N |
| `C52_real` | Tdvp_Props.v | D F N |
| `C52_imag` | Tdvp_Props.v | D F N |
| `C52_zero` | Tdvp_Props.v | D F N |
| `C53_partial` | Tdvp_Props.v | D F N |
| `C53_no_iteration` | Tdvp_Props.v | D F N |
| `C53_no_iteration_refuted` | Tdvp_Props.v | D F N |
| `C53_endless_refuted` | Tdvp_Props.v | D F N |
| `C54_restored_partial` | Tdvp_Props.v | D F N |
| `C54_minsr_restored_partial` | Tdvp_Props.v | D F N |
| `C54_crossval` | Tdvp_Props.v | D F N |
| `C54_raises_refuted` | Tdvp_Props.v | D F N |
| `C55_minsr` | Tdvp_Props.v | D F N |
| `C56_history_partial` | Tdvp_Props.v | D F N |
| `C56_snr_partial` | Tdvp_Props.v | D F N |
| `C56_exact_refuted` | Tdvp_Props.v | D F N |
| `C57_order_partial` | Output_Props.v | D |
| `C57_aligned_partial` | Output_Props.v | D |
| `C57_append_only_partial` | Output_Props.v | D |
| `C57_late_refuted` | Output_Props.v | D |
| `C57_failed_refuted` | Output_Props.v | D |
| `C57_shrink_refuted` | Output_Props.v | D |
| `C58_retrieve_partial` | Output_Props.v | D F |
| `C58_negative_time_refuted` | Output_Props.v | D F |
| `C58_failing_refuted` | Output_Props.v | D F |
| `C59_redirect_partial` | Output_Props.v | D |
| `C59_arrives_partial` | Output_Props.v | D |
| `C59_metadata_partial` | Output_Props.v | D |
| `C59_kept_partial` | Output_Props.v | D |
| `C59_init` | Output_Props.v | none |
| `C59_other_ranks` | Output_Props.v | D |
| `C59_root_refuted` | Output_Props.v | D |
| `C60_totals_partial` | Output_Props.v | D F |
| `C60_unstarted_refuted` | Output_Props.v | D F |
| `C61_search_partial` | Gs_Props.v | D F |
| `C61_returns_partial` | Gs_Props.v | D F |
| `C61_start_refuted` | Gs_Props.v | D F |
| `C61_extra_step_refuted` | Gs_Props.v | D F |
| `C61_stale_variance_refuted` | Gs_Props.v | D F |
| `C61_shift_left_refuted` | Gs_Props.v | D F |
| `C62_measure_partial` | Measure_Props.v | D F N |
| `C62_means_partial` | Measure_Props.v | D F N |
| `C62_devices_refuted` | Measure_Props.v | D F N |
| `C62_bare_tuple_refuted` | Measure_Props.v | D F N |
| `C62_povm_partial` | Measure_Props.v | D F N |
| `C62_povm_error_refuted` | Measure_Props.v | D F N |
| `C63_first_call_partial` | Init_Props.v | none |
| `C63_repeated_partial` | Init_Props.v | none |
| `C63_second_call_refuted` | Init_Props.v | none |
| `C63_two_nets_refuted` | Init_Props.v | none |
| `C63_ring_rotation_refuted` | Init_Props.v | none |
| `C63_three_dimensions_refuted` | Init_Props.v | none |
| `C64_selection_partial` | Devices_Props.v | none |
| `C64_collectives_partial` | Devices_Props.v | none |
| `C64_first_call_partial` | Devices_Props.v | none |
| `C64_changed_partial` | Devices_Props.v | none |
| `C64_mydevice_constant_refuted` | Devices_Props.v | none |
| `C64_mydevice_refuted` | Devices_Props.v | none |
| `C64_order_refuted` | Devices_Props.v | none |
| `C64_objects_refuted` | Devices_Props.v | none |
| `C64_empty_selection_refuted` | Devices_Props.v | none |
| `C65_character` | Sym_Props.v | D F |
| `C65_generators` | Sym_Props.v | D F |
| `C65_dropped_refuted` | Sym_Props.v | D F |
| `C66_character` | Square_Props.v | D F |
| `C66_count` | Square_Props.v | D |
| `C66_symnet` | Square_Props.v | C D F N |
| `C66_unchecked_refuted` | Square_Props.v | D F |
| `C67_invariant_partial` | Cnn_Props.v | D F |
| `C67_spinflip_refuted` | Cnn_Props.v | D F N |
| `C67_reshape` | Cnn_Props.v | D |
| `C68_recorded` | Tdvp_Props.v | D F N |
| `C69_stored` | Output_Props.v | none |
| `C69_dataset` | Output_Props.v | none |
| `C69_dataset_root` | Output_Props.v | none |
| `C69_final` | Output_Props.v | D |
| `C69_twice` | Output_Props.v | none |
| `C69_other_ranks` | Output_Props.v | none |
| `C70_expectation_partial` | Vmc_Props.v | C D F N |
| `C70_pauli_partial` | Vmc_Props.v | C D F N |
| `C70_convention_refuted` | Vmc_Props.v | C D F N |
| `C71_force` | Vmc_Props.v | C D F N |
| `C71_descent` | Vmc_Props.v | C D F N |
| `C72_conserved` | Vmc_Props.v | C D F N |
| `C72_residual` | Vmc_Props.v | C D F N |
| `C73_two_networks` | Wrap_Props.v | D F N |
| `C73_orbit` | Wrap_Props.v | D |
| `C73_sampler_net_partial` | Wrap_Props.v | D F |
| `C73_symmetrised` | Wrap_Props.v | D F |
| `C73_markov_partial` | Wrap_Props.v | C D F N |
| `C73_complex_phase_refuted` | Wrap_Props.v | C D F N |
| `C74_delegation` | Wrap_Props.v | none |
| `C74_usable` | Wrap_Props.v | D F |
| `C74_refused` | Wrap_Props.v | D F |
| `C74_born_partial` | Wrap_Props.v | C D F N |
| `C74_symmetrised_partial` | Wrap_Props.v | C D F N |
| `C74_default_refuted` | Wrap_Props.v | C D F N |
| `C74_complex_phase_refuted` | Wrap_Props.v | C D F N |
| `C74_nested_refuted` | Wrap_Props.v | C D F N |
| `C75_ffn_partial` | Net_Props.v | D F |
| `C75_no_function` | Net_Props.v | none |
| `C75_extra_refuted` | Net_Props.v | D F |
| `C75_parity` | Net_Props.v | D F |
| `C76_dtype_partial` | Net_Props.v | none |
| `C76_two_digits` | Net_Props.v | none |
| `C76_dtype_refuted` | Net_Props.v | none |
| `C76_names` | Net_Props.v | none |
| `C76_suffix` | Net_Props.v | none |
| `C76_cplx_bound` | Net_Props.v | D F N |
| `C76_cplx_rank` | Net_Props.v | D F N |
| `C76_cplx_init_bound` | Net_Props.v | D F |
| `C77_relay_1d` | Net_Props.v | D |
| `C77_relay_2d` | Net_Props.v | D |
| `C77_vanilla_1d` | Net_Props.v | D F |
| `C77_vanilla_2d` | Net_Props.v | D F |
| `C77_defined_1d` | Net_Props.v | D |
| `C77_defined_2d` | Net_Props.v | D |
| `C77_gated` | Net_Props.v | D F |
| `C77_custom_2d_refuted` | Net_Props.v | D |
| `C77_mismatch` | Net_Props.v | D |
| `C78_scaled_2d_partial` | Net_Props.v | D F N |
| `C78_scaled_1d_partial` | Net_Props.v | D F N |
| `C78_input_1d_refuted` | Net_Props.v | D F N |
| `C78_complex_refuted` | Net_Props.v | D F N |
| `C79_estimator_gradient` | Est_Props.v | D F |
| `C79_energy_gradient_partial` | Est_Props.v | D F N |
| `C79_no_parameters` | Est_Props.v | D F N |
| `C80_wave_function_1d` | Rnet_Props.v | C D F N |
| `C80_wave_function_2d_partial` | Rnet_Props.v | C D F N |
| `C80_gru_2d_refuted` | Rnet_Props.v | C D F N |
| `C80_unknown_name` | Rnet_Props.v | C D F N |
| `C80_real_output` | Rnet_Props.v | C D F N |
| `C81_exact_partial` | Plain_Props.v | C D F N |
| `C81_markov_partial` | Plain_Props.v | C D F N |
| `C81_gradient_partial` | Plain_Props.v | D F N |
| `C81_estimator_partial` | Plain_Props.v | C D F N |
| `C81_plain_partial` | Plain_Props.v | C D F N |
| `C81_exact_refuted` | Plain_Props.v | C D F N |
| `C81_markov_refuted` | Plain_Props.v | C D F N |
| `C81_gradient_refuted` | Plain_Props.v | D F N |
| `C82_new` | Evo_Props.v | D |
| `C82_report_partial` | Evo_Props.v | D F N |
| `C82_keeps` | Evo_Props.v | D F N |
| `C82_euler_partial` | Evo_Props.v | D F N |
| `C82_heun_partial` | Evo_Props.v | D F N |
| `C82_adaptive_partial` | Evo_Props.v | C D F N |
| `C82_evolve_heun_partial` | Evo_Props.v | D F N |
| `C82_evolve_adaptive_partial` | Evo_Props.v | C D F N |
| `C82_returns` | Evo_Props.v | C D F N |
| `C82_evolve_returns` | Evo_Props.v | C D F N |
| `C82_trajectory` | Evo_Props.v | C D F N |
| `C82_minsr` | Evo_Props.v | D F N |
| `C82_metric` | Evo2_Props.v | D F N |
| `C82_values_partial` | Evo2_Props.v | D F N |
| `C82_set_cross_validation` | Evo2_Props.v | none |
| `C82_S_refuted` | Evo_Props.v | D F N |
| `C83_spin_flip_partial` | Ergo_Props.v | C D F N |
| `C83_spin_flip_Z2_partial` | Ergo_Props.v | C D F N |
| `C83_spin_flip_iff` | Ergo_Props.v | C D F N |
| `C83_zeroMag` | Ergo_Props.v | C D F N |
| `C83_alternating` | Ergo_Props.v | D F N |
| `C83_spin_flip_refuted` | Ergo_Props.v | D F N |
| `C84_estimate_partial` | Direct_Props.v | C D F N |
| `C84_measure_partial` | Direct_Props.v | C D F N |
| `C84_error_partial` | Direct_Props.v | C D F N |
| `C84_wave_function_partial` | Direct_Props.v | C D F N |
| `C84_multipleOf_refuted` | Direct_Props.v | D F |
| `C84_devices_refuted` | Direct_Props.v | C D F N |
| `C84_chain_refuted` | Direct_Props.v | D F N |
| `C85_direct_mean_partial` | Conv_Props.v | C D F N |
| `C85_direct_rate_partial` | Conv_Props.v | C D F N |
| `C85_spin_flip_partial` | Conv_Props.v | C D F N |
| `C85_spin_flip_Z2_partial` | Conv_Props.v | C D F N |
| `C85_zeroMag` | Conv_Props.v | C D F N |
| `C85_chain_refuted` | Conv_Props.v | D F N |
| `C85_multipleOf_refuted` | Conv_Props.v | D F N |
| `C86_lindblad` | Many_Props.v | D F N |
| `C86_standard` | Many_Props.v | D F N |
| `C86_observable` | Many_Props.v | D F N |
| `C86_total` | Many_Props.v | D F N |
| `C87_state` | Lind_Props.v | D F N |
| `C87_local` | Lind_Props.v | C D F N |
| `C87_bound` | Lind_Props.v | D F N |
| `C87_recorded` | Lind_Props.v | C D F N |
| `C87_exact` | Lind_Props.v | C D F N |
| `C88_holomorphic_partial` | Msr_Props.v | C D F N |
| `C88_real_partial` | Msr_Props.v | C D F N |
| `C88_real_refuted` | Msr_Props.v | C D F N |
| `C88_nonholomorphic_refuted` | Msr_Props.v | C D F N |
| `C89_poly5` | Poly_Props.v | C D F N |
| `C89_poly6` | Poly_Props.v | C D F N |
| `C89_slope` | Poly_Props.v | D F |
| `C89_parity` | Poly_Props.v | D F |
| `C89_flip_cnn` | Poly_Props.v | D F N |
| `C89_flip_cpx` | Poly_Props.v | D F N |
| `C89_flip_needs_no_bias` | Poly_Props.v | D F N |
| `C90_direct` | MinConv_Props.v | C D F N |
| `C90_spin_flip_partial` | MinConv_Props.v | C D F N |
| `C90_spin_flip_Z2_partial` | MinConv_Props.v | C D F N |
| `C90_zeroMag` | MinConv_Props.v | C D F N |
| `C90_chain_refuted` | MinConv_Props.v | D F N |
| `C91_evolve` | AdErr_Props.v | C D F N |
| `C91_tolerance_partial` | AdErr_Props.v | C D F N |
| `C91_tolerance_refuted` | AdErr_Props.v | C D F N |
| `C92_constructor` | Cache_Props.v | D F |
| `C92_assignments` | Cache_Props.v | D F N |
| `C92_numbers` | Cache_Props.v | D F N |
| `C92_first_use` | Cache_Props.v | D F N |
| `C92_same_mu_partial` | Cache_Props.v | D F N |
| `C92_settings_partial` | Cache_Props.v | D F N |
| `C92_mu_refuted` | Cache_Props.v | C D F N |
| `C92_net_refuted` | Cache_Props.v | C D F N |
| `C93_cnn` | Layers_Props.v | D F N |
| `C93_cpx_partial` | Layers_Props.v | D F N |
| `C93_cpx_refuted` | Layers_Props.v | D F N |
| `C94_recorded` | Ehren_Props.v | C D F N |
| `C94_zero` | Ehren_Props.v | C D F N |
| `C94_follows` | Ehren_Props.v | C D F N |
| `C95_distance` | Ehren_Props.v | C D F N |
| `C95_observables` | Ehren_Props.v | C D F N |
| `C96_spectrum` | Spectrum_Props.v | C D F I N |
| `C96_bounds` | Spectrum_Props.v | C D F I N |
| `C96_deviation` | Spectrum_Props.v | C D F N |
| `C96_ground` | Spectrum_Props.v | C D F I N |
| `C96_search` | Spectrum_Props.v | C D F I N |
| `C97_rate` | Descent_Props.v | C D F N |
| `C97_decay` | Descent_Props.v | C D F I N |
| `C97_converges` | Descent_Props.v | C D F I N |
| `C98_distance` | Open_Props.v | C D F N |
| `C98_growth` | Open_Props.v | D F N |
| `C98_observables` | Open_Props.v | C D F N |
| `C99_once_partial` | Comm_Props.v | D F |
| `C99_newest_partial` | Comm_Props.v | D F |
| `C99_evaluation` | Comm_Props.v | D F |
| `C99_gather_refuted` | Comm_Props.v | D F |
| `C99_local_refuted` | Comm_Props.v | D F |
| `C99_earlier_refuted` | Comm_Props.v | D F |
