(** Model of /repo/jVMC/sampler.py, MCSampler.sample for all devices of all processes. *)
From Coq Require Import ZArith List Reals.
From Verif Require Import Base Cplx Mpi_Model BranchFree_Model Dist Sampler_Model.
Import ListNotations.

(** sampler.py 221-223 and 252-287 for a network that is not a generator: [states] are the
    current configurations of the chains of all devices of all ranks.  Every rank works out its
    own number of samples per chain (267, mpi_wrapper.py 53-95), every device draws from its own key
    (sampler.py 137-138), and all weights are normalised together.
    Returns the configurations and their weights.  Simplified: the network evaluated on the
    drawn configurations (282-283) and the one that is sampled (259) have the same modulus
    [exp (Re (logPsi s))]. *)
Definition sample_mcmc (logPsi : config -> C) (lpf mu : R) (prop : config -> dist config)
    (numSamples multipleOf devices numChains : Z) (thermSweeps sweepSteps : nat) (states : list (list (list config)))
    : dist (list (list (list config)) * list (list (list R))) :=
  let commSize := Z.of_nat (length states) in
  configs <~ mapD (fun rd =>
      let numSamples := fst (distribute_sampling (Z.of_nat (fst rd)) commSize numSamples (Some devices) (Z.lcm numChains multipleOf)) in
      mapD (fun ss => r <~ sample_device (fun s => Re (logPsi s)) mu prop (Z.to_nat numSamples) thermSweeps sweepSteps ss;; ret (snd r)) (snd rd))
    (combine (seq 0 (length states)) states);;
  ret (configs, mcmc_weights lpf mu (map (map (map logPsi)) configs)).

(** sampler.py 118-121: without [initState] every chain starts with all sites in state 0 *)
Definition initial_states (commSize devices numChains n : nat) : list (list (list config)) :=
  repeat (repeat (repeat (repeat 0 n) numChains) devices) commSize.
