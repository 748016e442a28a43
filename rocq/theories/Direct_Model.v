(** Model of direct sampling, /repo/jVMC/sampler.py, for all devices of all processes, and of [measure]
    applied to the result. *)
From Coq Require Import String ZArith List Reals.
From Verif Require Import Base Cplx Mpi_Model BranchFree_Model Dist Sampler_Model Measure_Model.
Import ListNotations.

(** sampler.py 210-219 and 232-250 for a generator: every rank works out its own numbers of samples
    (234, mpi_wrapper.py 53-95), every device draws that many configurations with keys of its own and gives them equal
    weights.  [draw] is the distribution of one configuration: net.sample and, with an orbit, a random
    symmetry operation ([direct_sample] in Wrap_Model).  Returns configurations and weights. *)
Definition sample_gen (draw : dist config) (numSamples multipleOf devices : Z) (commSize : nat)
    : dist (list (list (list config)) * list (list (list R))) :=
  r <~ mapD (fun rank =>
      let counts := gen_counts (Z.of_nat rank) (Z.of_nat commSize) numSamples devices multipleOf in
      configs <~ mapD (fun _ => mapD (fun _ => draw) (seq 0 (Z.to_nat (fst counts)))) (seq 0 (Z.to_nat devices));;
      ret (configs, map (map (fun _ => gen_weight (snd counts))) configs)) (seq 0 commSize);;
  ret (map fst r, map snd r).

(** util.py 91-157 with one observable: mean, variance and error reported on [rank] for the sample [q].  [O] are the local
    estimators of the operator, [numSamples] is get_last_number_of_samples (sampler.py 171-181). *)
Definition measure_one (O : config -> C) (numSamples : nat) (rank : nat) (q : list (list (list config)) * list (list (list R)))
    : result (list (string * (list R * list R * list R))) :=
  measure (fun _ _ => Ok (map (map (map O)) (fst q))) (snd q) (Some numSamples) rank [("O"%string, VOp 0)].
