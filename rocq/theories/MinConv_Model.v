(** Model of the MinSR update for a sample, /repo/jVMC/util/minsr.py. *)
From Coq Require Import List Reals.
From Verif Require Import Base Cplx BranchFree_Model Stats_Model Tdvp_Model.
Import ListNotations.

(** minsr.py 123-142 and 60-73: SampledObs objects of the local energies and of the gradients at the sampled
    configurations, and the update for them.  [q] is what sampler.sample returns (configurations and weights of
    all devices of all processes), [Eloc] and [G] what hamiltonian.get_O_loc and psi.gradients compute for one
    configuration (their models are elsewhere; both act on every configuration separately: C16, C38), [pinv] is
    jnp.linalg.pinv.  Timings and the stored mean energy are left out. *)
Definition sampled_minsr (n : nat) (pinv : nat -> (nat -> nat -> C) -> nat -> nat -> C) (Eloc : config -> C) (G : config -> nat -> C)
    (q : list (list (list config)) * list (list (list R))) : nat -> C :=
  minsr_solve n pinv (init (lmap (fun s (_ : unit) => Eloc s) (fst q)) (snd q)) (init (lmap G (fst q)) (snd q)).
