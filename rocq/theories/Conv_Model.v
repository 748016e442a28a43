(** Model of the TDVP equation for a sample, /repo/jVMC/util/tdvp.py. *)
From Coq Require Import List Reals.
From Verif Require Import Base Cplx BranchFree_Model Stats_Model Tdvp_Model.
Import ListNotations.

(** tdvp.py 268-281 and 134-148: SampledObs objects of the local energies and of the gradients at the
    sampled configurations, and the equation for them.  [q] is what sampler.sample returns (configurations
    and weights of all devices of all processes), [Eloc] and [G] what hamiltonian.get_O_loc and
    psi.gradients compute for one configuration (the model of these is elsewhere; both act on every
    configuration separately: C16, C38). *)
Definition sampled_equation (c : settings) (o : tdvp) (Eloc : config -> C) (G : config -> nat -> C)
    (q : list (list (list config)) * list (list (list R))) : tdvp * ((nat -> nat -> C) * (nat -> C)) :=
  get_tdvp_equation c o (init (lmap (fun s (_ : unit) => Eloc s) (fst q)) (snd q)) (init (lmap G (fst q)) (snd q)).

(** tdvp.py 136-137: the attributes ElocMean and ElocVar of the object, once there is an equation (no
    simplification; [None] is an object that has not computed an equation, which [sampled_equation] rules out). *)
Definition energy_of (o : tdvp) : option (C * R) := option_map (fun e => (e_mean e, e_var e)) (o_eq o).
