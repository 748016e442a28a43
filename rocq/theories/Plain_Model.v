(** Model of variational states whose network returns psi(s) itself: the keyword
    [logarithmic] of /repo/jVMC/vqs.py NQS.  Floating point numbers are real numbers. *)
From Coq Require Import ZArith List Reals Bool.
From Verif Require Import Base Cplx BranchFree_Model OpBase_Model Exact_Model Vqs_Model.
Import ListNotations.

(** vqs.py 115-182 (NQS.__init__): the flag (158) and the network as a function of parameters and
    configuration.  Simplified: one network, no orbit. *)
Record vstate := mk_vstate { vs_log : bool; vs_net : tree -> config -> C }.

(** vqs.py 226-252 (__call__, _eval) for one configuration: the output of the network.  The flag is
    not used. *)
Definition vs_call (q : vstate) (p : tree) (s : config) : C := vs_net q p s.

(** operator/base.py 189-191: the state as the operators see it; they do use the flag *)
Definition vs_operator (q : vstate) (p : tree) : state := mk_state (vs_log q) (vs_call q p).

(** sampler.py 413-432, 504-516 (ExactSampler.sample): probabilities for the basis states stored on
    all ranks and devices, together with the new [lastNorm] *)
Definition vs_exact (lpf lastNorm : R) (q : vstate) (p : tree) (basis : list (list (Z * list config)))
  : list (list (list R)) * R :=
  exact_sample lpf lastNorm (map (map (fun d => (fst d, map (vs_call q p) (snd d)))) basis).

(** vqs.py 347-352 (get_sampler_net), sampler.py 323: the function that drives the Markov chain *)
Definition vs_chain_net (q : vstate) (p : tree) (s : config) : R := Re (vs_call q p s).

(** vqs.py 46-69, 256-287 (gradients at the configuration s): what is differentiated with respect
    to the parameters *)
Definition vs_differentiated (q : vstate) (s : config) (p : tree) : C := vs_call q p s.
