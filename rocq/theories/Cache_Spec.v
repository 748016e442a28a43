(** Vocabulary for the statements about the life of a sampler. *)
From Coq Require Import ZArith List Reals Bool Arith.
From Verif Require Import Base Cplx BranchFree_Model Dist Sampler_Model Cache_Model.
Import ListNotations.

Section Life.
Context {Par Arg : Type}.
Variables (logPsi : nat -> Par -> config -> C) (proposer : nat -> Arg -> config -> dist config) (shape : Par -> nat) (argShape : Arg -> nat).

(** the parameters of a call: those given, else those of the network *)
Definition params_used (ps : nat -> Par) (parameters : option Par) (s : sampler Arg) : Par :=
  match parameters with Some P => P | None => ps (s_net s) end.
(** samples of one chain in a call with the current settings *)
Definition per_chain (s : sampler Arg) (numSamples : option Z) (multipleOf : Z) : nat := Z.to_nat (fst (counts s numSamples multipleOf)).

(** a history: operations, and for every call of [sample] the combination of settings (number of samples per chain, numbers of
    sweeps, proposer, shapes), the exponent mu and the network at that time, in order *)
Inductive history : sampler Arg * (nat -> Par) -> list (op Par Arg) -> list (tkey * R * nat) -> sampler Arg * (nat -> Par) -> Prop :=
| history_new w : history w [] [] w
| history_set w os log w1 o w2 : history w os log w1 -> match o with Sample _ _ _ => False | _ => True end ->
    step logPsi proposer shape argShape o w1 w2 -> history w (os ++ [o]) log w2
| history_sample w os log w1 P n k w2 : history w os log w1 -> step logPsi proposer shape argShape (Sample P n k) w1 w2 ->
    history w (os ++ [Sample P n k])
      (log ++ [(key_of shape argShape (fst w1) (params_used (snd w1) P (fst w1)) (per_chain (fst w1) n k), s_mu (fst w1), s_net (fst w1))]) w2.

(** the sample that current settings and parameters ask for *)
Definition current_draw (s : sampler Arg) (P : Par) (n : nat) : dist (carry * list config) :=
  sample_device (fun x => Re (logPsi (s_net s) P x)) (s_mu s) (proposer (s_prop s) (s_arg s)) n (s_therm s) (s_sweep s) (s_states s).
(** weights of configurations that were drawn from |psi|^mu, for averages with |psi|^(1/logProbFactor) *)
Definition current_weight (s : sampler Arg) (P : Par) (l : list config) (x : config) : R :=
  let w := fun y => exp ((1 / s_lpf s - s_mu s) * Re (logPsi (s_net s) P y)) in (w x / rsum (map w l))%R.
End Life.
