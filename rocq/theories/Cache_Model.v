(** Model of MCSampler (/repo/jVMC/sampler.py) as an object: settings, compiled functions and their reuse.  Networks
    that offer no direct sampling; one process with one device (all of them do the same). *)
From Coq Require Import ZArith List Reals Bool Arith.
From Verif Require Import Base Cplx BranchFree_Model Stats_Model Mpi_Model Dist Sampler_Model.
Import ListNotations.

Section Cache.
(** parameters of networks and arguments of update proposers *)
Context {Par Arg : Type}.
(** NQS objects, update proposers are numbered.  [logPsi] evaluates an NQS with parameters; its real part is what get_sampler_net
    returns (vqs.py 347, 352; C73).  [shape], [argShape]: shapes and data types of arrays *)
Variables (logPsi : nat -> Par -> config -> C) (proposer : nat -> Arg -> config -> dist config) (shape : Par -> nat) (argShape : Arg -> nat).

(** what jax.pmap compares when it decides whether a function has to be traced again, sampler.py 271-280: static arguments
    numSamples, thermSweeps, sweepSteps, updateProposer (the static argument sampleShape never changes) and shapes of the
    others: parameters, number of chains, argument of the proposer *)
Record tkey := mk_tkey { k_n : nat; k_therm : nat; k_sweep : nat; k_prop : nat; k_shape : nat; k_arg : nat; k_chains : nat }.
(** sampler.py 271-280: equality of those *)
Definition tkey_eqb (a b : tkey) : bool :=
  (k_n a =? k_n b) && (k_therm a =? k_therm b) && (k_sweep a =? k_sweep b) && (k_prop a =? k_prop b) && (k_shape a =? k_shape b)
  && (k_arg a =? k_arg b) && (k_chains a =? k_chains b).

(** attributes, sampler.py 107-151.  [s_net]: the NQS object; [s_jitd]: _get_samples_jitd, number of samples and the NQS object
    bound by [partial(self._sweep, net=net)]; [s_traces]: what jax keeps of the functions in it: self.mu (line 319) at the time of the trace *)
Record sampler := mk_sampler {
  s_net : nat; s_mu : R; s_lpf : R; s_numSamples : Z; s_therm : nat; s_sweep : nat; s_prop : nat; s_arg : Arg; s_numChains : Z;
  s_states : list config; s_glob : option Z; s_jitd : list (nat * nat); s_traces : list (tkey * R) }.

(** sampler.py 102-151; [updateProposer]: None if not given; the initial states are copies of [initState] *)
Definition make_sampler (net : nat) (isGenerator : bool) (updateProposer : option nat) (arg : Arg) (numChains : nat) (numSamples : Z)
    (therm sweep : nat) (initState : config) (mu lpf : R) : result sampler :=
  if negb isGenerator && (match updateProposer with None => true | _ => false end) then Err RuntimeError
  else if (if Rlt_dec mu 0 then true else if Rlt_dec 2 mu then true else false) then Err ValueError
  else Ok (mk_sampler net mu lpf numSamples therm sweep (match updateProposer with Some p => p | None => 0 end) arg (Z.of_nat numChains)
             (repeat initState numChains) None [] []).

(** sampler.py 153-160 *)
Definition set_number_of_samples (N : Z) (s : sampler) : sampler :=
  mk_sampler (s_net s) (s_mu s) (s_lpf s) N (s_therm s) (s_sweep s) (s_prop s) (s_arg s) (s_numChains s) (s_states s) (s_glob s) (s_jitd s) (s_traces s).
(** sampler.py 177-187: the attribute is created by the first call of sample *)
Definition get_last_number_of_samples (s : sampler) : result Z := match s_glob s with Some g => Ok g | None => Err AttributeError end.

(** dictionary access, sampler.py 268-271 *)
Definition jit_net (n : nat) (s : sampler) : option nat := match find (fun e => fst e =? n) (s_jitd s) with Some e => Some (snd e) | None => None end.
(** look-up of jax among the traces, sampler.py 276-280 *)
Definition traced_mu (k : tkey) (s : sampler) : option R := match find (fun e => tkey_eqb (fst e) k) (s_traces s) with Some e => Some (snd e) | None => None end.

(** the parameters of NQS objects (psi.parameters), changed by set_parameters *)
Definition params := nat -> Par.

(** the key of a call with parameters [P] and [n] samples per chain, sampler.py 276-280 *)
Definition key_of (s : sampler) (P : Par) (n : nat) : tkey :=
  mk_tkey n (s_therm s) (s_sweep s) (s_prop s) (shape P) (argShape (s_arg s)) (length (s_states s)).
(** samples per chain and globNumSamples, sampler.py 209-210, 264-265; [numSamples]: None if not given *)
Definition counts (s : sampler) (numSamples : option Z) (multipleOf : Z) : Z * Z :=
  distribute_sampling 0 1 (match numSamples with Some n => n | None => s_numSamples s end) (Some 1%Z) (Z.lcm (s_numChains s) multipleOf).

(** [sample], sampler.py 209-223 with 252-287.  [parameters]: None if not given.  Returns the object afterwards, the configurations,
    logarithmic amplitudes (lines 282-285 evaluate with the parameters that were used) and weights.  The compiled function is called
    with the current settings and parameters, but contains the NQS object of its creation and the exponent mu of its trace;
    logAccProb of the initial states (line 262, 348-353) is computed anew. *)
Definition sample (ps : params) (parameters : option Par) (numSamples : option Z) (multipleOf : Z) (s : sampler)
    : dist (sampler * (list config * list C * list R)) :=
  let P := match parameters with Some P => P | None => ps (s_net s) end in
  let c0 := mc_init (fun x => Re (logPsi (s_net s) P x)) (s_mu s) (s_states s) in
  let '(n, glob) := counts s numSamples multipleOf in
  let n := Z.to_nat n in
  let key := key_of s P n in
  let '(net, jitd) := match jit_net n s with Some q => (q, s_jitd s) | None => (s_net s, s_jitd s ++ [(n, s_net s)]) end in
  let '(mu, traces) := match traced_mu key s with Some m => (m, s_traces s) | None => (s_mu s, s_traces s ++ [(key, s_mu s)]) end in
  r <~ get_samples (fun x => Re (logPsi net P x)) mu (proposer (s_prop s) (s_arg s)) n (s_therm s) (s_sweep s) c0;;
  let coeffs := map (logPsi (s_net s) P) (snd r) in
  ret (mk_sampler (s_net s) (s_mu s) (s_lpf s) (s_numSamples s) (s_therm s) (s_sweep s) (s_prop s) (s_arg s) (s_numChains s)
         (c_states (fst r)) (Some glob) jitd traces,
       (snd r, coeffs, List.concat (List.concat (mcmc_weights (s_lpf s) (s_mu s) [[coeffs]])))).

(** ** what a program can do with the sampler between calls (sampler.py 107-140: attributes without access protection) *)
Inductive op :=
| SetNumberOfSamples (N : Z)                     (* sampler.set_number_of_samples(N) *)
| SetParameters (net : nat) (P : Par)            (* psi.set_parameters(P) *)
| SetTherm (n : nat) | SetSweep (n : nat)        (* sampler.thermalizationSweeps = n, sampler.sweepSteps = n *)
| SetProposer (p : nat) | SetArg (a : Arg)       (* sampler.updateProposer = p, sampler.updateProposerArg = a *)
| SetStates (l : list config)                    (* sampler.states = l *)
| SetLpf (x : R)                                 (* sampler.logProbFactor = x *)
| SetMu (mu : R)                                 (* sampler.mu = mu *)
| SetNet (net : nat)                             (* sampler.net = psi *)
| Sample (parameters : option Par) (numSamples : option Z) (multipleOf : Z).

(** assignments to the attributes of sampler.py 107-140 *)
Definition assign (o : op) (s : sampler) : sampler :=
  match o with
  | SetNumberOfSamples N => set_number_of_samples N s
  | SetTherm n => mk_sampler (s_net s) (s_mu s) (s_lpf s) (s_numSamples s) n (s_sweep s) (s_prop s) (s_arg s) (s_numChains s) (s_states s) (s_glob s) (s_jitd s) (s_traces s)
  | SetSweep n => mk_sampler (s_net s) (s_mu s) (s_lpf s) (s_numSamples s) (s_therm s) n (s_prop s) (s_arg s) (s_numChains s) (s_states s) (s_glob s) (s_jitd s) (s_traces s)
  | SetProposer p => mk_sampler (s_net s) (s_mu s) (s_lpf s) (s_numSamples s) (s_therm s) (s_sweep s) p (s_arg s) (s_numChains s) (s_states s) (s_glob s) (s_jitd s) (s_traces s)
  | SetArg a => mk_sampler (s_net s) (s_mu s) (s_lpf s) (s_numSamples s) (s_therm s) (s_sweep s) (s_prop s) a (s_numChains s) (s_states s) (s_glob s) (s_jitd s) (s_traces s)
  | SetStates l => mk_sampler (s_net s) (s_mu s) (s_lpf s) (s_numSamples s) (s_therm s) (s_sweep s) (s_prop s) (s_arg s) (s_numChains s) l (s_glob s) (s_jitd s) (s_traces s)
  | SetLpf x => mk_sampler (s_net s) (s_mu s) x (s_numSamples s) (s_therm s) (s_sweep s) (s_prop s) (s_arg s) (s_numChains s) (s_states s) (s_glob s) (s_jitd s) (s_traces s)
  | SetMu m => mk_sampler (s_net s) m (s_lpf s) (s_numSamples s) (s_therm s) (s_sweep s) (s_prop s) (s_arg s) (s_numChains s) (s_states s) (s_glob s) (s_jitd s) (s_traces s)
  | SetNet q => mk_sampler q (s_mu s) (s_lpf s) (s_numSamples s) (s_therm s) (s_sweep s) (s_prop s) (s_arg s) (s_numChains s) (s_states s) (s_glob s) (s_jitd s) (s_traces s)
  | SetParameters _ _ | Sample _ _ _ => s
  end.
(** vqs.py 409-425 (set_parameters) *)
Definition assign_params (o : op) (ps : params) : params :=
  match o with SetParameters q P => fun i => if (i =? q)%nat then P else ps i | _ => ps end.
(** one operation (sampler.py 189, 153): all possible results *)
Definition step (o : op) (w w' : sampler * params) : Prop :=
  match o with
  | Sample P n k => exists r, outcome (sample (snd w) P n k (fst w)) (fst w', r) /\ snd w' = snd w
  | _ => w' = (assign o (fst w), assign_params o (snd w))
  end.
End Cache.
Arguments sampler : clear implicits.
Arguments op : clear implicits.
