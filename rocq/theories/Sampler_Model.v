(** Model of the Markov-chain sampler in /repo/jVMC/sampler.py.
    Pseudo random numbers are idealised: [random.randint], [random.bernoulli] and
    [random.choice] return independent, exactly distributed values (key handling is
    modelled separately in Keys_Model.v).  Configurations are flattened (row-major) lists;
    floating point numbers are real numbers. *)
From Coq Require Import ZArith List Reals Bool Arith.
From Verif Require Import Base Cplx Mpi_Model Stats_Model BranchFree_Model Dist.
Import ListNotations.

(** [random.randint(key, (1,), a, b)[0]]: a <= x < b, uniform *)
Definition randint (a b : nat) : dist nat := uniform (seq a (b - a)).
(** [random.bernoulli(key, p)]: True iff a uniform number in [0,1) is smaller than p.
    (p is positive where it is used.) *)
Definition bernoulli (p : R) : dist bool := [(Rmin 1 p, true); ((1 - Rmin 1 p)%R, false)].

(** ** update proposals *)

(** sampler.py 15-19 (unravel_index followed by indexing is indexing of the flattened array) *)
Definition propose_spin_flip (s : config) : dist config :=
  idx <~ randint 0 (length s);;
  ret (scatter1 s idx ((gather1 0 s idx + 1) mod 2)).

(** sampler.py 22-27: the modulus binds to the random number *)
Definition propose_POVM_outcome (s : config) : dist config :=
  idx <~ randint 0 (length s);;
  r <~ randint 0 3;;
  ret (scatter1 s idx (gather1 0 s idx + r mod 4)).

(** [1 - x] on every entry, for entries 0 and 1 (sampler.py 39, 64) *)
Definition flip_all (s : config) : config := map (fun x => 1 - x) s.

(** sampler.py 30-39 *)
Definition propose_spin_flip_Z2 (s : config) : dist config :=
  idx <~ randint 0 (length s);;
  doFlip <~ randint 0 5;;
  let s' := scatter1 s idx ((gather1 0 s idx + 1) mod 2) in
  ret (if doFlip =? 0 then flip_all s' else s').

(** [jnp.cumsum] on the flattened array *)
Fixpoint cumsum (acc : nat) (s : list nat) : list nat :=
  match s with [] => [] | x :: r => (acc + x) :: cumsum (acc + x) r end.
(** [jnp.searchsorted] (left) on a nondecreasing array: the first position whose
    entry is at least [v], the length if there is none *)
Fixpoint searchsorted (l : list nat) (v : nat) : nat :=
  match l with [] => 0 | x :: r => if v <=? x then 0 else S (searchsorted r v) end.

(** sampler.py 51-61 for given bounds; [unravel_index] clips positions out of range *)
Definition zeroMag_move (s : config) (bound_up bound_down : nat) : config :=
  let id_up := Nat.min (searchsorted (cumsum 0 s) bound_up) (length s - 1) in
  let id_down := Nat.min (searchsorted (cumsum 0 (map (fun x => 1 - x) s)) bound_down) (length s - 1) in
  scatter1 (scatter1 s id_up 0) id_down 1.

(** sampler.py 42-64; [s.shape[1]] raises for one-dimensional configurations.  The upper
    bound size/2 + 1 is converted to an integer.  Simplified: other than one or two
    dimensions are not modelled (NotImplemented). *)
Definition propose_spin_flip_zeroMag (shape : list nat) (s : config) : result (dist config) :=
  match shape with
  | [a; b] => Ok (
      bound_up <~ randint 1 (a * b / 2 + 1);;
      bound_down <~ randint 1 (a * b / 2 + 1);;
      doFlip <~ randint 0 5;;
      let s' := zeroMag_move s bound_up bound_down in
      ret (if doFlip =? 0 then flip_all s' else s'))
  | [_] => Err IndexError
  | _ => Err RuntimeError
  end.

(** ** sweeps on one device *)

(** the carry of the loop without the random key: states, logAccProb, numProposed, numAccepted *)
Record carry := mk_carry {
  c_states : list config; c_logAcc : list R; c_numProposed : nat; c_numAccepted : nat }.

Section Sweep.
(** [net] is Re(log psi) as returned by get_sampler_net at the given parameters,
    [prop] the update proposer *)
Variables (net : config -> R) (mu : R) (prop : config -> dist config).

(** sampler.py 319 and 352: mu Re log psi *)
Definition logAcc (s : config) : R := (mu * net s)%R.

(** sampler.py 315-341 (perform_mc_update) *)
Definition perform_mc_update (c : carry) : dist carry :=
  newStates <~ mapD prop (c_states c);;
  let newLogAccProb := map logAcc newStates in
  let P := map2 (fun n o => exp (n - o)) newLogAccProb (c_logAcc c) in
  accepted <~ mapD bernoulli P;;
  ret (mk_carry
    (map2 (fun (acc : bool) on => if acc then snd on else fst on) accepted (combine (c_states c) newStates))
    (map2 (fun (acc : bool) on => if acc then snd on else fst on) accepted (combine (c_logAcc c) newLogAccProb))
    (c_numProposed c + length newStates)
    (c_numAccepted c + length (filter (fun b => b) accepted))).

(** sampler.py 313-346 (_sweep): fori_loop *)
Definition sweep (numSteps : nat) (c : carry) : dist carry := iterD numSteps perform_mc_update c.

(** sampler.py 302-311: the scan; collects the states of all chains after every sweep *)
Fixpoint collect (numSamples sweepSteps : nat) (c : carry) : dist (carry * list (list config)) :=
  match numSamples with
  | O => ret (c, [])
  | S k => c' <~ sweep sweepSteps c;; r <~ collect k sweepSteps c';; ret (fst r, c_states c' :: snd r)
  end.

(** sampler.py 289-311 (_get_samples) *)
Definition get_samples (numSamples thermSweeps sweepSteps : nat) (c : carry) : dist (carry * list config) :=
  c' <~ sweep (thermSweeps * sweepSteps) c;;
  r <~ collect numSamples sweepSteps c';;
  ret (fst r, concat (snd r)).

(** sampler.py 348-359 (_mc_init) on one device *)
Definition mc_init (states : list config) : carry := mk_carry states (map logAcc states) 0 0.

(** sampler.py 262 and 275-280 on one device: initialisation and sampling *)
Definition sample_device (numSamples thermSweeps sweepSteps : nat) (states : list config) : dist (carry * list config) :=
  get_samples numSamples thermSweeps sweepSteps (mc_init states).
End Sweep.

(** sampler.py 361-372: [cs] are the carries of all devices of all ranks; Rdiv by zero
    does not occur because of the test *)
Definition acceptance_ratio (cs : list carry) : R :=
  let numProp := nsum (map c_numProposed cs) in
  if 0 <? numProp then (INR (nsum (map c_numAccepted cs)) / INR numProp)%R else 0%R.

(** ** numbers of samples and weights *)

(** sampler.py 234-250 (_get_samples_gen): configurations per device, globNumSamples *)
Definition gen_counts (rank commSize numSamples devices multipleOf : Z) : Z * Z :=
  distribute_sampling rank commSize numSamples (Some devices) multipleOf.
(** sampler.py 250: every configuration has weight 1 / globNumSamples *)
Definition gen_weight (globNumSamples : Z) : R := (1 / IZR globNumSamples)%R.

(** sampler.py 264: np.lcm of chains and multipleOf; configurations per device are
    (samples per chain) x numChains, line 311 *)
Definition mcmc_counts (rank commSize numSamples devices numChains multipleOf : Z) : Z * Z :=
  let '(n, glob) := distribute_sampling rank commSize numSamples (Some devices) (Z.lcm numChains multipleOf) in
  ((n * numChains)%Z, glob).

(** sampler.py 221-223: weights of configurations of all ranks, devices *)
Definition mcmc_weights (lpf mu : R) (logPsi : list (list (list C))) : list (list (list R)) :=
  let p := map (map (map (fun l => exp ((1 / lpf - mu) * Re l)%R))) logPsi in
  let total := rsum (concat (concat p)) in
  map (map (map (fun x => (x / total)%R))) p.
