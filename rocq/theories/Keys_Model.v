(** Model of the random keys in /repo/jVMC/sampler.py and the networks' sample functions.
    A key is the path that leads to it: the seed, and the index chosen in every split, last one
    first.  Simplified: the keys obtained from [jax.random.split(key, n)] are represented by
    their index only, so keys of splits of the same key into different numbers count as equal.
    Every function returns the list of keys it consumes, by drawing or splitting. *)
From Coq Require Import List Arith.
Import ListNotations.

(** a jax.random key (sampler.py 133): the path described above *)
Definition key := list nat.
(** [jax.random.PRNGKey(seed)] (sampler.py 133) *)
Definition PRNGKey (seed : nat) : key := [seed].
(** [jax.random.split(key, n)] *)
Definition split (k : key) (n : nat) : list key := map (fun i => i :: k) (seq 0 n).

(** ** consumers *)
(** sampler.py 16 *)
Definition use_spin_flip (k : key) : list key := [k].
(** sampler.py 23-26: key, subkey = split(key); draws with subkey, then key *)
Definition use_POVM (k : key) : list key := [k; 1 :: k; 0 :: k].
(** sampler.py 31-38 *)
Definition use_Z2 (k : key) : list key := [k; 0 :: k; 1 :: k].
(** sampler.py 45-63 *)
Definition use_zeroMag (k : key) : list key := [k; 0 :: k; 1 :: k; 2 :: k].
(** nets/rnn1d_general.py 155-177: split for the batch, for the sites, one draw each *)
Definition use_rnn1d (L batch : nat) (k : key) : list key :=
  k :: flat_map (fun s => s :: split s L) (split k batch).
(** nets/rnn2d_general.py 195-236: split for the batch, the rows, the sites of the row *)
Definition use_rnn2d (Lx Ly batch : nat) (k : key) : list key :=
  k :: flat_map (fun s => s :: flat_map (fun r => r :: split r Ly) (split s Lx)) (split k batch).

(** ** the sampler *)
Section Sampler.
(** consumption of the update proposer, and of [net.sample] with a number of samples *)
Variables (proposer : key -> list key) (netSample : nat -> key -> list key).

(** sampler.py 315-341: keys consumed in one update and the carried key *)
Definition update_keys (chains : nat) (k : key) : list key * key :=
  let newKeys := split k (chains + 1) in
  let carryKey := last newKeys [] in
  let two := split carryKey 2 in
  (k :: flat_map proposer (firstn chains newKeys) ++ [carryKey; nth 0 two []], nth 1 two []).
(** sampler.py 343-344 and 306: all updates of a call on one device *)
Fixpoint updates_keys (n chains : nat) (k : key) : list key * key :=
  match n with
  | O => ([], k)
  | S m => let '(u, k1) := update_keys chains k in let '(v, k2) := updates_keys m chains k1 in (u ++ v, k2)
  end.

(** sampler.py 134-135 on one rank *)
Definition init_keys (seed commSize devices rank : nat) : list key :=
  split (nth rank (split (PRNGKey seed) commSize) []) devices.
(** sampler.py 168-175; the same on all ranks *)
Definition set_random_key (seed devices : nat) : list key := split (PRNGKey seed) devices.

(** sampler.py 275-280: all devices; [n] updates *)
Definition mcmc_keys (n chains : nat) (ks : list key) : list key * list key :=
  let r := map (updates_keys n chains) ks in (concat (map fst r), map snd r).
(** sampler.py 236-249; the symmetry randomisation draws with its keys if there is an orbit *)
Definition gen_keys (n devices : nat) (orbit : bool) (ks : list key) : list key * list key :=
  let tmpKeys := split (hd [] ks) (3 * devices) in
  (hd [] ks :: flat_map (netSample n) (firstn devices (skipn devices tmpKeys)) ++ (if orbit then skipn (2 * devices) tmpKeys else []),
   firstn devices tmpKeys).

(** what a user can do; number of updates / samples may depend on the rank *)
Inductive call := Mcmc (updates : nat -> nat) (chains : nat) | Gen (samples : nat -> nat) (orbit : bool) | SetKey (seed : nat).
(** one call, on all ranks: consumed keys and new keys of all ranks *)
Definition do_call (devices : nat) (c : call) (world : list (list key)) : list key * list (list key) :=
  let r := map (fun rk => match c with
     | Mcmc n chains => mcmc_keys (n (fst rk)) chains (snd rk)
     | Gen n orbit => gen_keys (n (fst rk)) devices orbit (snd rk)
     | SetKey seed => ([], set_random_key seed devices)
     end) (combine (seq 0 (length world)) world) in
  (concat (map fst r), map snd r).
(** several calls in a row (the methods of sampler.py that use self.key) *)
Fixpoint do_calls (devices : nat) (cs : list call) (world : list (list key)) : list key * list (list key) :=
  match cs with
  | [] => ([], world)
  | c :: r => let '(u, w) := do_call devices c world in let '(v, w') := do_calls devices r w in (u ++ v, w')
  end.
(** sampler.py 134-135 on all ranks *)
Definition init_world (seed commSize devices : nat) : list (list key) := map (init_keys seed commSize devices) (seq 0 commSize).
(** all keys consumed by a program: creation of the sampler, then calls *)
Definition consumed (seed commSize devices : nat) (cs : list call) : list key := fst (do_calls devices cs (init_world seed commSize devices)).
End Sampler.
