(** Model of [measure] (/repo/jVMC/util/util.py 91-157) and [measure_povm] (operator/povm.py 16-49,
    307-333).  Arrays of samples are indexed by process, device, batch; the model gives the result on one
    process. *)
From Coq Require Import String List Arith Reals.
From Verif Require Import Base Cplx Mpi_Model.
Import ListNotations.
Local Open Scope R_scope.

(** Values in the dictionary of observables: operators, iterables (lists, tuples, arrays), anything else;
    util.py 133-144.  Operators are not iterable. *)
Inductive value := VOp (o : nat) | VSeq (l : list value) | VArg (a : nat).

(** [get_iterable], util.py 19-23 *)
Definition get_iterable (v : value) : list value := match v with VSeq l => l | _ => [v] end.

(** [tmpErrors], util.py 150: the variance has no imaginary part; the number of samples is infinite for the
    exact sampler ([None]) *)
Definition mc_error (var : C) (numSamples : option nat) : R :=
  match numSamples with Some n => sqrt (Re var) / sqrt (INR n) | None => 0 end.

(** the value on process [rank] of a collective operation *)
Definition at_rank {A} (rank : nat) (l : list (result A)) : result A := nth rank l (Err Blocked).

(** [str(key)], povm.py 43 *)
Fixpoint digits (fuel n : nat) : string :=
  let d := String (Ascii.ascii_of_nat (48 + n mod 10)) EmptyString in
  match fuel with
  | O => d
  | S f => if (n <? 10)%nat then d else (digits f (n / 10) ++ d)%string
  end.
(** [name + "_corr_L" + str(key)], povm.py 43 *)
Definition corr_name (name : string) (key : nat) : string := (name ++ "_corr_L" ++ digits key key)%string.

Section Measure.
(* [op.get_O_loc(sampleConfigs, psi, sampleLogPsi, *args)] on all processes, util.py 146 *)
Variable get_O_loc : nat -> list value -> result (list local).
(* weights returned by the sampler, [sampler.get_last_number_of_samples()] *)
Variable p : list (list (list R)).
Variable numSamples : option nat.

(** one pass of the loop over operators, util.py 139-150: mean, variance, error *)
Definition measure_op (rank : nat) (item : value) : result (C * C * R) :=
  do call <- match item with
             | VSeq [] => Err IndexError
             | VSeq (op :: args) => Ok (op, args)
             | v => Ok (v, [])
             end;
  match fst call with
  | VOp o =>
      do Oloc <- get_O_loc o (snd call);
      do m <- at_rank rank (global_mean Oloc p);
      do v <- at_rank rank (global_variance Oloc p);
      Ok (m, v, mc_error v numSamples)
  | _ => Err AttributeError
  end.

(** the loop over operators, util.py 135-155: real parts of the three arrays *)
Fixpoint measure_ops (rank : nat) (items : list value) : result (list R * list R * list R) :=
  match items with
  | [] => Ok ([], [], [])
  | item :: items' =>
      do mve <- measure_op rank item;
      do r <- measure_ops rank items';
      let '(ms, vs, es) := r in
      let '(m, v, e) := mve in
      Ok (Re m :: ms, Re v :: vs, e :: es)
  end.

(** the loop over names, util.py 131-157 *)
Fixpoint measure (rank : nat) (observables : list (string * value)) : result (list (string * (list R * list R * list R))) :=
  match observables with
  | [] => Ok []
  | (name, ops) :: rest =>
      do r <- measure_ops rank (get_iterable ops);
      do rs <- measure rank rest;
      Ok ((name, r) :: rs)
  end.
End Measure.

(** ** POVM observables *)

(** [jnp.mean(.., axis=-1)], povm.py 259 *)
Definition spin_average (x : list R) : R := rsum x / INR (length x).
(** [jnp.roll(x, k)], povm.py 258 *)
Definition roll (k : nat) (x : list R) : list R :=
  let k' := (k mod length x)%nat in skipn (length x - k') x ++ firstn (length x - k') x.
(** povm.py 257-258 *)
Definition correlate (k : nat) (x : list R) : list R := map (fun ab => fst ab * snd ab) (combine x (roll k x)).

(** [evaluate_observable] for one sample, povm.py 317-333: outcomes of the sites, flattened; in two
    dimensions, [jnp.roll] with axis 0 of an L x L array shifts the flattened array by corrLen * L.
    Indices outside of the array of the observable are not modelled. *)
Definition site_values (obs : nat -> R) (s : list nat) : list R := map obs s.
(** mean over the sites, povm.py 318, 324, 333 *)
Definition sample_mean (obs : nat -> R) (s : list nat) : R := spin_average (site_values obs s).
(** correlator at distance corrLen, povm.py 321-323, 329-332; [stride] is 1 in one dimension, L in two *)
Definition sample_corr (stride corrLen : nat) (obs : nat -> R) (s : list nat) : R :=
  spin_average (correlate (corrLen * stride) (site_values obs s)).

(** a function of one sample on all processes, devices, batch entries (pmap, vmap: povm.py 253-259) *)
Definition on_samples (f : list nat -> R) (states : list (list (list (list nat)))) : list local :=
  map (map (map (fun s => RtoC (f s)))) states.

(** povm.py 38-40: (mean, variance, MC_error) *)
Definition povm_entry := (R * R * R)%type.

Section MeasurePovm.
(* lattice: dim = "1D" or not, number L; povm.py 317, 320 *)
Variable oneD : bool.
Variable L : nat.
(* samples, weights, [sampler.get_last_number_of_samples()] *)
Variable states : list (list (list (list nat))).
Variable p : list (list (list R)).
Variable numSamples : option nat.

(** division by [jnp.sqrt(sampler.get_last_number_of_samples())], povm.py 40, 47 *)
Definition over_sqrt_n (x : R) : R := match numSamples with Some n => x / sqrt (INR n) | None => 0 end.

(** the branch for other dimensions reshapes the samples to one device, povm.py 327, 331, 333 *)
Definition device_check : result unit :=
  if oneD then Ok tt
  else if forallb (fun d : list (list (list nat)) => Nat.eqb (length d) 1) states then Ok tt else Err ShapeError.

(** lines 42-47, one correlator; [mean] and [variance] are those of the observable *)
Definition povm_corr (rank : nat) (obs : nat -> R) (mean variance : R) (key : nat) : result povm_entry :=
  let value := on_samples (sample_corr (if oneD then 1 else L) key obs) states in
  do m <- at_rank rank (global_mean value p);
  do v <- at_rank rank (global_variance value p);
  Ok (Re m - mean * mean, Re v, over_sqrt_n variance).

(** lines 42-47 *)
Fixpoint povm_corrs (rank : nat) (name : string) (obs : nat -> R) (mean variance : R) (keys : list nat)
  : result (list (string * povm_entry)) :=
  match keys with
  | [] => Ok []
  | key :: keys' =>
      do e <- povm_corr rank obs mean variance key;
      do r <- povm_corrs rank name obs mean variance keys';
      Ok ((corr_name name key, e) :: r)
  end.

(** lines 35-49 *)
Fixpoint measure_povm (rank : nat) (observables : list (string * (nat -> R))) : result (list (string * povm_entry)) :=
  match observables with
  | [] => Ok []
  | (name, obs) :: rest =>
      do _ <- device_check;
      let results0 := on_samples (sample_mean obs) states in
      do m <- at_rank rank (global_mean results0 p);
      do v <- at_rank rank (global_variance results0 p);
      do cs <- povm_corrs rank name obs (Re m) (Re v) (seq 0 L);
      do r <- measure_povm rank rest;
      Ok ((name, (Re m, Re v, over_sqrt_n (Re v))) :: cs ++ r)
  end.
End MeasurePovm.
