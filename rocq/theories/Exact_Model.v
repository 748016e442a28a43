(** Model of ExactSampler in /repo/jVMC/sampler.py (375-525).  Integer overflow of the
    state numbers is not modelled, floating point numbers are real numbers. *)
From Coq Require Import ZArith List Reals Bool Arith.
From Verif Require Import Base Cplx Mpi_Model Stats_Model BranchFree_Model.
Import ListNotations.

Section Basis.
Local Open Scope Z_scope.
(** sampler.py 420-421: states per device before padding is masked; the last entry
    can become negative *)
Definition numStatesPerDevice (myNumStates deviceCount : Z) : list Z :=
  let per := (myNumStates + deviceCount - 1) / deviceCount in
  repeat per (Z.to_nat deviceCount - 1) ++ [per + (myNumStates - deviceCount * per)].

(** [jnp.arange(a, a + n)] *)
Definition zarange (a : Z) (n : nat) : list Z := map (fun i => a + Z.of_nat i) (seq 0 n).

(** sampler.py 424-427: device d holds the numbers myFirstState + d per, ... *)
Definition intReps (myFirstState myNumStates deviceCount : Z) : list (list Z) :=
  let per := (myNumStates + deviceCount - 1) / deviceCount in
  map (fun d => zarange (myFirstState + Z.of_nat d * per) (Z.to_nat per)) (seq 0 (Z.to_nat deviceCount)).

(** sampler.py 434-447 (_get_basis_ldim2): entry i is bit i *)
Definition make_state_ldim2 (N : nat) (intRep : Z) : config :=
  map (fun i => if Z.land (Z.shiftr intRep (Z.of_nat i)) 1 =? 0 then O else 1%nat) (seq 0 N).
(** sampler.py 453-456 (scan_fun), N times *)
Fixpoint scan_digits (N : nat) (lDim c : Z) : list nat :=
  match N with
  | O => []
  | S n => let locState := c mod lDim in Z.to_nat locState :: scan_digits n lDim ((c - locState) / lDim)
  end.
(** sampler.py 449-464 (_get_basis) *)
Definition make_state (N : nat) (lDim intRep : Z) : config := rev (scan_digits N lDim intRep).
(** sampler.py 429-432 *)
Definition make_basis (N : nat) (lDim intRep : Z) : config := if lDim =? 2 then make_state_ldim2 N intRep else make_state N lDim intRep.

(** sampler.py 413-432 (get_basis) on one rank: the basis of all devices with the numbers of states *)
Definition get_basis (rank commSize : Z) (N : nat) (lDim deviceCount : Z) : list (Z * list config) :=
  let '(myNumStates, glob) := distribute_sampling rank commSize (lDim ^ Z.of_nat N) None 1 in
  let myFirstState := first_sample_id rank commSize glob in
  combine (numStatesPerDevice myNumStates deviceCount)
          (map (map (make_basis N lDim)) (intReps myFirstState myNumStates deviceCount)).

(** sampler.py 471-476: the scan keeps the entries with position < numStates, others become
    [zero] *)
Definition mask {A} (zero : A) (numStates : Z) (p : list A) : list A :=
  map (fun ix => if Z.of_nat (fst ix) <? numStates then snd ix else zero) (combine (seq 0 (length p)) p).
End Basis.

(** sampler.py 466-478 (_compute_probabilities) *)
Definition compute_probabilities (lpf lastNorm : R) (numStates : Z) (logPsi : list C) : list R :=
  mask 0%R numStates (map (fun l => exp ((Re l - lastNorm) / lpf)%R) logPsi).

(** sampler.py 504-516 on all ranks and devices: probabilities and the new [lastNorm].
    [data]: for every rank and device the number of states and the log-amplitudes.
    [mpi.global_sum] is the sum over everything (theorem C03). *)
Definition exact_sample (lpf lastNorm : R) (data : list (list (Z * list C))) : list (list (list R)) * R :=
  let p := map (map (fun d => compute_probabilities lpf lastNorm (fst d) (snd d))) data in
  let nrm := rsum (concat (concat p)) in
  (map (map (map (fun x => (x / nrm)%R))) p, (lastNorm + lpf * ln nrm)%R).
(** successive calls, each with its log-amplitudes; the result of the last one.
    [lastNorm] starts with 0 (sampler.py 411). *)
Fixpoint exact_samples (lpf lastNorm : R) (history : list (list (list (Z * list C)))) : R :=
  match history with [] => lastNorm | d :: r => exact_samples lpf (snd (exact_sample lpf lastNorm d)) r end.
