(** Vocabulary for the statements about time evolution with a TDVP object. *)
From Coq Require Import List Reals.
From Verif Require Import Base Cplx Stats_Model Stepper_Model Vqs_Model Tdvp_Model Evo_Model.
Import ListNotations.
Local Open Scope R_scope.

(** what the object says about the energy, the residuals, the signal-to-noise ratio, the spectrum *)
Definition same_reports (o o' : tdvp) : Prop :=
  get_energy_mean o = get_energy_mean o' /\ get_energy_variance o = get_energy_variance o' /\ get_residuals o = get_residuals o'
  /\ reported_snr o = reported_snr o' /\ get_spectrum o = get_spectrum o' /\ get_metadata o = get_metadata o'.
(** the object holds the same quantum metric *)
Definition same_metric (n : nat) (o o' : tdvp) : Prop := get_S o = get_S o' /\ forall v, S_dot n o v = S_dot n o' v.

(** a vector of [n] numbers from the result of a call, nothing if there is none *)
Definition vector_of (n : nat) (r : result (option (nat -> R))) : list R :=
  match r with Ok (Some u) => map u (seq 0 n) | _ => [] end.

(** Repeated steps of an integrator with step sizes [D], of which each starts where the one before
    ended; the starting points (parameters and time passed) are collected. *)
Fixpoint trajectory {D} (step : D -> R -> list R -> result ((list R * R) * D)) (clock : R -> R) (steps : nat) (d : D) (t : R) (y : list R)
  : result (list R * R * D * list (list R * R)) :=
  match steps with
  | O => Ok (y, t, d, [])
  | S k =>
      do (yd, d') <- step d (clock t) y;
      do r <- trajectory step clock k d' (t + snd yd) (fst yd);
      let '(y', t', d'', ps) := r in Ok (y', t', d'', (y, clock t) :: ps)
  end.
(** two states of a network object that differ in the parameters only *)
Definition same_network (q q' : nqs) : Prop :=
  nq_init q = nq_init q' /\ nq_real q = nq_real q' /\ nq_shapes q = nq_shapes q' /\ nq_other q = nq_other q'.
