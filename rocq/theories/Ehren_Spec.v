(** Exact quantum dynamics and the distance of two states, written without the model. *)
From Coq Require Import ZArith List Reals.
From Verif Require Import Base Cplx Stats_Spec BranchFree_Model BranchFree_Spec Vmc_Spec.
Import ListNotations.

(** at the time t the wave function chi moves with the velocity -x H chi: the Schroedinger equation
    for x = i, descent in imaginary time for x = 1 *)
Definition flows (basis : list config) (x : C) (H : wavefun -> wavefun) (chi : R -> wavefun) (t : R) : Prop :=
  forall s, In s basis -> cderiv (fun t' => chi t' s) t (- x * H (chi t) s)%C.

(** probability to find one state in the other *)
Definition fidelity (basis : list config) (phi chi : wavefun) : R :=
  (Cnorm2 (braket basis phi chi) / (norm2 basis phi * norm2 basis chi))%R.
(** trace distance of the two pure states *)
Definition trace_distance (basis : list config) (phi chi : wavefun) : R := sqrt (1 - fidelity basis phi chi).

(** the log-amplitudes change along the curve theta at the time t as the velocity u and the
    log-derivatives g tell *)
Definition follows_chain_rule (n : nat) (lp : (nat -> R) -> config -> C) (theta : R -> nat -> R) (u : nat -> R) (g : config -> nat -> C) (t : R) : Prop :=
  forall s, cderiv (fun t' => lp (theta t') s) t (csumn n (fun k => (g s k * RtoC (u k))%C)).
