(** Specification for steps of a ground state search: what a network with real parameters is, and
    steps that go downhill.  Written without the model of the optimiser. *)
From Coq Require Import List Reals.
From Verif Require Import Base Cplx Vqs_Model Vmc_Spec.
Local Open Scope R_scope.

(** all parameters are real *)
Definition real_parameters (q : nqs) : Prop := Forall (Forall (fun z => Im z = 0)) (nq_params q).
(** moving the n parameters theta with velocity v lowers f to first order unless theta is stationary *)
Definition downhill (n : nat) (f : (nat -> R) -> R) (theta v : nat -> R) : Prop :=
  exists dE, gradient_of n f theta dE
    /\ rsumn n (fun k => dE k * v k) <= 0
    /\ (rsumn n (fun k => dE k * v k) = 0 -> forall k, (k < n)%nat -> dE k = 0).
