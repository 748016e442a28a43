(** Independent specification for C73 and C74. *)
From Coq Require Import List Reals.
From Verif Require Import Base Cplx BranchFree_Model Dist Sampler_Spec.
Import ListNotations.

(** |psi(s)|^mu for the logarithmic coefficient z = log psi(s) *)
Definition modulus_power (mu : R) (z : C) : R := Rpower (sqrt (Cnorm2 (Cexp z))) mu.

(** [f] computes numbers without imaginary part *)
Definition real_valued (space : list config) (f : config -> result C) : Prop :=
  forall s, In s space -> exists x, f s = Ok (RtoC x).

(** samples of the distribution [d] are configurations of [space], and the probability of every
    configuration is |psi|^(1/kappa), where [f] computes log psi *)
Definition draws_born (space : list config) (kappa : R) (d : dist config) (f : config -> result C) : Prop :=
  (forall s, outcome d s -> In s space)
  /\ forall s, In s space -> exists z, f s = Ok z /\ Pr d s = modulus_power (1 / kappa) z.
(** the same up to a common factor *)
Definition draws_proportional (space : list config) (kappa : R) (d : dist config) (f : config -> result C) : Prop :=
  forall s t, In s space -> In t space -> exists x y, f s = Ok x /\ f t = Ok y
    /\ (Pr d s * modulus_power (1 / kappa) y = Pr d t * modulus_power (1 / kappa) x)%R.
