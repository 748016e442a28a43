(** Probability distributions on measurement outcomes and their motion, written without the model. *)
From Coq Require Import List Reals.
From Verif Require Import Base Cplx Vmc_Spec Povm_Spec Many_Spec.
Import ListNotations.
Local Open Scope R_scope.

(** the distribution with the given logarithms (up to normalisation) on the outcomes of N sites *)
Definition distribution (N : nat) (l : list nat -> R) (a : list nat) : R :=
  exp (l a) / rsum (map (fun b => exp (l b)) (words 4 N)).
(** mean value, covariance and variance *)
Definition average (N : nat) (l : list nat -> R) (X : list nat -> R) : R :=
  rsum (map (fun a => distribution N l a * X a) (words 4 N)).
Definition covariance (N : nat) (l : list nat -> R) (X Y : list nat -> R) : R :=
  average N l (fun a => X a * Y a) - average N l X * average N l Y.
Definition variation (N : nat) (l : list nat -> R) (X : list nat -> R) : R :=
  average N l (fun a => (X a - average N l X) * (X a - average N l X)).
(** g s k are the derivatives of the real function l of n parameters and an outcome *)
Definition real_gradient (n : nat) (l : (nat -> R) -> list nat -> R) (theta : nat -> R) (g : list nat -> nat -> R) : Prop :=
  forall s v, derivable_pt_lim (fun t => l (moved theta v t) s) 0 (rsumn n (fun k => g s k * v k)).
(** the state rho has these outcome probabilities *)
Definition state_of (N : nat) (M : nat -> mat) (P : list nat -> R) (rho : mmat) : Prop :=
  mhermitian N rho /\ forall a, In a (words 4 N) -> probability N M rho a = P a.
(** the probability current into the outcome a under the generator with these terms *)
Definition inflow (N : nat) (M : nat -> mat) (terms : list term) (rho : mmat) (a : list nat) : R :=
  Re (mtr N (mmul N (product_element N M a) (generator N terms rho))).
(** no imaginary-time terms *)
Definition lindbladian (terms : list term) : Prop := Forall (fun t : term => snd (fst (fst t)) <> Cooling) terms.
