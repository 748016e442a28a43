(** Exact dynamics of open systems and the distance of two distributions of outcomes, written without
    the model. *)
From Coq Require Import List Reals.
From Verif Require Import Base Cplx Stats_Spec Povm_Spec Many_Spec Lind_Spec.
Import ListNotations.
Local Open Scope R_scope.

(** at the time t the density matrix chi follows the Lindblad equation *)
Definition solves_lindblad (N : nat) (terms : list term) (chi : R -> mmat) (t : R) : Prop :=
  forall x y, In x (words 2 N) -> In y (words 2 N) -> cderiv (fun s => chi s x y) t (generator N terms (chi t) x y).
(** Euclidean distance of two functions of the outcomes *)
Definition outcome_distance (N : nat) (P Q : list nat -> R) : R :=
  sqrt (rsum (map (fun a => (P a - Q a) * (P a - Q a)) (words 4 N))).
(** size of a function of the outcomes *)
Definition size (N : nat) (X : list nat -> R) : R := sqrt (rsum (map (fun a => X a * X a) (words 4 N))).
(** under the exact dynamics the size of the outcome probabilities grows at most at the rate L *)
Definition expands_at_most (N : nat) (M : nat -> mat) (terms : list term) (L : R) : Prop :=
  forall sigma, mhermitian N sigma ->
    rsum (map (fun a => probability N M sigma a * inflow N M terms sigma a) (words 4 N))
    <= L * rsum (map (fun a => probability N M sigma a * probability N M sigma a) (words 4 N)).
(** the logarithms change along the curve theta at the time t as the velocity u and the derivatives g tell *)
Definition real_chain_rule (n : nat) (lp : (nat -> R) -> list nat -> R) (theta : R -> nat -> R) (u : nat -> R) (g : list nat -> nat -> R) (t : R) : Prop :=
  forall s, derivable_pt_lim (fun t' => lp (theta t') s) t (rsumn n (fun k => g s k * u k)).
