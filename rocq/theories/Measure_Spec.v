(** Mean, variance and standard error of weighted samples. *)
From Coq Require Import String List Arith Reals.
From Verif Require Import Base Cplx Mpi_Spec Measure_Model.
Import ListNotations.
Local Open Scope R_scope.

(** the operators and their arguments that an entry of the dictionary asks for: one operator, or a list
    whose members are operators or tuples of an operator and arguments *)
Inductive asks_item : value -> nat * list value -> Prop :=
| asks_plain o : asks_item (VOp o) (o, [])
| asks_args o args : asks_item (VSeq (VOp o :: args)) (o, args).
Inductive asks : value -> list (nat * list value) -> Prop :=
| asks_one o : asks (VOp o) [(o, [])]
| asks_many items calls : Forall2 asks_item items calls -> asks (VSeq items) calls.

(** weighted mean of the real parts *)
Definition rmean (xs : list (R * C)) : R := rsum (map (fun px => fst px * Re (snd px)) xs).
(** standard error of the mean of n samples *)
Definition standard_error (var : R) (n : option nat) : R :=
  match n with Some n => sqrt (var / INR n) | None => 0 end.

(** a real function of the samples as (weight, value) pairs *)
Definition weighted (f : list nat -> R) (states : list (list (list (list nat)))) (p : list (list (list R))) : list (R * R) :=
  map (fun ps => (fst ps, f (snd ps))) (combine (concat (concat p)) (concat (concat states))).
Definition mean_of (xs : list (R * R)) : R := rsum (map (fun px => fst px * snd px) xs).
Definition var_of (xs : list (R * R)) : R := rsum (map (fun px => fst px * (snd px - mean_of xs)^2) xs).

(** average of an observable over the sites, and of its product with the site d to the left (periodically) *)
Definition site_mean (obs : nat -> R) (s : list nat) : R := rsum (map obs s) / INR (length s).
Definition site_corr (d : nat) (obs : nat -> R) (s : list nat) : R :=
  rsum (map (fun j => obs (nth j s O) * obs (nth ((j + d) mod length s) s O)) (seq 0 (length s))) / INR (length s).
