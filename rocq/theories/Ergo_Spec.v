(** Independent specification of what a Monte-Carlo estimate is. *)
From Coq Require Import ZArith List Reals.
From Verif Require Import Base Cplx BranchFree_Model Mpi_Spec Dist Sampler_Spec.
Import ListNotations.
Local Open Scope R_scope.

(** the estimate of the average of [f]: weights times values, over all ranks, devices and chains *)
Definition estimate (f : config -> R) (sample : list (list (list config)) * list (list (list R))) : R :=
  rsum (map (fun ps => fst ps * f (snd ps)) (pairs (fst sample) (snd sample))).

(** chains of all devices of all ranks: [c] ranks, [d] devices each, [k] chains each, in the space *)
Definition chains_in (space : list config) (c d k : nat) (states : list (list (list config))) : Prop :=
  length states = c
  /\ Forall (fun devs => length devs = d /\ Forall (fun ss => length ss = k /\ Forall (fun s => In s space) ss) devs) states.

(** some configuration of the space is less likely than another *)
Definition varies (space : list config) (q : config -> R) : Prop := exists s t, In s space /\ In t space /\ q s <> q t.

(** parity of the number of ones *)
Definition parity (s : config) : bool := Nat.even (ones s).
Definition sign (s : config) : R := if parity s then 1 else -1.
