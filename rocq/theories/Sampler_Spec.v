(** Independent specification for the Markov-chain sampler. *)
From Coq Require Import ZArith List Reals Bool Arith.
From Verif Require Import Base Cplx BranchFree_Model Dist.
Import ListNotations.

(** all configurations of n sites with lDim local states *)
Fixpoint all_configs (lDim n : nat) : list config :=
  match n with O => [[]] | S k => flat_map (fun x => map (cons x) (all_configs lDim k)) (seq 0 lDim) end.

(** number of ones; configurations of zeros and ones with equally many of both *)
Definition ones (s : config) : nat := length (filter (fun x => x =? 1) s).
Definition binary (s : config) : Prop := Forall (fun x => x < 2) s.
Definition zero_mag (s : config) : Prop := binary s /\ 2 * ones s = length s.

Definition config_eq_dec : forall s t : config, {s = t} + {s <> t} := list_eq_dec Nat.eq_dec.
(** probability of an outcome *)
Definition Pr (m : dist config) (t : config) : R := E m (fun s => if config_eq_dec s t then 1%R else 0%R).

(** all ways to choose the states of k chains *)
Fixpoint tuples (space : list config) (k : nat) : list (list config) :=
  match k with O => [[]] | S j => flat_map (fun s => map (cons s) (tuples space j)) space end.
(** unnormalised probability |psi|^mu of the states of independent chains; [re] is Re log psi *)
Definition weight (mu : R) (re : config -> R) (ss : list config) : R :=
  big 1%R Rmult (map (fun s => exp (mu * re s)) ss).

(** A proposal on a state space: it stays in the space, it returns something, and
    s -> t is as likely as t -> s. *)
Definition good_proposal (space : list config) (prop : config -> dist config) : Prop :=
  NoDup space
  /\ (forall s, In s space -> mass (prop s) = 1%R /\ forall t, outcome (prop s) t -> In t space)
  /\ forall s t, In s space -> In t space -> Pr (prop s) t = Pr (prop t) s.

(** |psi|^(1/logProbFactor), unnormalised; [re] is Re log psi *)
Definition born (lpf : R) (re : config -> R) (s : config) : R := exp (re s / lpf).
(** average of f over a finite set of configurations with unnormalised probabilities q *)
Definition average (q f : config -> R) (space : list config) : R :=
  (rsum (map (fun s => q s * f s) space) / rsum (map q space))%R.
