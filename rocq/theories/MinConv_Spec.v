(** Independent specification: the stochastic reconfiguration equation for known probabilities, and
    convergence in probability. *)
From Coq Require Import List Reals Arith.
From Verif Require Import Base Cplx Povm_Spec Stats_Spec BranchFree_Model Dist Tdvp_Spec.
Import ListNotations.
Local Open Scope R_scope.

(** sum_l S_kl u_l = - F_k with S_kl = <O_k^* O_l> - <O_k^*><O_l> and F_k = <O_k^* E> - <O_k^*><E>, averages
    over the configurations [ens] with given probabilities *)
Definition sr_equation (n : nat) (ens : list (R * config)) (Eloc : config -> C) (G : config -> nat -> C) (u : nat -> C) : Prop :=
  forall k, (k < n)%nat -> csumn n (fun l => (cov ens (fun s => G s k) (fun s => G s l) * u l)%C) = (- cov ens (fun s => G s k) Eloc)%C.
(** the solution of least length *)
Definition sr_update (n : nat) (ens : list (R * config)) (Eloc : config -> C) (G : config -> nat -> C) (u : nat -> C) : Prop :=
  sr_equation n ens Eloc G u /\ forall z, sr_equation n ens Eloc G z -> len n u <= len n z.

(** probability that a random variable exceeds [x] *)
Definition prob_above {A} (m : dist A) (X : A -> R) (x : R) : R := E m (fun a => if Rle_dec (X a) x then 0 else 1).
(** distance of two vectors *)
Definition distance (n : nat) (u v : nat -> C) : R := len n (minus u v).

(** a routine that computes Moore-Penrose inverses of the tangent kernels of n parameters: matrices A = O O^+
    where O has n columns *)
Definition inverts_kernels (n : nat) (pinv : nat -> mat -> mat) : Prop :=
  forall N A, (exists O : nat -> nat -> C, forall i j, (i < N)%nat -> (j < N)%nat -> A i j = csumn n (fun k => (O i k * Cconj (O j k))%C)) -> pseudo_inverse N A (pinv N A).
