(** Independent specification: the TDVP equation for known probabilities, and means and mean square
    deviations of complex random variables. *)
From Coq Require Import List Reals Arith.
From Verif Require Import Base Cplx BranchFree_Model Dist Stats_Spec.
Import ListNotations.
Local Open Scope R_scope.

(** all configurations with their probabilities *)
Definition ensemble (space : list config) (P : config -> R) : list (R * config) := map (fun s => (P s, s)) space.

(** real part, or i times the imaginary part *)
Definition part (imag : bool) (z : C) : C := if imag then (0, Im z) else (Re z, 0).
(** the diagonal of S is scaled by 1 + shift if shift > 10^-10 *)
Definition diagonal_factor (shift : R) (k l : nat) : R := if Rlt_dec (/ 10 ^ 10) shift then if Nat.eqb k l then 1 + shift else 1 else 1.

(** S_kl = <O_k^* O_l> - <O_k^*><O_l>  and  F_k = - prefactor (<O_k^* E> - <O_k^*><E>) *)
Definition exact_S (imag : bool) (shift : R) (ens : list (R * config)) (G : config -> nat -> C) (k l : nat) : C :=
  Cscal (diagonal_factor shift k l) (part imag (cov ens (fun s => G s k) (fun s => G s l))).
Definition exact_F (imag : bool) (prefactor : C) (ens : list (R * config)) (Eloc : config -> C) (G : config -> nat -> C) (k : nat) : C :=
  part imag (- prefactor * cov ens (fun s => G s k) Eloc)%C.

(** mean of a complex random variable, mean square distance from a number *)
Definition cmean {A} (m : dist A) (X : A -> C) : C := (E m (fun a => Re (X a)), E m (fun a => Im (X a))).
Definition mean_square {A} (m : dist A) (X : A -> C) (x : C) : R := E m (fun a => Cnorm2 (X a - x)%C).

(** what an object says about the energy, if it says anything *)
Definition mean_said (e : option (C * R)) : C := match e with Some (m, _) => m | None => C0 end.
Definition variance_said (e : option (C * R)) : C := match e with Some (_, v) => RtoC v | None => C0 end.
