(** Quantum mechanics on the basis of a chain, written without the model. *)
From Coq Require Import ZArith List Reals Permutation.
From Verif Require Import Base Cplx Stats_Spec BranchFree_Model BranchFree_Spec Sampler_Spec Exact_Model Exact_Spec.
Import ListNotations.

(** scalar product of two wave functions over a finite basis *)
Definition braket (basis : list config) (phi chi : wavefun) : C := csum (map (fun s => (Cconj (phi s) * chi s)%C) basis).
Definition norm2 (basis : list config) (phi : wavefun) : R := rsum (map (fun s => Cnorm2 (phi s)) basis).

(** the sum of operator strings with their prefactors, (O phi)(s) = sum over strings of
    coefficient times factor times phi(new configuration) *)
Definition apply_strings {A} (sts : list (ostring A)) (vals : list C) (phi : wavefun) : wavefun :=
  fun s => csum (map (fun sv => (snd sv * snd (act (snd (fst sv)) s) * phi (fst (act (snd (fst sv)) s)))%C) (combine sts vals)).

(** expectation value <phi|O phi>/<phi|phi> and variance ||(O - E) phi||^2/||phi||^2 *)
Definition expectation (basis : list config) (O : wavefun -> wavefun) (phi : wavefun) : C :=
  (braket basis phi (O phi) / RtoC (norm2 basis phi))%C.
Definition spread (basis : list config) (O : wavefun -> wavefun) (phi : wavefun) : R :=
  (norm2 basis (fun s => O phi s - expectation basis O phi * phi s)%C / norm2 basis phi)%R.

(** phi is an eigenvector of O *)
Definition eigenvector (basis : list config) (O : wavefun -> wavefun) (phi : wavefun) : Prop :=
  exists E : C, forall s, In s basis -> O phi s = (E * phi s)%C.

(** O is Hermitian on the basis *)
Definition hermitian_on (basis : list config) (O : wavefun -> wavefun) : Prop :=
  forall phi chi, braket basis phi (O chi) = Cconj (braket basis chi (O phi)).

(** expectation value of the energy as a function of the parameters, for log-amplitudes lp *)
Definition energy_at (basis : list config) (O : wavefun -> wavefun) (lp : (nat -> R) -> config -> C) (theta : nat -> R) : R :=
  Re (expectation basis O (fun s => Cexp (lp theta s))).
(** the point reached from theta after the time t with velocity v *)
Definition moved (theta v : nat -> R) (t : R) : nat -> R := fun k => (theta k + t * v k)%R.
(** g s k are the derivatives of the log-amplitude of s with respect to the n parameters *)
Definition log_gradient (n : nat) (lp : (nat -> R) -> config -> C) (theta : nat -> R) (g : config -> nat -> C) : Prop :=
  forall s v, cderiv (fun t => lp (moved theta v t) s) 0 (csumn n (fun k => (g s k * RtoC (v k))%C)).
(** dE is the gradient of a function of n parameters *)
Definition gradient_of (n : nat) (f : (nat -> R) -> R) (theta dE : nat -> R) : Prop :=
  forall v, derivable_pt_lim (fun t => f (moved theta v t)) 0 (rsumn n (fun k => (dE k * v k)%R)).

(** every configuration of the basis occurs exactly once among the samples that count, over all
    ranks and devices (theorems C34 say when) *)
Definition complete_enumeration (N : nat) (lDim c devices : Z) : Prop :=
  Permutation (all_counted (map (fun r => get_basis (Z.of_nat r) c N lDim devices) (seq 0 (Z.to_nat c)))) (all_configs (Z.to_nat lDim) N).

(** the operator that a sum of coefficients times products of Pauli and ladder operators stands for *)
Definition documented (terms : list (C * list (opname * nat))) (phi : wavefun) : wavefun :=
  fun s => csum (map (fun cl => (fst cl * product_op (snd cl) phi s)%C) terms).
(** the strings a user adds for it *)
Definition string_of (cl : C * list (opname * nat)) : ostring unit :=
  (Some (PConst (fst cl)), map (fun oi => op_of (fst oi) (snd oi)) (snd cl)).
