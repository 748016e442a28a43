(** Independent specification for restricted Boltzmann machines. *)
From Coq Require Import List Reals Arith.
From Verif Require Import Base Cplx BranchFree_Model Rbm_Model.
Import ListNotations.
Local Open Scope R_scope.

(** a sign bit as in IEEE arithmetic: undetermined for zero *)
Definition is_signbit (sb : R -> bool) : Prop := forall x, (x < 0 -> sb x = true) /\ (0 < x -> sb x = false).
(** the amplitude with a given logarithm *)
Definition xexp (x : xC) : C := match x with Fin z => Cexp z | NegInf => C0 end.
(** hyperbolic cosine of a complex number *)
Definition Ccosh (x : C) : C := Cscal (1 / 2) (Cexp x + Cexp (- x))%C.
Definition cprod (l : list C) : C := fold_right Cmul C1 l.
Definition rprod (l : list R) : R := fold_right Rmult 1 l.
(** activation of hidden unit j by classical spins *)
Definition field_of (kernel : list (list C)) (b : list C) (spin : nat -> C) (n j : nat) : C :=
  (csumn n (fun i => nth i (nth j kernel []) C0 * spin i) + nth j b C0)%C.
Definition rfield_of (kernel : list (list R)) (b : list R) (spin : nat -> R) (n j : nat) : R :=
  rsumn n (fun i => nth i (nth j kernel []) 0 * spin i) + nth j b 0.
(** kernel with [m] hidden units and [n] inputs *)
Definition shape {A} (m n : nat) (k : list (list A)) : Prop := length k = m /\ Forall (fun r => length r = n) k.
(** all spins turned over *)
Definition flipped (s : config) : config := map (fun x => 1 - x)%nat s.
