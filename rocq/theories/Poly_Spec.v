(** Independent specification: spin flips of arrays of occupations, even functions. *)
From Coq Require Import List Reals.
From Verif Require Import Base Cplx.
Local Open Scope R_scope.

(** 0 and 1 exchanged on every site *)
Definition all_flipped (x : list nat -> R) : list nat -> R := fun idx => 1 - x idx.
Definition even (f : C -> C) : Prop := forall z, f (- z)%C = f z.
Definition odd (f : C -> C) : Prop := forall z, f (- z)%C = (- f z)%C.
