(** Independent specification: translations of periodic arrays. *)
From Coq Require Import List Reals Arith.
From Verif Require Import Base Cplx.
Import ListNotations.

(** the site reached from [idx] by [t] steps on the periodic lattice [shape] *)
Fixpoint moved (shape t idx : list nat) : list nat :=
  match shape, t, idx with n :: r, a :: ts, i :: is => (i + a) mod n :: moved r ts is | _, _, _ => [] end.
(** the array moved by [t] *)
Definition translated {A} (shape t : list nat) (x : list nat -> A) : list nat -> A := fun idx => x (moved shape t idx).
