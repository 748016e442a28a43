(** Independent specification: factors that fit together on a square lattice, order of its groups. *)
From Coq Require Import ZArith List Bool Arith.
From Verif Require Import Base Cplx Sym_Spec.
Import ListNotations.

(** the product of n copies *)
Definition times (n : nat) (c : C) : C := big C1 Cmul (repeat c n).
(** factors of the generators that are compatible with each other: L steps and four quarter turns are
    the identity, reflections and spin flips are their own inverses; reflections and
    quarter turns invert or exchange steps; a reflection inverts quarter turns; on one site everything
    but the spin flip is the identity; on two by two sites reflections are steps and half a turn
    is a step along both axes *)
Definition consistent_square (L : nat) (translation reflection rotation spinflip : bool) (fT fR fRot fS : C) : Prop :=
  (translation = true -> times L fT = C1)
  /\ (reflection = true -> times 2 fR = C1)
  /\ (rotation = true -> times 4 fRot = C1)
  /\ (spinflip = true -> times 2 fS = C1)
  /\ (translation = true -> reflection = true \/ rotation = true -> times 2 fT = C1)
  /\ (reflection = true -> rotation = true -> times 2 fRot = C1)
  /\ (reflection = true -> L = 1 -> fR = C1)
  /\ (rotation = true -> L = 1 -> fRot = C1)
  /\ (translation = true -> reflection = true -> L = 2 -> fR = fT)
  /\ (translation = true -> rotation = true -> L = 2 -> times 2 fRot = C1).

(** order of the group generated by the chosen steps, reflections and quarter turns of L by L sites *)
Definition square_order (L : nat) (translation reflection rotation : bool) : nat :=
  if L =? 1 then 1
  else if L =? 2 then
    (if rotation then (if translation || reflection then 8 else 4) else (if translation || reflection then 4 else 1))
  else (if translation then L * L else 1) * (if rotation then (if reflection then 8 else 4) else (if reflection then 4 else 1)).

(** site (y, x) receives the state of site f y x *)
Definition moves_square (L : nat) (f : nat -> nat -> nat * nat) (A : list (list Z)) : Prop :=
  moves (L * L) (fun i => fst (f (i / L) (i mod L)) * L + snd (f (i / L) (i mod L))) A.
(** the generators have the factors one asked for; shifting the contents by one site multiplies by
    fT, a quarter turn takes the content of row y and column x from row L-1-x and column y *)
Definition requested (L : nat) (translation reflection rotation spinflip : bool) (fT fR fRot fS : C) (orbit : list (list (list Z) * C)) : Prop :=
  forall A c, In (A, c) orbit ->
  (identity (L * L) A -> c = C1)
  /\ (translation = true -> moves_square L (fun y x => ((y + (L - 1)) mod L, x)) A -> c = fT)
  /\ (translation = true -> moves_square L (fun y x => (y, (x + (L - 1)) mod L)) A -> c = fT)
  /\ (reflection = true -> moves_square L (fun y x => (L - 1 - y, x)) A -> c = fR)
  /\ (reflection = true -> moves_square L (fun y x => (y, L - 1 - x)) A -> c = fR)
  /\ (rotation = true -> moves_square L (fun y x => (L - 1 - x, y)) A -> c = fRot)
  /\ (spinflip = true -> flips (L * L) A -> c = fS).
