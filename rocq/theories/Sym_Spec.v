(** Independent specification: groups of signed permutation matrices. *)
From Coq Require Import ZArith List Reals Bool Arith.
From Verif Require Import Base Cplx BranchFree_Model Sampler_Spec.
Import ListNotations.

Definition entry (A : list (list Z)) (i j : nat) : Z := nth j (nth i A []) 0%Z.
Definition square (n : nat) (A : list (list Z)) : Prop := length A = n /\ Forall (fun r => length r = n) A.
(** one entry +-1 in every row, at different positions, all of the same sign; all others 0 *)
Definition signed_permutation (n : nat) (A : list (list Z)) : Prop :=
  square n A /\ exists (sg : Z) (f : nat -> nat), (sg = 1 \/ sg = -1)%Z
  /\ (forall i, i < n -> f i < n) /\ (forall i j, i < n -> j < n -> f i = f j -> i = j)
  /\ forall i j, i < n -> j < n -> entry A i j = if j =? f i then sg else 0%Z.
Definition identity (n : nat) (A : list (list Z)) : Prop :=
  square n A /\ forall i j, i < n -> j < n -> entry A i j = if j =? i then 1%Z else 0%Z.
(** D = A B *)
Definition is_product (n : nat) (A B D : list (list Z)) : Prop :=
  square n D /\ forall i j, i < n -> j < n ->
    entry D i j = fold_right Z.add 0%Z (map (fun k => (entry A i k * entry B k j)%Z) (seq 0 n)).
Definition is_group (n : nat) (G : list (list (list Z))) : Prop :=
  Forall (signed_permutation n) G /\ NoDup G
  /\ (exists I, In I G /\ identity n I)
  /\ (forall A B, In A G -> In B G -> exists D, In D G /\ is_product n A B D)
  /\ (forall A, In A G -> exists B I, In B G /\ identity n I /\ is_product n A B I /\ is_product n B A I).

(** order of the group generated by the chosen translations and reflection of a ring *)
Definition ring_order (L : nat) (translation reflection : bool) : nat :=
  if translation then (if reflection && (3 <=? L) then 2 * L else L)
  else (if reflection && (2 <=? L) then 2 else 1).

(** the factors are multiplicative *)
Definition is_character (n : nat) (orbit : list (list (list Z) * C)) : Prop :=
  forall A a B b D d, In (A, a) orbit -> In (B, b) orbit -> In (D, d) orbit -> is_product n A B D -> d = Cmul a b.

(** action of a matrix with one entry per row on a configuration: site i receives the state of the
    site of the entry, the other one of the two states if the entry is negative *)
Definition acts (A : list (list Z)) (s t : config) : Prop :=
  length t = length s /\ forall i j, i < length s -> j < length s ->
    (entry A i j = 1%Z -> nth i t 0 = nth j s 0) /\ (entry A i j = (-1)%Z -> nth i t 0 = 1 - nth j s 0).

(** matrices under which configurations with lDim local states can be transformed: with spin flips
    there must be two local states *)
Definition fits (lDim : nat) (A : list (list Z)) : Prop := lDim = 2 \/ forall i j, entry A i j <> (-1)%Z.

(** ** the symmetries one asks for *)
(** site i receives the state of site f i *)
Definition moves (n : nat) (f : nat -> nat) (A : list (list Z)) : Prop :=
  square n A /\ forall i j, i < n -> j < n -> entry A i j = if j =? f i then 1%Z else 0%Z.
(** all spins are flipped *)
Definition flips (n : nat) (A : list (list Z)) : Prop :=
  square n A /\ forall i j, i < n -> j < n -> entry A i j = if j =? i then (-1)%Z else 0%Z.
(** all products of elements of a set *)
Inductive generated (n : nat) (gens : list (list Z) -> Prop) : list (list Z) -> Prop :=
| gen_id A : identity n A -> generated n gens A
| gen_mul A B D : generated n gens A -> gens B -> is_product n A B D -> generated n gens D.
(** ring: step to the next site, reflection *)
Definition ring_symmetry (L : nat) (translation reflection spinflip : bool) (A : list (list Z)) : Prop :=
  (translation = true /\ moves L (fun i => (i + 1) mod L) A)
  \/ (reflection = true /\ moves L (fun i => L - 1 - i) A)
  \/ (spinflip = true /\ flips L A).
(** square lattice with site y * L + x in row y and column x: steps along both axes, reflections
    of both axes, quarter turn *)
Definition square_symmetry (L : nat) (translation reflection rotation spinflip : bool) (A : list (list Z)) : Prop :=
  let at_ := fun f : nat -> nat -> nat * nat => moves (L * L) (fun i => let p := f (i / L) (i mod L) in fst p * L + snd p) A in
  (translation = true /\ (at_ (fun y x => ((y + 1) mod L, x)) \/ at_ (fun y x => (y, (x + 1) mod L))))
  \/ (reflection = true /\ (at_ (fun y x => (L - 1 - y, x)) \/ at_ (fun y x => (y, L - 1 - x))))
  \/ (rotation = true /\ at_ (fun y x => (x, L - 1 - y)))
  \/ (spinflip = true /\ flips (L * L) A).

(** factors that are compatible with each other: a step of L sites is the identity, reflections and
    spin flips are their own inverses, a reflection inverts translations, and on one or two
    sites the reflection is a translation *)
Definition consistent (L : nat) (translation reflection spinflip : bool) (fT fR fS : C) : Prop :=
  (translation = true -> big C1 Cmul (repeat fT L) = C1)
  /\ (reflection = true -> Cmul fR fR = C1) /\ (spinflip = true -> Cmul fS fS = C1)
  /\ (translation = true -> reflection = true -> Cmul fT fT = C1)
  /\ (reflection = true -> L = 1 -> fR = C1)
  /\ (translation = true -> reflection = true -> L = 2 -> fR = fT).
