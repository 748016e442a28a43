(** Quantum mechanics of N spins, for the statements about POVM operators on a lattice.
    Basis states are lists of N bits, and matrices are functions of two such lists. *)
From Coq Require Import String List Reals Bool Arith.
From Verif Require Import Base Cplx Povm_Spec.
Import ListNotations.
Local Open Scope R_scope.

(** all lists of n numbers below q, and sums over them *)
Fixpoint words (q n : nat) : list (list nat) :=
  match n with O => [[]] | S n => flat_map (fun x => map (cons x) (words q n)) (seq 0 q) end.
Definition over (q n : nat) (f : list nat -> C) : C := csum (map f (words q n)).

Definition mmat := list nat -> list nat -> C.
Definition mmul (N : nat) (A B : mmat) : mmat := fun x y => over 2 N (fun z => (A x z * B z y)%C).
Definition mtr (N : nat) (A : mmat) : C := over 2 N (fun x => A x x).
Definition mdagger (A : mmat) : mmat := fun x y => Cconj (A y x).
Definition mplus (A B : mmat) : mmat := fun x y => (A x y + B x y)%C.
Definition mtimes (c : C) (A : mmat) : mmat := fun x y => (c * A x y)%C.
Definition mhermitian (N : nat) (A : mmat) : Prop := forall x y, In x (words 2 N) -> In y (words 2 N) -> mdagger A x y = A x y.

(** the entries on the sites l *)
Definition on (x l : list nat) : list nat := map (fun i => nth i x 0%nat) l.
(** equal on all sites but those of l *)
Definition agree_off (N : nat) (l x y : list nat) : bool :=
  forallb (fun i => existsb (Nat.eqb i) l || Nat.eqb (nth i x 0%nat) (nth i y 0%nat)) (seq 0 N).
(** the number with these binary digits, most significant first *)
Fixpoint digits2 (l : list nat) : nat := match l with [] => O | x :: l => (x * 2 ^ length l + digits2 l)%nat end.
(** the matrix A on the sites l, the identity on all others *)
Definition embedded (N : nat) (A : mat) (l : list nat) : mmat := fun x y =>
  if agree_off N l x y then A (digits2 (on x l)) (digits2 (on y l)) else C0.

(** the outcome a of the product measurement: the tensor product of the operators of the single sites *)
Fixpoint cprod (l : list C) : C := match l with [] => C1 | x :: l => (x * cprod l)%C end.
Definition product_element (N : nat) (M : nat -> mat) (a : list nat) : mmat := fun x y =>
  cprod (map (fun i => M (nth i a 0%nat) (nth i x 0%nat) (nth i y 0%nat)) (seq 0 N)).
(** its probability *)
Definition probability (N : nat) (M : nat -> mat) (rho : mmat) (a : list nat) : R :=
  Re (mtr N (mmul N rho (product_element N M a))).

(** generators: -i [H, rho], L rho L^dagger - {L^dagger L, rho} / 2, - {H, rho} *)
Inductive dynamics := Coherent | Dissipation | Cooling.
Definition flow (N : nat) (k : dynamics) (A rho : mmat) : mmat :=
  match k with
  | Coherent => mtimes (- Ci)%C (mplus (mmul N A rho) (mtimes (- C1)%C (mmul N rho A)))
  | Dissipation => mplus (mmul N (mmul N A rho) (mdagger A))
      (mtimes (RtoC (- (1 / 2))) (mplus (mmul N (mmul N (mdagger A) A) rho) (mmul N rho (mmul N (mdagger A) A))))
  | Cooling => mtimes (- C1)%C (mplus (mmul N A rho) (mmul N rho A))
  end.
(** sum of the generators of several terms (strength, kind, matrix, sites) *)
Definition term := (R * dynamics * mat * list nat)%type.
Definition generator (N : nat) (terms : list term) (rho : mmat) : mmat := fun x y =>
  csum (map (fun t : term => let '(g, k, A, l) := t in (RtoC g * flow N k (embedded N A l) rho x y)%C) terms).

(** meaning of the predefined names: number of sites, kind and matrix *)
Definition vocabulary : list (string * (nat * dynamics * mat)) :=
  [("X", (1%nat, Coherent, sx)); ("Y", (1%nat, Coherent, sy)); ("Z", (1%nat, Coherent, sz));
   ("XX", (2%nat, Coherent, tensor sx sx)); ("YY", (2%nat, Coherent, tensor sy sy)); ("ZZ", (2%nat, Coherent, tensor sz sz));
   ("decayup", (1%nat, Dissipation, transition 0 1)); ("decaydown", (1%nat, Dissipation, transition 1 0)); ("dephasing", (1%nat, Dissipation, sz))]%string.
(** the term with the given name, strength and sites *)
Definition named_term (name : string) (strength : R) (sites : list nat) (t : term) : Prop :=
  exists k A, In (name, (length sites, k, A)) vocabulary /\ t = (strength, k, A, sites).
