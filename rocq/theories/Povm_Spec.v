(** Vocabulary of quantum mechanics for the statements about POVMs. *)
From Coq Require Import String List Reals Bool Arith.
From Verif Require Import Base Cplx.
Import ListNotations.
Local Open Scope R_scope.

Definition mat := nat -> nat -> C.
(** equality, products, adjoints and traces of matrices of dimension d *)
Definition same (d : nat) (A B : mat) : Prop := forall i j, (i < d)%nat -> (j < d)%nat -> A i j = B i j.
Definition mul (d : nat) (A B : mat) : mat := fun i j => csumn d (fun k => (A i k * B k j)%C).
Definition dagger (A : mat) : mat := fun i j => Cconj (A j i).
Definition tr (d : nat) (A : mat) : C := csumn d (fun i => A i i).
Definition plus (A B : mat) : mat := fun i j => (A i j + B i j)%C.
Definition times (c : C) (A : mat) : mat := fun i j => (c * A i j)%C.
Definition ident : mat := fun i j => if Nat.eqb i j then C1 else C0.
Definition hermitian (d : nat) (A : mat) : Prop := same d (dagger A) A.
(** the expectation value <v|A|v> *)
Definition expect (d : nat) (A : mat) (v : nat -> C) : C :=
  csumn d (fun i => (Cconj (v i) * csumn d (fun j => (A i j * v j)%C))%C).
Definition psd (d : nat) (A : mat) : Prop := forall v, Im (expect d A v) = 0 /\ 0 <= Re (expect d A v).
(** linear combination of n matrices *)
Definition combo (n : nat) (c : nat -> C) (M : nat -> mat) : mat := fun i j => csumn n (fun a => (c a * M a i j)%C).
(** the operators M^0..M^(n-1) resolve the identity *)
Definition complete (d n : nat) (M : nat -> mat) : Prop := same d (combo n (fun _ => C1) M) ident.
(** B is the inverse of the matrix T *)
Definition inverse (n : nat) (T B : mat) : Prop := same n (mul n T B) ident /\ same n (mul n B T) ident.
(** probability of outcome a *)
Definition outcome_prob (d : nat) (rho : mat) (M : nat -> mat) (a : nat) : R := Re (tr d (mul d rho (M a))).
(** generators of the dynamics *)
Definition commutator (d : nat) (A B : mat) : mat := plus (mul d A B) (times (- C1)%C (mul d B A)).
Definition anticommutator (d : nat) (A B : mat) : mat := plus (mul d A B) (mul d B A).
(** -i [A, rho] *)
Definition von_neumann (d : nat) (A rho : mat) : mat := times (- Ci)%C (commutator d A rho).
(** A rho A^dagger - {A^dagger A, rho} / 2 *)
Definition lindblad (d : nat) (A rho : mat) : mat :=
  plus (mul d (mul d A rho) (dagger A)) (times (RtoC (- (1 / 2))) (anticommutator d (mul d (dagger A) A) rho)).
(** the state is a linear combination of the POVM operators with real coefficients *)
Definition in_span (d n : nat) (M : nat -> mat) (rho : mat) : Prop :=
  exists r : nat -> R, same d rho (combo n (fun a => RtoC (r a)) M).

(** Pauli matrices, projectors and products of two sites *)
Definition of_rows (l : list (list C)) : mat := fun i j => nth j (nth i l []) C0.
Definition sx : mat := of_rows [[C0; C1]; [C1; C0]].
Definition sy : mat := of_rows [[C0; (- Ci)%C]; [Ci; C0]].
Definition sz : mat := of_rows [[C1; C0]; [C0; (- C1)%C]].
Definition tensor (A B : mat) : mat := fun i j => (A (Nat.div i 2) (Nat.div j 2) * B (Nat.modulo i 2) (Nat.modulo j 2))%C.
(** state with eigenvalue sgn of the Pauli matrix s *)
Definition polarised (s : mat) (sgn : R) : mat := times (RtoC (1 / 2)) (plus ident (times (RtoC sgn) s)).
(** |to><from| *)
Definition transition (to from : nat) : mat := fun i j => if (Nat.eqb i to && Nat.eqb j from)%bool then C1 else C0.
(** the value of the first entry with this name *)
Fixpoint lookup {A} (k : string) (l : list (string * A)) : option A :=
  match l with [] => None | (k', v) :: l => if String.eqb k k' then Some v else lookup k l end.
