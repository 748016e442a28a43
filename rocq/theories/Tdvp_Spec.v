(** Vocabulary for the statements about the time-dependent variational principle. *)
From Coq Require Import List Reals ZArith.
From Verif Require Import Base Cplx Povm_Spec Stats_Spec.
Import ListNotations.
Local Open Scope R_scope.

(** matrix times vector, length of a vector, scalar product *)
Definition apply (n : nat) (A : mat) (v : nat -> C) : nat -> C := fun i => csumn n (fun k => (A i k * v k)%C).
Definition len (n : nat) (v : nat -> C) : R := sqrt (rsumn n (fun k => Cnorm2 (v k))).
Definition inner (n : nat) (u v : nat -> C) : C := csumn n (fun k => (Cconj (u k) * v k)%C).
Definition minus (u v : nat -> C) : nat -> C := fun k => (u k - v k)%C.
Definition nonzero (n : nat) (v : nat -> C) : Prop := exists k, (k < n)%nat /\ v k <> C0.
Definition real (u : nat -> R) : nat -> C := fun k => RtoC (u k).
(** ||A x - b|| / ||b|| *)
Definition rel_error (n : nat) (A : mat) (x b : nat -> C) : R := len n (minus (apply n A x) b) / len n b.

(** V is unitary and its columns are eigenvectors of A; eigenvalues in ascending order *)
Definition unitary (n : nat) (V : mat) : Prop := same n (mul n (dagger V) V) ident /\ same n (mul n V (dagger V)) ident.
Definition spectral (n : nat) (A : mat) (ev : nat -> R) (V : mat) : Prop :=
  unitary n V /\ (forall i j, (i < n)%nat -> (j < n)%nat -> mul n A V i j = (RtoC (ev j) * V i j)%C)
  /\ (forall i j, (i <= j < n)%nat -> ev i <= ev j).
Definition real_matrix (n : nat) (A : mat) : Prop := forall i j, (i < n)%nat -> (j < n)%nat -> Im (A i j) = 0.
(** no eigenvalue other than zero occurs twice *)
Definition simple_spectrum (n : nat) (ev : nat -> R) : Prop :=
  forall i j, (i < n)%nat -> (j < n)%nat -> ev i = ev j -> ev i <> 0 -> i = j.
(** an eigenvalue solver that is correct for Hermitian matrices; real ones have real eigenvectors *)
Definition solves_eigenproblem (n : nat) (f : mat -> result ((nat -> R) * mat)) : Prop :=
  forall A ev V, hermitian n A -> f A = Ok (ev, V) ->
    spectral n A ev V /\ (real_matrix n A -> real_matrix n V).

(** The real (q = Re) and the imaginary (q = i Im) TDVP equation, with the diagonal of S scaled by
    1 + shift.  [w], [g], [e]: weights, gradients and local energies of the samples. *)
Definition part (imag : bool) (z : C) : C := if imag then (Ci * RtoC (Im z))%C else RtoC (Re z).
Definition fisher (imag : bool) (shift : R) (w : list (list (list R))) (g : list (list (list (nat -> C)))) : mat :=
  fun k l => ((if Nat.eqb k l then RtoC (1 + shift) else C1)
              * part imag (cov (wpairs w g) (fun s => s k) (fun s => s l)))%C.
Definition force (imag : bool) (x : C) (w : list (list (list R))) (g : list (list (list (nat -> C)))) (e : list (list (list (unit -> C))))
  : nat -> C :=
  fun k => part imag (- (x * cov (wtriples w g e) (fun s => fst s k) (fun s => snd s tt)))%C.

(** the shift the code applies: settings of at most 1e-10 are ignored *)
Definition applied_shift (setting s : R) : Prop := (/ 10 ^ 10 < setting /\ s = setting) \/ (setting <= / 10 ^ 10 /\ s = 0).

(** X is the Moore-Penrose pseudo-inverse of A (dimension N) *)
Definition pseudo_inverse (N : nat) (A X : mat) : Prop :=
  same N (mul N (mul N A X) A) A /\ same N (mul N (mul N X A) X) X
  /\ hermitian N (mul N A X) /\ hermitian N (mul N X A).

(** contribution of one sample to the force, and the variance of the force along the vector v *)
Definition force_sample (imag : bool) (x : C) (T : list (R * ((nat -> C) * (unit -> C)))) (s : (nat -> C) * (unit -> C)) (l : nat) : C :=
  part imag (- (x * (Cconj (fst s l - expect T (fun s => fst s l)) * (snd s tt - expect T (fun s => snd s tt)))))%C.
Definition force_variance (n : nat) (imag : bool) (x : C) (w : list (list (list R))) (g : list (list (list (nat -> C))))
           (e : list (list (list (unit -> C)))) (v : nat -> C) : R :=
  variance (wtriples w g e) (fun s => inner n v (force_sample imag x (wtriples w g e) s)).
