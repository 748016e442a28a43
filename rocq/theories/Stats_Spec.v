(** Weighted statistics of a finite data set, written without the model. *)
From Coq Require Import ZArith List Reals.
From Verif Require Import Base Cplx.
Import ListNotations.

(** expectation value of a function over (weight, sample) pairs *)
Definition expect {A} (xs : list (R * A)) (f : A -> C) : C :=
  csum (map (fun px => Cscal (fst px) (f (snd px))) xs).

(** <conj(f) g> - conj(<f>) <g> *)
Definition cov {A} (xs : list (R * A)) (f g : A -> C) : C :=
  (expect xs (fun a => Cconj (f a) * g a) - Cconj (expect xs f) * expect xs g)%C.

(** weighted variance sum p |f - <f>|^2 *)
Definition variance {A} (xs : list (R * A)) (f : A -> C) : R :=
  rsum (map (fun px => (fst px * Cnorm2 (f (snd px) - expect xs f)%C)%R) xs).

Definition weights_ok (ws : list R) : Prop := (forall p, In p ws -> (0 <= p)%R) /\ rsum ws = 1%R.

(** flattened array and equality of shapes *)
Definition flat {A} (x : list (list (list A))) : list A := concat (concat x).
Definition shape_eq {A B} (x : list (list (list A))) (y : list (list (list B))) : Prop :=
  Forall2 (Forall2 (fun a b => length a = length b)) x y.

(** all (weight, sample) pairs, and all (weight, sample of a, sample of b) *)
Definition wpairs {A} (w : list (list (list R))) (x : list (list (list A))) : list (R * A) :=
  combine (flat w) (flat x).
Definition wtriples {A B} (w : list (list (list R))) (x : list (list (list A))) (y : list (list (list B)))
  : list (R * (A * B)) := combine (flat w) (combine (flat x) (flat y)).

(** Born probability of state s of a basis, for log-amplitudes lr (real part) *)
Definition born {S} (basis : list S) (lr : S -> R) (s : S) : R :=
  (exp (2 * lr s) / rsum (map (fun x => exp (2 * lr x)) basis))%R.

(** derivative of a complex function of a real variable *)
Definition cderiv (f : R -> C) (t : R) (d : C) : Prop :=
  derivable_pt_lim (fun x => Re (f x)) t (Re d) /\ derivable_pt_lim (fun x => Im (f x)) t (Im d).

(** replace one entry of a parameter vector *)
Definition upd (theta : nat -> R) (k : nat) (t : R) : nat -> R := fun j => if Nat.eqb j k then t else theta j.

(** expectation value of O in the normalised state with log-amplitudes lr + i(...) *)
Definition energy {S} (basis : list S) (lr : S -> (nat -> R) -> R) (O : S -> (nat -> R) -> C) (th : nat -> R) : C :=
  expect (map (fun s => (born basis (fun u => lr u th) s, s)) basis) (fun s => O s th).
