(** Vocabulary for the statements about POVM operators. *)
From Coq Require Import String List Reals Bool Arith.
From Verif Require Import Base Cplx.
Import ListNotations.

(** the number with the given digits in base four, most significant first *)
Fixpoint digits4 (l : list nat) : nat :=
  match l with [] => 0 | x :: l => x * 4 ^ length l + digits4 l end.
(** all tuples of k outcomes *)
Fixpoint outcomes (k : nat) : list (list nat) :=
  match k with 0 => [[]] | S k => flat_map (fun x => map (cons x) (outcomes k)) [0; 1; 2; 3] end.
(** replace the values on the sites l by b *)
Definition replaced (s l b : list nat) : list nat :=
  map (fun i => match find (fun p => Nat.eqb (fst p) i) (combine l b) with Some p => snd p | None => nth i s 0 end) (seq 0 (length s)).
(** (W f)(s) for a matrix W that acts on the outcomes of the sites l and as the identity elsewhere *)
Definition acts (W : nat -> nat -> R) (l : list nat) (f : list nat -> R) (s : list nat) : R :=
  rsum (map (fun b => (W (digits4 (map (fun i => nth i s 0%nat) l)) (digits4 b) * f (replaced s l b))%R) (outcomes (length l))).
(** the first entry with this name *)
Fixpoint lookup {A} (k : string) (l : list (string * A)) : option A :=
  match l with [] => None | (k', v) :: l => if String.eqb k k' then Some v else lookup k l end.
(** an iteration order of the set of the elements of a list: every element once *)
Definition iterates {A} (l l' : list A) : Prop := NoDup l' /\ forall x, In x l' <-> In x l.
(** value of one term at the configuration s: strength times the action of its matrix *)
Definition term_value (operators : list (string * (nat * (nat -> nat -> R)))) (name : string) (strength : R) (sites : list nat)
    (f : list nat -> R) (s : list nat) : R :=
  match lookup name operators with Some x => (strength * acts (snd x) sites f s)%R | None => 0%R end.
