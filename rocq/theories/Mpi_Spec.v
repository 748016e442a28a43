(** Independent statements about distributing samples and global reductions. *)
From Coq Require Import ZArith List Reals.
From Verif Require Import Base Cplx.
Import ListNotations.

Definition zsum := big 0%Z Z.add.

(** sum of a quantity over the ranks 0..c-1 *)
Definition over_ranks (c : Z) (f : Z -> Z) : Z :=
  zsum (map (fun r => f (Z.of_nat r)) (seq 0 (Z.to_nat c))).

(** A data set is a list of (weight, value) pairs. *)
Definition wmean (xs : list (R * C)) : C := csum (map (fun px => Cscal (fst px) (snd px)) xs).

(** weighted variance sum p |x - mean|^2 *)
Definition wvar (xs : list (R * C)) : R :=
  rsum (map (fun px => (fst px * Cnorm2 (snd px - wmean xs)%C)%R) xs).

(** documented covariance: <X_i conj X_j> - <X_i> <conj X_j> *)
Definition wcov (i j : nat) (xs : list (R * (nat -> C))) : C :=
  (csum (map (fun px => Cscal (fst px) (snd px i * Cconj (snd px j))%C) xs)
   - wmean (map (fun px => (fst px, snd px i)) xs)
     * Cconj (wmean (map (fun px => (fst px, snd px j)) xs)))%C.

(** all (weight, value) pairs of arrays indexed by rank, device, batch *)
Definition pairs {A} (data : list (list (list A))) (p : list (list (list R))) : list (R * A) :=
  combine (concat (concat p)) (concat (concat data)).

(** the two arrays have the same shape, there is at least one device per rank *)
Definition same_shape {A} (data : list (list (list A))) (p : list (list (list R))) : Prop :=
  Forall2 (fun d w => d <> [] /\ Forall2 (fun x y => length x = length y) d w) data p.
