(** Independent specification for the exact sampler. *)
From Coq Require Import ZArith List Reals.
From Verif Require Import Base Cplx BranchFree_Model.
Import ListNotations.

(** entries that count: the first [n] (none if n is negative) *)
Definition counted {A} (nx : Z * list A) : list A := firstn (Z.to_nat (fst nx)) (snd nx).
(** over all ranks and devices *)
Definition all_counted {A} (data : list (list (Z * list A))) : list A := concat (map counted (concat data)).

(** |psi|^(1/lpf) for log psi = l *)
Definition born_weight (lpf : R) (l : C) : R := exp (Re l / lpf).
(** probabilities of one device: normalised Born weights, zero for entries that do not count *)
Definition born_probs (lpf norm : R) (nx : Z * list C) : list R :=
  map (fun l => (born_weight lpf l / norm)%R) (counted nx) ++ repeat 0%R (length (snd nx) - Z.to_nat (fst nx)).
