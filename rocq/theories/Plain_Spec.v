(** Independent specification for C81. *)
From Coq Require Import ZArith List Reals.
From Verif Require Import Base Cplx BranchFree_Model Stats_Model Exact_Spec Vqs_Model Vqs_Spec Plain_Model.
Import ListNotations.

(** the wave function coefficient meant by a state: the network gives its logarithm if the state is
    logarithmic, and the coefficient itself otherwise *)
Definition coefficient (q : vstate) (p : tree) (s : config) : C :=
  if vs_log q then Cexp (vs_net q p s) else vs_net q p s.

(** |z|^a, zero for z = 0 *)
Definition modulus_pow (a : R) (z : C) : R :=
  if Req_EM_T (Cnorm2 z) 0 then 0%R else Rpower (sqrt (Cnorm2 z)) a.

(** the numbers [w] of the stored basis states divided by their sum; zero for entries that do not count *)
Definition normalised {A} (w : A -> R) (basis : list (list (Z * list A))) : list (list (list R)) :=
  let norm := rsum (map w (all_counted basis)) in
  map (map (fun d => map (fun s => (w s / norm)%R) (counted d) ++ repeat 0%R (length (snd d) - Z.to_nat (fst d)))) basis.

(** [d] is the derivative of ln f in direction of the k-th flat parameter: f d is the derivative of f *)
Definition log_derivative (f : tree -> C) (q : nqs) (k : nat) (d : C) : Prop :=
  derivative_at f q k (Cmul (f (nq_params q)) d).
