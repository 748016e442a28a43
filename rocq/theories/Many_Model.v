(** The registry of the class POVM filled with the predefined matrices, /repo/jVMC/operator/povm.py 248-275. *)
From Coq Require Import String List Reals Bool Arith.
From Verif Require Import Base Cplx Povm_Model PovmOp_Model.
Import ListNotations.

(** the arrays carry their dimension: 4 for one site, 16 for two sites; povm.py 192-214 (unitaries: names with one letter act on
    one site) and 171-189 (dissipators act on one site) *)
Definition sized_unitaries (M : nat -> cmat) (T_inv : cmat) : list (string * sized) :=
  map (fun kv => (fst kv, (if (String.length (fst kv) =? 1)%nat then 4 else 16, snd kv))) (get_unitaries M T_inv).
(** povm.py 171-189 *)
Definition sized_dissipators (M : nat -> cmat) (T_inv : cmat) : list (string * sized) :=
  map (fun kv => (fst kv, (4, snd kv))) (get_dissipators M T_inv).
(** [self.operators] after [__init__], povm.py 248-253, 261-275; T_inv is the inverse computed in line 267 *)
Definition standard_operators (M : nat -> cmat) (T_inv : cmat) : list (string * sized) :=
  operators (standard (sized_unitaries M T_inv) (sized_dissipators M T_inv)).
