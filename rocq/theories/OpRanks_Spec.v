(** Independent specification of operator objects on several ranks. *)
From Coq Require Import List Reals Bool Arith.
From Verif Require Import Base Cplx BranchFree_Model OpBase_Model OpRanks_Model.
Import ListNotations.

(** the strings added in a history, in order *)
Definition radded {A} (h : list (revent A)) : list (opstr A) :=
  flat_map (fun e => match e with RAdd s => [s] | REval _ _ => [] end) h.

(** every evaluation of the history, started from the objects [w], returns on every rank *)
Fixpoint all_return_ranks {A} (lDim d : nat) (w : ranks A) (h : list (revent A)) : Prop :=
  match h with
  | [] => True
  | e :: r => match e with
              | RAdd _ => True
              | REval args ss => Forall (fun x => exists els, fst x = Ok els) (get_s_primes_ranks lDim d w args ss)
              end /\ all_return_ranks lDim d (rstep lDim d w e) r
  end.

(** the positions of the strings that start with a prefactor *)
Definition with_prefactor {A} (ops : list (opstr A)) : list nat :=
  filter (fun k => match nth k ops [] with EFun _ :: _ => true | _ => false end) (seq 0 (length ops)).

(** [m] ranks can share the prefactors of the strings: there are fewer than 50, or every
    rank has one to evaluate and the first one of each rank but the first is directly
    preceded by a string without prefactor *)
Definition shareable {A} (m : nat) (ops : list (opstr A)) : Prop :=
  let l := with_prefactor ops in
  length l < 50 \/
  (let q := (length l + m - 1) / m in
   forall r, 1 <= r < m -> q * r < length l /\ nth (q * r - 1) l 0 + 1 < nth (q * r) l 0).
