(** Independent specification for operator/base.py. *)
From Coq Require Import List Reals Bool.
From Verif Require Import Base Cplx BranchFree_Model BranchFree_Spec OpBase_Model.
Import ListNotations.

(** elements that are zero or larger than 1e-6 in modulus *)
Definition clean (els : list (config * C)) : Prop :=
  forall s' m, In (s', m) els -> m = C0 \/ (/ 1000000 < Cabs m)%R.

(** sum over the elements larger than 1e-6 *)
Definition contract_large (els : list (config * C)) (f : config -> C) : C :=
  csum (map (fun sm => if Rlt_dec (/ 1000000) (Cabs (snd sm)) then (snd sm * f (fst sm))%C else C0) els).

(** the wave function of a state *)
Definition amplitude (psi : state) (s : config) : C :=
  if st_log psi then Cexp (st_val psi s) else st_val psi s.

(** O_loc(s) = sum_s' O_{s,s'} psi(s') / psi(s) *)
Definition O_loc_spec (els : list (config * C)) (psi : config -> C) (s : config) : C :=
  csum (map (fun sm => (snd sm * (psi (fst sm) / psi s))%C) els).

(** every evaluation in the history, started from the object [o], returns *)
Fixpoint all_return {A} (lDim d : nat) (o : opobj A) (h : list (event A)) : Prop :=
  match h with
  | [] => True
  | e :: r => match e with
              | Add _ => True
              | Eval args s => exists els, fst (get_s_primes lDim d o args s) = Ok els
              end /\ all_return lDim d (step lDim d o e) r
  end.

(** the strings added in a history, in order *)
Definition added {A} (h : list (event A)) : list (opstr A) :=
  flat_map (fun e => match e with Add s => [s] | Eval _ _ => [] end) h.
