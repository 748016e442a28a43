(** Independent specification for the complete recurrent networks. *)
From Coq Require Import List Reals Arith.
From Verif Require Import Base Cplx BranchFree_Model Dist Sampler_Spec Net_Model Net_Spec Rnn_Spec Rnet_Model.
Import ListNotations.
Local Open Scope R_scope.

(** the parameters have the shapes that flax gives them: [m] numbers enter the input layer, [h] hidden ones,
    [features] come out of the output layer *)
Definition cell_shapes (h : nat) (p : cparams) : Prop :=
  kernel_shape h h (cp_H p) /\ List.length (dp_bias (cp_H p)) = h /\ kernel_shape h h (cp_V p)
  /\ (forall c x, has_shape 1 h c -> List.length x = h -> has_shape 1 h (fst (cp_gru p c x)) /\ has_shape 1 h (snd (cp_gru p c x)))
  /\ (forall a b x, List.length a = h -> List.length b = h -> List.length x = h ->
        List.length (fst (fst (cp_lstm p (a, b) x))) = h /\ List.length (snd (fst (cp_lstm p (a, b) x))) = h /\ List.length (snd (cp_lstm p (a, b) x)) = h).
Definition net_shapes (m h features : nat) (pin : dense_params) (cps : nat -> cparams) (pout : dense_params) : Prop :=
  kernel_shape m h pin /\ (forall j, cell_shapes h (cps j)) /\ kernel_shape h features pout /\ List.length (dp_bias pout) = features.

(** log psi is computed by [f] on [space] without error; |psi|^(1/kappa) sums to one *)
Definition normalised {A} (space : list A) (kappa : R) (f : A -> result C) : Prop :=
  exists psi, (forall s, In s space -> f s = Ok (psi s)) /\ rsum (map (fun s => exp (Re (psi s) / kappa)) space) = 1.
(** the sampler returns [s] with probability |psi(s)|^(1/kappa), and never fails *)
Definition samples_follow {A} (dec : forall s t : A, {s = t} + {s <> t}) (space : list A) (kappa : R) (d : dist (result A)) (f : A -> result C) : Prop :=
  (forall o, outcome d o -> exists s, o = Ok s /\ In s space)
  /\ forall s, In s space -> exists z, f s = Ok z
     /\ E d (fun o => match o with Ok t => if dec t s then 1 else 0 | Err _ => 0 end) = exp (Re z / kappa).
