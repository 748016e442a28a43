(** C33: random keys are never reused. *)
From Coq Require Import List Arith Lia.
From Verif Require Import Keys_Model Keys_Proofs.
Import ListNotations.

(** A consumer uses different keys, all of them derived from the key it is given. *)
Definition derives_keys (p : key -> list key) : Prop := forall k, NoDup (p k) /\ forall l, In l (p k) -> exists path, l = path ++ k.

(** The update proposers and the sampling functions of the recurrent networks are such consumers. *)
Theorem C33_consumers : derives_keys use_spin_flip /\ derives_keys use_POVM /\ derives_keys use_Z2 /\ derives_keys use_zeroMag
  /\ (forall L batch, derives_keys (use_rnn1d L batch)) /\ forall Lx Ly batch, derives_keys (use_rnn2d Lx Ly batch).
Proof.
  split; [exact own_spin_flip|]. split; [exact own_POVM|]. split; [exact own_Z2|]. split; [exact own_zeroMag|].
  split; [exact own_rnn1d|exact own_rnn2d].
Qed.
Print Assumptions C33_consumers.

(** All ranks, devices, chains, updates, and any sequence of calls of sample(): no key is
    consumed twice.  Missing: set_random_key with several ranks. *)
Theorem C33_no_reuse_partial proposer netSample seed commSize devices cs :
  derives_keys proposer -> (forall n, derives_keys (netSample n)) -> 1 <= devices ->
  Forall (fun c => forall s, c <> SetKey s) cs ->
  NoDup (consumed proposer netSample seed commSize devices cs).
Proof.
  intros Hp Hn Hd Hcs. apply consumed_NoDup; [exact Hp|exact Hn|exact Hd|]. eapply Forall_impl; [|exact Hcs]. intros [| |s] H; [exact I|exact I|]. now apply (H s).
Qed.
Print Assumptions C33_no_reuse_partial.

(** One rank: also with set_random_key, if every seed is used once. *)
Theorem C33_one_rank_partial proposer netSample seed devices cs :
  derives_keys proposer -> (forall n, derives_keys (netSample n)) -> 1 <= devices ->
  NoDup (seed :: flat_map (fun c => match c with SetKey s => [s] | _ => [] end) cs) ->
  NoDup (consumed proposer netSample seed 1 devices cs).
Proof. intros Hp Hn Hd Hs. exact (consumed_one_rank proposer netSample Hp Hn seed devices cs Hd Hs). Qed.
Print Assumptions C33_one_rank_partial.

Example C33_example : consumed use_Z2 (use_rnn1d 2) 7 2 1 [Mcmc (fun r => 1) 1; Gen (fun r => 1) true]
  = [[0; 0; 7]; [0; 0; 0; 7]; [0; 0; 0; 0; 7]; [1; 0; 0; 0; 7]; [1; 0; 0; 7]; [0; 1; 0; 0; 7]]
    ++ [[0; 1; 7]; [0; 0; 1; 7]; [0; 0; 0; 1; 7]; [1; 0; 0; 1; 7]; [1; 0; 1; 7]; [0; 1; 0; 1; 7]]
    ++ [[1; 1; 0; 0; 7]; [1; 1; 1; 0; 0; 7]; [0; 1; 1; 1; 0; 0; 7]; [0; 0; 1; 1; 1; 0; 0; 7]; [1; 0; 1; 1; 1; 0; 0; 7]; [2; 1; 1; 0; 0; 7]]
    ++ [[1; 1; 0; 1; 7]; [1; 1; 1; 0; 1; 7]; [0; 1; 1; 1; 0; 1; 7]; [0; 0; 1; 1; 1; 0; 1; 7]; [1; 0; 1; 1; 1; 0; 1; 7]; [2; 1; 1; 0; 1; 7]].
Proof. reflexivity. Qed.
Example C33_one_rank_example : NoDup (7 :: flat_map (fun c => match c with SetKey s => [s] | _ => [] end) [Mcmc (fun r => 1) 1; SetKey 3; Mcmc (fun r => 2) 1; SetKey 4]).
Proof. cbn. repeat constructor; cbn; lia. Qed.

(** Two ranks after set_random_key draw the same numbers. *)
Theorem C33_set_random_key_refuted : exists proposer seed cs, derives_keys proposer
  /\ NoDup (seed :: flat_map (fun c => match c with SetKey s => [s] | _ => [] end) cs)
  /\ ~ NoDup (consumed proposer (fun _ k => [k]) seed 2 1 cs).
Proof.
  exists use_spin_flip, 1, [SetKey 2; Mcmc (fun _ => 1) 1]. split; [exact own_spin_flip|]. split; [cbn; repeat constructor; cbn; lia|].
  cbn. intros H. inversion H as [|? ? H1 _]; subst. apply H1. cbn. tauto.
Qed.
Print Assumptions C33_set_random_key_refuted.
