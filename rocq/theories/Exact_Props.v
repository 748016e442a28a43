(** C34, C35: the exact sampler. *)
From Coq Require Import ZArith List Reals Lra Lia Bool Arith Permutation.
From Verif Require Import Base Cplx Mpi_Model Mpi_Props BranchFree_Model Sampler_Spec Exact_Model Exact_Spec Exact_Proofs.
Import ListNotations.

(** ** C34 *)

(** Every basis configuration once, over all ranks 0..c-1 and their devices, exactly if on
    every rank the devices but the last do not take more than all its states. *)
Theorem C34_enumeration_partial N lDim c devices : (0 < lDim)%Z -> (0 < c)%Z -> (0 < devices)%Z ->
  let my r := fst (distribute_sampling r c (lDim ^ Z.of_nat N) None 1) in
  Permutation (all_counted (map (fun r => get_basis (Z.of_nat r) c N lDim devices) (seq 0 (Z.to_nat c)))) (all_configs (Z.to_nat lDim) N)
  <-> forall r, (0 <= r < c)%Z -> ((devices - 1) * ((my r + devices - 1) / devices) <= my r)%Z.
Proof. intros Hl Hc Hd my. exact (enumerates_iff N lDim c devices Hl Hc Hd). Qed.
Print Assumptions C34_enumeration_partial.

(** In particular with one device per process, and whenever every rank has at least (devices - 1)^2 states. *)
Theorem C34_many_states_partial N lDim c devices : (0 < lDim)%Z -> (0 < c)%Z -> (0 < devices)%Z ->
  ((devices - 1) * (devices - 1) <= lDim ^ Z.of_nat N / c)%Z ->
  Permutation (all_counted (map (fun r => get_basis (Z.of_nat r) c N lDim devices) (seq 0 (Z.to_nat c)))) (all_configs (Z.to_nat lDim) N).
Proof.
  intros Hl Hc Hd H. apply (proj2 (enumerates_iff N lDim c devices Hl Hc Hd)). intros r Hr. apply fits_many; [apply Z.pow_nonneg; lia|assumption|assumption|].
  unfold my_states. cbn. unfold samples_per_process. destruct (r <? (lDim ^ Z.of_nat N) mod c)%Z; lia.
Qed.
Print Assumptions C34_many_states_partial.
Example C34_example : ((3 - 1) * (3 - 1) <= 2 ^ Z.of_nat 4 / 3)%Z
  /\ map (fun r => map fst (get_basis (Z.of_nat r) 3 4 2 3)) (seq 0 3) = [[2; 2; 2]; [2; 2; 1]; [2; 2; 1]]%Z
  /\ map snd (get_basis 1 2 2 3 2) = [[[1; 2]; [2; 0]]; [[2; 1]; [2; 2]]]%nat.
Proof. split; [cbn; lia|]. split; reflexivity. Qed.

(** One spin, one rank, four devices: three configurations count, one of them twice. *)
Theorem C34_enumeration_refuted : exists N lDim c devices, (0 < lDim /\ 0 < c /\ 0 < devices)%Z
  /\ all_counted (map (fun r => get_basis (Z.of_nat r) c N lDim devices) (seq 0 (Z.to_nat c))) = [[0]; [1]; [0]]%nat
  /\ all_configs (Z.to_nat lDim) N = [[0]; [1]]%nat.
Proof. exists 1%nat, 2%Z, 1%Z, 4%Z. split; [lia|]. split; reflexivity. Qed.
Print Assumptions C34_enumeration_refuted.

(** ** C35 *)

(** The last of any number of calls, for any wave functions in all of them: normalised Born
    probabilities, zero where an entry does not count, total one.  (Calls without any state are
    excluded: the code then takes the logarithm of zero.)  [lastNorm] then is the
    logarithm of the norm of the last wave function only. *)
Theorem C35_probabilities lpf history (data : list (list (Z * list C))) : lpf <> 0%R ->
  Forall (fun d => all_counted d <> []) history -> all_counted data <> [] ->
  let norm := rsum (map (born_weight lpf) (all_counted data)) in
  let r := exact_sample lpf (exact_samples lpf 0 history) data in
  (0 < norm)%R /\ fst r = map (map (born_probs lpf norm)) data /\ rsum (concat (concat (fst r))) = 1%R /\ snd r = (lpf * ln norm)%R.
Proof.
  intros Hl _ Hne norm r. destruct (exact_spec lpf (exact_samples lpf 0 history) data Hl Hne) as [HZ E]. fold norm in HZ, E. unfold r. rewrite E. cbn [fst snd].
  split; [assumption|]. split; [reflexivity|]. split; [|reflexivity].
  rewrite concat_map2. transitivity (rsum (map (fun l => born_weight lpf l * / norm)%R (all_counted data))).
  - unfold all_counted. clear. induction (concat data) as [|d l IH]; [reflexivity|]. cbn [map concat]. rewrite map_app, !rsum_app, IH. f_equal. unfold born_probs. rewrite rsum_app, rsum_zeros. unfold Rdiv. ring.
  - rewrite rsum_scal_r. fold norm. field. lra.
Qed.
Print Assumptions C35_probabilities.
Example C35_example : (/ 2 <> 0)%R /\ all_counted [[(2, [C0; C1]); (1, [Ci; C0])]]%Z = [C0; C1; Ci]
  /\ Forall (fun d => all_counted d <> []) [[[(2, [C1; C1]); (1, [Ci; C0])]]; [[(1, [Ci])]]]%Z.
Proof. split; [lra|]. split; [reflexivity|]. repeat constructor; discriminate. Qed.
