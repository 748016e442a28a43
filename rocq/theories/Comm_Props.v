(** C99: recorded communication times (mpi_wrapper.py, tdvp.py, minsr.py and output_manager.py together). *)
From Coq Require Import String List Reals Lra Lia Bool Arith.
From Verif Require Import Base Output_Model Comm_Model Comm_Spec Comm_Proofs.
Import ListNotations.
Local Open Scope R_scope.

(** the parts of an evaluation that the examples use: sampling normalises weights, both SampledObs compute a mean, the variance
    of the local energies follows the report *)
Definition usual (x : R) (solve : list activity) : parts :=
  mk_parts [Work 2; Sum 0 x 1] [Work 3] [Sum 1 x 1] [Work 4; Gather 1] [Sum 0 x 1] solve [Sum 0 x 1].

Local Ltac all_times := repeat (apply Forall_cons; [cbn; lra|]); apply Forall_nil.

(** Nothing is counted twice or lost: what all output managers have recorded and what waits to be reported is what the process
    has spent in reductions.  Partial: gathers and broadcasts are missing, see C99_gather_refuted. *)
Theorem C99_once_partial t l ks : NoDup ks -> (forall k, existsb (reports_to k) l = true -> In k ks) ->
  total (map (fun k => t_total (mpi_record (run_steps l (fresh t)) k)) ks) + communicationTime (run_steps l (fresh t)) = seconds in_reductions l.
Proof.
  intros ND H. pose proof (run_balance ks l (fresh t) ND) as B. unfold recorded in B. rewrite B.
  - replace (total (map (fun k => t_total (mpi_record (fresh t) k)) ks)) with 0; [cbn; lra|].
    clear. induction ks as [|k ks IH]; [reflexivity|]. cbn. unfold total in IH. cbn in IH. rewrite <- IH. lra.
  - apply Forall_forall. intros s Hs k Hk. apply H, existsb_exists. now exists s.
Qed.
Print Assumptions C99_once_partial.
(** two output managers, an evaluation without one, MinSR, activities in between, timings printed *)
Definition busy : list step :=
  [Do (Variance 1 (1, 1, 1, 2) 3 4); Evaluate TDVP (Some 0%nat) (usual 1 [Sum 0 0 2]); PrintTimings 0; Evaluate TDVP None (usual 2 []);
   Do (Bcast 1 1); Evaluate MinSR (Some 1%nat) (usual 3 [Sum 0 1 1; Gather 5]); Do (Mean 1 0 1 1)].
Example C99_once_hyps : NoDup [0; 1]%nat /\ (forall k, existsb (reports_to k) busy = true -> In k [0; 1]%nat)
  /\ t_total (mpi_record (run_steps busy (fresh 7)) 0) = 15 /\ t_total (mpi_record (run_steps busy (fresh 7)) 1) = 28
  /\ communicationTime (run_steps busy (fresh 7)) = 6.
Proof.
  split; [repeat constructor; cbn; intuition discriminate|]. split.
  - intros k H. cbn in H. destruct k as [|[|k]]; cbn in *; auto. discriminate.
  - cbn. repeat split; lra.
Qed.

(** An evaluation with an output manager records what was spent in reductions since the last report; what it does after its own
    report is left to the next one; the record counts the evaluations with this output manager.  Partial: as above. *)
Theorem C99_newest_partial t l m k w :
  let p := run_steps (l ++ [Evaluate m (Some k) w]) (fresh t) in
  t_newest (mpi_record p k) = total (map in_reductions (unreported l ++ all_parts w)) /\ communicationTime p = total (map in_reductions (later w))
  /\ t_count (mpi_record p k) = S (length (filter (reports_to k) l)).
Proof.
  cbv zeta. split; [apply newest_after|]. split.
  - now rewrite pending, unreported_snoc.
  - rewrite counted, filter_app, app_length. cbn. rewrite Nat.eqb_refl. cbn. lia.
Qed.
Print Assumptions C99_newest_partial.
Example C99_newest_case : unreported busy = [Sum 0 3 1; Mean 1 0 1 1] /\ total (map in_reductions (unreported busy ++ all_parts (usual 1 []))) = 12
  /\ length (filter (reports_to 0) busy) = 1%nat.
Proof. repeat split. cbn. lra. Qed.

(** One evaluation: every phase is recorded with its duration.  When nothing was left to report before, the recorded
    communication is the time that this evaluation spent in reductions, and does not exceed its duration. *)
Theorem C99_evaluation m k w p : Forall takes_time (all_parts w ++ later w) -> communicationTime p = 0 ->
  let q := evaluate (eqn_name m) (Some k) w p in
  let newest name := t_newest (t_entry name (managers q k)) in
  newest "sampling"%string = total (map lasts (sampling w)) /\ newest "compute Eloc"%string = total (map lasts (eloc w))
  /\ newest "compute gradients"%string = total (map lasts (grads w)) /\ newest (eqn_name m) = total (map lasts (solving w))
  /\ newest "MPI communication"%string = total (map in_reductions (all_parts w))
  /\ clock q - clock p = newest "sampling"%string + newest "compute Eloc"%string + newest "compute gradients"%string + newest (eqn_name m)
                         + total (map lasts (obs_eloc w)) + total (map lasts (obs_grads w)) + total (map lasts (later w))
  /\ 0 <= newest "MPI communication"%string <= clock q - clock p.
Proof.
  intros HT H0. apply Forall_app in HT as [HT HL]. cbv zeta. destruct (evaluate_phases m k w p) as (E1 & E2 & E3 & E4). cbv zeta in E1, E2, E3, E4.
  pose proof (evaluate_record m (Some k) w p k) as E5. cbv beta iota zeta in E5. rewrite Nat.eqb_refl in E5. destruct E5 as (_ & E5 & _).
  rewrite H0 in E5. unfold mpi_record in E5. rewrite E1, E2, E3, E4, E5, evaluate_clock. repeat split.
  - lra.
  - unfold all_parts. rewrite !map_app, !total_app. lra.
  - pose proof (reductions_within_all _ HT). lra.
  - pose proof (reductions_within_all _ HT). pose proof (reductions_within_all _ HL). lra.
Qed.
Print Assumptions C99_evaluation.
Example C99_evaluation_hyps : Forall takes_time (all_parts (usual 1 [Sum 0 1 2; Gather 4]) ++ later (usual 1 [Sum 0 1 2; Gather 4])) /\ communicationTime (fresh 7) = 0
  /\ total (map lasts (all_parts (usual 1 [Sum 0 1 2; Gather 4]))) = 24 /\ total (map in_reductions (all_parts (usual 1 [Sum 0 1 2; Gather 4]))) = 9.
Proof. split; [cbn; all_times|]. cbn. repeat split; lra. Qed.

(** Gathers (MinSR.solve) and broadcasts are not counted, however long they take. *)
Theorem C99_gather_refuted : exists w : R -> parts, forall d t, let p := run_steps [Evaluate MinSR (Some 0%nat) (w d)] (fresh t) in
  seconds in_mpi [Evaluate MinSR (Some 0%nat) (w d)] = 5 + d
  /\ t_total (mpi_record p 0) = 3 /\ communicationTime p = 1.
Proof.
  exists (fun d => usual 0 [Gather d]). intros d t. cbv zeta. split; [unfold seconds; cbn; lra|]. split; cbn; lra.
Qed.
Print Assumptions C99_gather_refuted.

(** The sum over the devices of the process (the first time with its compilation) counts as communication, so a single process
    reports communication although the reduction takes no time. *)
Theorem C99_local_refuted : exists w : R -> parts, forall d t, let p := run_steps [Evaluate TDVP (Some 0%nat) (w d)] (fresh t) in
  seconds in_mpi [Evaluate TDVP (Some 0%nat) (w d)] = 0 /\ t_total (mpi_record p 0) = d.
Proof.
  exists (fun d => mk_parts [Work 1] [] [Sum 0 d 0] [] [] [] []). intros d t. cbv zeta. split; [unfold seconds; cbn; lra|cbn; lra].
Qed.
Print Assumptions C99_local_refuted.

(** What an evaluation does after its report (variance of the local energies, cross validation) is left to the next one: the record
    can exceed the duration of the evaluation that makes it, although every evaluation reports. *)
Theorem C99_earlier_refuted : exists w w', Forall takes_time (all_parts w ++ later w) /\ Forall takes_time (all_parts w' ++ later w')
  /\ let p := run_steps [Evaluate MinSR (Some 0%nat) w] (fresh 0) in let q := do_step p (Evaluate MinSR (Some 0%nat) w') in
     clock q - clock p < t_newest (mpi_record q 0).
Proof.
  exists (usual 9 [Gather 1]), (mk_parts [Work 1] [] [Sum 0 0 1] [] [Sum 0 0 1] [Gather 1] []).
  split; [cbn; all_times|]. split; [cbn; all_times|]. cbn. lra.
Qed.
Print Assumptions C99_earlier_refuted.
