(** C17 on several ranks. *)
From Coq Require Import List Reals Lia Bool Arith.
From Verif Require Import Base Cplx Mpi_Model BranchFree_Model BranchFree_Spec OpBase_Model OpBase_Spec OpBase_Proofs OpBase_Props
  BranchFree_Proofs OpRanks_Model OpRanks_Spec OpRanks_Proofs.
Import ListNotations.

(** Never stale on any rank: for every number of ranks, every number of prefactors and
    whatever was added, evaluated (with any numbers of arguments), raised or left waiting
    before, an evaluation that returns on a rank gives the elements of the sum of all
    strings added so far. *)
Theorem C17_ranks_never_stale {A} lDim d m (h : list (revent A)) args ss r els x :
  nth_error (get_s_primes_ranks lDim d (rrun lDim d m h) args ss) r = Some (Ok els, x) ->
  operator_elements lDim d (radded h) args (ss r) = Ok els.
Proof.
  apply ranks_sound. unfold rrun. exact (winv_run lDim d [] h _ (winv_new lDim m)).
Qed.
Print Assumptions C17_ranks_never_stale.

(** If no earlier evaluation raised and the ranks can share the prefactors, every rank
    returns what a freshly built operator returns on one rank.  Missing: strings that
    cannot be shared, and histories with an evaluation that raised, see below and
    C17_fresh_refuted. *)
Theorem C17_ranks_return_partial {A} lDim d m (h : list (revent A)) args ss r els :
  all_return_ranks lDim d (repeat (Some new_op) m) h -> shareable m (radded h) -> r < m ->
  operator_elements lDim d (radded h) args (ss r) = Ok els ->
  exists x, nth_error (get_s_primes_ranks lDim d (rrun lDim d m h) args ss) r = Some (Ok els, x).
Proof.
  intros H Hs Hr He. assert (L : length (rrun lDim d m h) = m) by (unfold rrun; rewrite run_length; apply repeat_length).
  eapply ranks_complete; [unfold rrun; exact (winv_ok_run lDim d h [] _ (winv_ok_new lDim m) H)|now rewrite L|now rewrite L|exact He].
Qed.
Print Assumptions C17_ranks_return_partial.

(** two ranks with different samples, a string added between two evaluations *)
Definition ex_rhist : list (revent bool) :=
  [RAdd [EFun ex_pref; EOp (Sx 0)]; REval [true] (fun r => [r]); RAdd [EOp (Sx 0)]; REval [true] (fun r => [1 - r])].
Example C17_ranks_example : all_return_ranks 2 1 (repeat (Some new_op) 2) ex_rhist /\ shareable 2 (radded ex_rhist)
  /\ exists els, operator_elements 2 1 (radded ex_rhist) [true] [0] = Ok els /\ length els = 2.
Proof.
  split; [|split].
  - repeat split; repeat constructor; eexists; reflexivity.
  - left. cbn. lia.
  - eexists. split; reflexivity.
Qed.
(** 50 prefactors on two ranks, every other string has none *)
Example C17_ranks_example_many :
  let ops := flat_map (fun _ => [[EFun (PConst Ci); EOp (Sx 0)]; [EOp (Sx 0)]] : list (opstr unit)) (seq 0 50) in
  length (with_prefactor ops) = 50 /\ shareable 2 ops.
Proof.
  cbv zeta. set (ops := flat_map _ _). assert (E : with_prefactor ops = map (fun k => 2 * k) (seq 0 50)) by (vm_compute; reflexivity).
  rewrite E. split; [reflexivity|]. unfold shareable. rewrite E. right. cbv zeta. rewrite map_length, seq_length.
  intros r Hr. assert (r = 1) as -> by lia. vm_compute. split; repeat constructor.
Qed.

Definition ex_50 : list (revent unit) := map (fun _ => RAdd [EFun (PConst Ci); EOp (Sx 0)]) (seq 0 50).
Lemma ex_50_added : radded ex_50 = map to_opstr (map (fun _ => (Some (PConst Ci), [Sx 0])) (seq 0 50) : list (ostring unit)).
Proof. unfold ex_50, radded. induction (seq 0 50) as [|k l IH]; cbn; [reflexivity|]. cbn in IH. now rewrite IH. Qed.
Lemma ex_50_elements : exists els, operator_elements 2 1 (radded ex_50) [] [0] = Ok els.
Proof.
  rewrite ex_50_added.
  destruct (operator_elements_ok 2 1 1 (map (fun _ => (Some (PConst Ci), [Sx 0])) (seq 0 50) : list (ostring unit)) [] (map (fun _ => Ci) (seq 0 50)) [0]) as (els & E & _).
  { apply Forall_map, Forall_forall. intros _ _. split; [|discriminate]. constructor; [|constructor].
    unfold wf_op, Sx. cbn. repeat split; try lia; discriminate. }
  { unfold wf_config. cbn. repeat split; lia. }
  { induction (seq 0 50); cbn; constructor; [reflexivity|assumption]. }
  { apply Forall_forall. intros st _. now left. }
  exists els. exact E.
Qed.
Lemma ex_50_first : map fst (get_s_primes_ranks 2 1 (rrun 2 1 2 ex_50) [] (fun _ => [0])) = [Err IndexError; Err Blocked].
Proof. vm_compute. reflexivity. Qed.
Lemma ex_50_dead : nth_error (rrun 2 1 2 (ex_50 ++ [REval [] (fun _ => [0])])) 1 = Some None.
Proof. vm_compute. reflexivity. Qed.

(** 50 strings with a prefactor each, on two ranks: the operator has matrix elements, but
    its first evaluation raises on rank 0 and leaves rank 1 waiting, whatever the program
    does afterwards. *)
Theorem C17_ranks_return_refuted : exists (h : list (revent unit)) els,
  operator_elements 2 1 (radded h) [] [0] = Ok els
  /\ map fst (get_s_primes_ranks 2 1 (rrun 2 1 2 h) [] (fun _ => [0])) = [Err IndexError; Err Blocked]
  /\ forall h', nth_error (rrun 2 1 2 (h ++ REval [] (fun _ => [0]) :: h')) 1 = Some None.
Proof.
  destruct ex_50_elements as (els & E). exists ex_50, els. split; [exact E|]. split; [exact ex_50_first|].
  intros h'. replace (ex_50 ++ REval [] (fun _ => [0]) :: h') with ((ex_50 ++ [REval [] (fun _ => [0])]) ++ h') by (now rewrite <- app_assoc).
  unfold rrun. rewrite fold_left_app. pose proof ex_50_dead as D. unfold rrun in D.
  revert D. generalize (fold_left (rstep 2 1) (ex_50 ++ [REval [] (fun _ => [0])]) (repeat (Some new_op) 2)).
  induction h' as [|e h' IH]; intros w Hw; [exact Hw|]. cbn [fold_left]. apply IH. now apply dead_step.
Qed.
Print Assumptions C17_ranks_return_refuted.
