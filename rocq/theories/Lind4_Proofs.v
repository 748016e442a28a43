(** A dephasing spin: the data of the examples of C87. *)
From Coq Require Import ZArith String List Reals Lra Lia Bool Arith Permutation.
From Verif Require Import OpBase_Model OpBase_Spec.
From Verif Require Import Base Cplx Mpi_Model Povm_Model Povm_Spec Povm_Proofs Povm2_Proofs Povm_Props PovmOp_Model PovmOp_Spec PovmOp_Proofs PovmOp_Props Many_Model Many_Spec Many_Proofs Many2_Proofs Many_Props.
From Verif Require Import Stats_Model Stats_Spec Stats_Proofs BranchFree_Model Sampler_Spec Exact_Model Exact_Spec Exact_Proofs Exact_Props.
From Verif Require Import Vmc_Model Vmc_Spec Vmc_Proofs Lind_Model Lind_Spec Lind_Proofs Lind2_Proofs Lind3_Proofs.
Import ListNotations.
Local Open Scope R_scope.

Definition M0 : nat -> cmat := povm_of_directions (dirs 0 0).
Lemma M0_sic : get_M 0 0 "SIC" = Ok M0. Proof. reflexivity. Qed.
Lemma dirs0_z a : (a < 4)%nat -> dirs 0 0 a 2%nat = if (a =? 0)%nat then 1 else -1/3.
Proof. intros Ha. cases4 a Ha; cbn [Nat.eqb]; unfold dirs, rdot; rewrite rsumn3; unfold rotator, rdot; rewrite !rsumn3; unfold transpose, rows, sic_directions; cbn [List.nth]; rewrite ?sin_0, ?cos_0; unfold rows; cbn [List.nth]; field. Qed.
Lemma dual_01 theta phi b : (b < 4)%nat -> dual_el theta phi b 0%nat 1%nat = (6 * (dirs theta phi b 0%nat / 4), 6 * (- dirs theta phi b 1%nat / 4)) /\ dual_el theta phi b 1%nat 0%nat = (6 * (dirs theta phi b 0%nat / 4), 6 * (dirs theta phi b 1%nat / 4)).
Proof.
  intros Hb. unfold dual_el. rewrite !csumn4, !M_01, !M_10. pose proof (dirs_sum theta phi 0 ltac:(lia)) as E0. pose proof (dirs_sum theta phi 1 ltac:(lia)) as E1. rewrite rsumn4 in E0, E1.
  set (v := dirs theta phi) in *. clearbody v. unfold sic_inv. cases4 b Hb; cbn [Nat.eqb]; unfold RtoC, Cmul, Cadd; cbn [fst snd]; split; apply C_eq; cbn [fst snd]; lra.
Qed.
Lemma dephased sigma : let L := lindblad 2 (mat2 C1 C0 C0 (- C1)%C) sigma in
  L 0%nat 0%nat = C0 /\ L 0%nat 1%nat = (RtoC (-2) * sigma 0%nat 1%nat)%C /\ L 1%nat 0%nat = (RtoC (-2) * sigma 1%nat 0%nat)%C /\ L 1%nat 1%nat = C0.
Proof.
  unfold lindblad, anticommutator, plus, times, mul. rewrite !csumn2. unfold dagger, mat2.
  destruct (sigma 0%nat 0%nat) as [p0 q0], (sigma 0%nat 1%nat) as [p1 q1], (sigma 1%nat 0%nat) as [p2 q2], (sigma 1%nat 1%nat) as [p3 q3].
  repeat split; unfold Cscal, Cadd, Cmul, Copp, Cconj, Csub, C0, C1, RtoC; cbn [fst snd]; apply C_eq; cbn [fst snd]; field.
Qed.
Lemma dephasing_matrix a b : (a < 4)%nat -> (b < 4)%nat -> povm_dissipative 2 4 (mat2 C1 C0 C0 (- C1)%C) M0 sic_inv a b = -3/2 * ((if (a =? b)%nat then 1 else -1/3) - dirs 0 0 a 2%nat * dirs 0 0 b 2%nat).
Proof.
  intros Ha Hb. set (Z := mat2 C1 C0 C0 (- C1)%C).
  pose proof (converted_flow 2 4 M0 sic_inv (sic_herm 0 0 M0 M0_sic) (sic_fr 0 0 M0 sic_inv M0_sic (sic_inverse 0 0)) Dissipation Z (povm_dissipative 2 4 Z M0 sic_inv) (dual_el 0 0 b) a eq_refl ltac:(congruence) (dual_herm 0 0 b) Ha) as H.
  assert (D : forall c, (c < 4)%nat -> outcome_prob 2 (dual_el 0 0 b) M0 c = if (b =? c)%nat then 1 else 0).
  { intros c Hc. pose proof (dual_pairing 0 0 b c Hb Hc) as E. unfold outcome_prob, tr, mul. fold M0 in E. etransitivity; [exact (f_equal Re E)|]. destruct (b =? c)%nat; reflexivity. }
  rewrite (rsumn_ext 4 _ (fun c => povm_dissipative 2 4 Z M0 sic_inv a c * (if (b =? c)%nat then 1 else 0))) in H by (intros c Hc; now rewrite D).
  assert (E : rsumn 4 (fun c => povm_dissipative 2 4 Z M0 sic_inv a c * (if (b =? c)%nat then 1 else 0)) = povm_dissipative 2 4 Z M0 sic_inv a b).
  { rewrite rsumn4. clear H D. destruct b as [|[|[|[|b]]]]; [| | | |lia]; cbn [Nat.eqb]; ring. }
  rewrite E in H. clear E D. apply (f_equal Re) in H. cbn [Re RtoC fst] in H. rewrite H. clear H.
  pose proof (dirs_dot 0 0 a b Ha Hb) as DD. rewrite rsumn3 in DD. rewrite <- DD. destruct (dual_01 0 0 b Hb) as [D1 D2].
  unfold tr, mul at 1. rewrite !csumn2. cbn [lflow]. destruct (dephased (dual_el 0 0 b)) as (L1 & L2 & L3 & L4). unfold Z. rewrite L1, L2, L3, L4. clear L1 L2 L3 L4. unfold M0. rewrite M_00, M_01, M_10, M_11, D1, D2.
  set (x := dirs 0 0 a 0%nat). set (y := dirs 0 0 a 1%nat). set (z := dirs 0 0 a 2%nat). set (x' := dirs 0 0 b 0%nat). set (y' := dirs 0 0 b 1%nat). set (z' := dirs 0 0 b 2%nat). clearbody x y z x' y' z'.
  unfold Cscal, Cadd, Cmul, C0, RtoC, Re; cbn [fst snd]. field.
Qed.

(** the operator: dephasing of strength 1 on the only site *)
Definition spin_heap : heap := fun _ => mk_op "dephasing" 1 [0]%nat 0.
Definition spin_events : list (nat * nat) := [(0, 0)]%nat.
Definition spin_terms : list term := [(1, Dissipation, sz, [0]%nat)].
Definition spin_mc : nat * list (list nat * (nat -> nat -> R)) :=
  (1%nat, [([0%nat], fun a b => 0 + 1 * povm_dissipative 2 4 (mat2 C1 C0 C0 (- C1)%C) M0 sic_inv a b)]).
Lemma spin_compile : PovmOp_Model.compile (standard_operators M0 sic_inv) dedup (fst (history spin_heap spin_events)) (snd (history spin_heap spin_events) 0%nat) = Ok spin_mc.
Proof. reflexivity. Qed.
Lemma spin_unshared : unshared 0 spin_events.
Proof. intros pre j p post E Hj. assert (HI : In (j, p) spin_events) by (rewrite E; apply in_app_iff; right; now left). cbn in HI. destruct HI as [HI|[]]; injection HI as <- _; congruence. Qed.
Lemma spin_stored : Forall2 (stored M0 sic_inv 1 (standard_operators M0 sic_inv)) (map spin_heap (PovmOp_Props.added 0 spin_events)) spin_terms.
Proof.
  constructor; [|constructor]. apply (standard_stored 0 0); [exact M0_sic| | |].
  - cbn. repeat constructor; cbn; lia.
  - cbn. lia.
  - eexists; eexists; split; [|reflexivity]; cbn; tauto.
Qed.
Lemma spin_lindbladian : lindbladian spin_terms. Proof. repeat constructor. cbn. discriminate. Qed.
(** elements of the generator: 0 between 0 and anything, -4/3 on the diagonal, 2/3 elsewhere *)
Definition spin_w (a b : nat) : R := if ((a =? 0) || (b =? 0))%nat then 0 else if (a =? b)%nat then -4/3 else 2/3.
Lemma spin_w_ok a b : (a < 4)%nat -> (b < 4)%nat -> povm_dissipative 2 4 (mat2 C1 C0 C0 (- C1)%C) M0 sic_inv a b = spin_w a b.
Proof. intros Ha Hb. rewrite dephasing_matrix, !dirs0_z by assumption. unfold spin_w. cases4 a Ha; cases4 b Hb; cbn [Nat.eqb orb]; field. Qed.
Lemma words_1 a : In a (words 4 1) -> exists c, (c < 4)%nat /\ a = [c].
Proof. intros H. apply in_words in H as [L H]. destruct a as [|c [|]]; try discriminate. exists c. split; [apply H; now left|reflexivity]. Qed.
Lemma spin_elements c : (c < 4)%nat -> get_s_primes spin_mc [c] = map (fun b => ([b], spin_w c b)) [0; 1; 2; 3]%nat.
Proof.
  intros Hc. transitivity (map (fun b => ([b], 0 + 1 * povm_dissipative 2 4 (mat2 C1 C0 C0 (- C1)%C) M0 sic_inv c b)) [0; 1; 2; 3]%nat).
  - cases4 c Hc; reflexivity.
  - cbn [map]. rewrite !spin_w_ok by lia. repeat f_equal; ring.
Qed.
Lemma spin_clean s : In s (words 4 1) -> clean (povm_elements spin_mc s).
Proof.
  intros Hs. apply words_1 in Hs as (c & Hc & ->). unfold povm_elements. rewrite spin_elements by exact Hc. intros s' m H. rewrite map_map in H. apply in_map_iff in H as (b & E & Hb). cbn [fst snd] in E. injection E as _ <-.
  unfold spin_w. destruct ((c =? 0) || (b =? 0))%nat; [left; reflexivity|right]. rewrite Cabs_RtoC. destruct (c =? b)%nat; unfold Rabs; destruct (Rcase_abs _); lra.
Qed.
Lemma spin_complete : complete_enumeration 1 4 2 1. Proof. apply C34_many_states_partial; cbn; lia. Qed.
(** the currents *)
Lemma spin_inflow (P : config -> R) rho c : state_of 1 M0 P rho -> (c < 4)%nat -> inflow 1 M0 spin_terms rho [c] = rsumn 4 (fun b => spin_w c b * P [b]).
Proof.
  intros Hr Hc. assert (Ha : In [c] (words 4 1)) by (cases4 c Hc; cbn; tauto).
  rewrite <- (represented_inflow 0 0 M0 sic_inv M0_sic (sic_inverse 0 0) 1 _ dedup spin_heap spin_events 0%nat spin_terms dedup_iterates spin_unshared ltac:(discriminate) spin_stored spin_mc spin_compile P rho [c] Hr Ha).
  unfold represented. rewrite spin_elements by exact Hc. unfold rsumn. cbn [seq map fst snd]. reflexivity.
Qed.
(** sx is an observable *)
Lemma sx_hermitian : hermitian 2 sx.
Proof. intros [|[|i]] [|[|j]] Hi Hj; try lia; unfold dagger, sx, of_rows; apply C_eq; cbn; ring. Qed.
(** a variable without variance is constant *)
Lemma no_variation N l X a : variation N l X = 0 -> In a (words 4 N) -> X a = average N l X.
Proof.
  intros H Ha. unfold variation, average at 1 in H.
  assert (Z : distribution N l a * ((X a - average N l X) * (X a - average N l X)) = 0).
  { apply (rsum_nonneg_eq0 (fun a0 => distribution N l a0 * ((X a0 - average N l X) * (X a0 - average N l X))) (words 4 N)); [|exact H|exact Ha].
    intros b _. apply Rmult_le_pos; [left; apply distribution_pos|apply Rle_0_sqr]. }
  apply Rmult_integral in Z as [Z|Z]; [pose proof (distribution_pos N l a); lra|]. apply Rmult_integral in Z as [Z|Z]; lra.
Qed.
