(** C70-C72: expectation values, stochastic reconfiguration and real time evolution with the exact
    sampler (sampler.py, operator/, stats.py and tdvp.py together). *)
From Coq Require Import ZArith List Reals Lra Lia Bool Arith Permutation.
From Verif Require Import Base Cplx Mpi_Model Povm_Spec Povm_Proofs Stats_Model Stats_Spec Stats_Proofs BranchFree_Model BranchFree_Spec BranchFree_Proofs BranchFree2_Proofs OpBase_Model OpBase_Spec
  Sampler_Spec Sampler2_Proofs Exact_Model Exact_Spec Exact_Proofs Exact_Props Stepper_Model Tdvp_Model Tdvp_Spec Tdvp_Proofs Tdvp2_Proofs Tdvp3_Proofs Tdvp4_Proofs Tdvp_Props Vmc_Model Vmc_Spec Vmc_Proofs Vmc2_Proofs Vmc3_Proofs.
Import ListNotations.
Local Open Scope R_scope.

(** ** C70 *)

(** Any number of ranks and devices for which the enumeration is complete and no rank is without
    states, any batch size, any earlier calls, any wave function: the mean and the variance of the
    local estimator are <O> and the variance of O, for the operator O that maps phi to
    s |-> sum over strings of prefactor * factor * phi(new configuration).  Missing: that this is
    the operator written down, which fails with ladder operators (below). *)
Theorem C70_expectation_partial {A} lDim N c devices lastNorm psi (sts : list (ostring A)) args vals bs :
  (0 < lDim)%Z -> (0 < N)%nat -> (0 < c <= lDim ^ Z.of_nat N)%Z -> (0 < devices)%Z -> complete_enumeration N lDim c devices ->
  Forall (wf_string (Z.to_nat lDim) N) sts -> Forall2 (prefactor_is args) sts vals ->
  (forall s els, wf_config (Z.to_nat lDim) N s -> operator_elements (Z.to_nat lDim) N (map to_opstr sts) args s = Ok els -> clean els) ->
  let basis := all_configs (Z.to_nat lDim) N in
  let phi := fun s => Cexp (psi s) in
  let O := apply_strings sts vals in
  exists o, energy_obs lDim N c devices lastNorm psi (map to_opstr sts) args bs = Ok o
    /\ mean o tt = expectation basis O phi /\ var o tt = spread basis O phi
    /\ (var o tt = 0 <-> eigenvector basis O phi).
Proof.
  intros Hl HN [Hc Hst] Hd He Hw Hp Hcl basis phi O.
  pose proof (proj1 (enumerates_iff N lDim c devices Hl Hc Hd) He) as Hfit.
  eexists. split; [exact (energy_obs_ok lDim N c devices lastNorm psi Hl HN Hc Hd Hfit Hst sts args vals bs Hw Hp Hcl)|].
  rewrite (mean_of lDim N c devices lastNorm psi Hl HN Hc Hd Hfit (fun s (_ : unit) => (apply_strings sts vals phi s / phi s)%C)).
  rewrite (var_of lDim N c devices lastNorm psi Hl HN Hc Hd Hfit (fun s (_ : unit) => (apply_strings sts vals phi s / phi s)%C)).
  pose proof (basis_ne lDim N c devices Hl HN Hfit) as Bne. fold basis in Bne.
  assert (Pne : forall s, phi s <> C0) by (intros; apply Cexp_neq0).
  split; [exact (born_local basis phi O Bne Pne)|]. pose proof (born_variance basis phi O Bne Pne) as V. fold phi basis.
  change (variance (born_list basis phi) (fun s => (apply_strings sts vals phi s / phi s)%C)) with (variance (born_list basis phi) (fun s => (O phi s / phi s)%C)).
  split; [exact V|]. rewrite V. exact (spread_zero basis phi O Bne Pne).
Qed.
Print Assumptions C70_expectation_partial.

(** For sums of products of Pauli matrices on different sites it is the operator written down. *)
Theorem C70_pauli_partial N c devices lastNorm psi (terms : list (C * list (opname * nat))) bs :
  (0 < N)%nat -> (0 < c <= 2 ^ Z.of_nat N)%Z -> (0 < devices)%Z -> complete_enumeration N 2 c devices ->
  Forall (fun cl => NoDup (map snd (snd cl)) /\ Forall (fun oi => (snd oi < N)%nat /\ fst oi <> NP /\ fst oi <> NM) (snd cl)) terms ->
  (forall s els, wf_config 2 N s -> operator_elements 2 N (map to_opstr (map string_of terms)) [] s = Ok els -> clean els) ->
  let basis := all_configs 2 N in
  let phi := fun s => Cexp (psi s) in
  exists o, energy_obs 2 N c devices lastNorm psi (map to_opstr (map string_of terms)) [] bs = Ok o
    /\ mean o tt = expectation basis (documented terms) phi /\ var o tt = spread basis (documented terms) phi.
Proof.
  intros HN Hc Hd He Ht Hcl basis phi.
  assert (Hw : Forall (wf_string 2 N) (map string_of terms)).
  { apply Forall_map. eapply Forall_impl; [|exact Ht]. intros [v l] [_ H]. split; [|discriminate]. cbn. apply Forall_map. eapply Forall_impl; [|exact H]. intros [o i] (Hi & _). now apply wf_2. }
  assert (Hp : Forall2 (prefactor_is []) (map string_of terms) (map fst terms)).
  { clear. induction terms; cbn; constructor; [reflexivity|assumption]. }
  destruct (C70_expectation_partial 2 N c devices lastNorm psi (map string_of terms) [] (map fst terms) bs ltac:(lia) HN Hc Hd He Hw Hp Hcl) as (o & E & M & V & _).
  exists o. split; [exact E|]. change (Z.to_nat 2) with 2%nat in M, V. fold basis phi in M, V.
  assert (EQ : forall s, In s basis -> apply_strings (map string_of terms) (map fst terms) phi s = documented terms phi s).
  { intros s Hs. apply basis_wf in Hs; [|exact HN]. unfold apply_strings, documented.
    rewrite combine_map, map_map. apply csum_ext. intros [v l] Hin. cbn [fst snd string_of]. rewrite Forall_forall in Ht. destruct (Ht _ Hin) as [H1 H2].
    pose proof (product_op_act N l phi s Hs H1 H2) as Q. cbv zeta in Q. rewrite Q. ring. }
  assert (EX : expectation basis (apply_strings (map string_of terms) (map fst terms)) phi = expectation basis (documented terms) phi).
  { unfold expectation, braket. apply (f_equal (fun X => (X / RtoC (norm2 basis phi))%C)). apply csum_ext. intros s Hs. now rewrite EQ. }
  split; [now rewrite M|]. rewrite V. unfold spread. rewrite EX. apply (f_equal (fun X => (X / norm2 basis phi)%R)). unfold norm2. apply rsum_ext. intros s Hs. now rewrite EQ.
Qed.
Print Assumptions C70_pauli_partial.

(** the Hamiltonian of the transverse-field Ising model on two sites *)
Definition tfi : list (C * list (opname * nat)) := [(C1, [(NZ, 0); (NZ, 1)]); (C1, [(NX, 0)]); (C1, [(NX, 1)])]%nat.
Lemma tfi_clean s els : wf_config 2 2 s -> operator_elements 2 2 (map to_opstr (map string_of tfi)) [] s = Ok els -> clean els.
Proof.
  intros Hs E. assert (K : forall m, Cnorm2 m = 1 -> m = C0 \/ / 1000000 < Cabs m) by (intros m H; right; unfold Cabs; rewrite H, sqrt_1; lra).
  destruct Hs as (L & _ & B). destruct s as [|x [|y [|]]]; try discriminate L. pose proof (B x ltac:(now left)). pose proof (B y ltac:(right; now left)).
  destruct x as [|[|x]], y as [|[|y]]; try lia; cbn in E; inversion E; intros s' m Hin; cbn in Hin;
    repeat (destruct Hin as [Hin|Hin]; [inversion Hin; apply K; unfold Cnorm2; cbn; ring|]); destruct Hin.
Qed.
Example C70_example : complete_enumeration 2 2 3 1 /\ (0 < 3 <= 2 ^ Z.of_nat 2)%Z
  /\ Forall (fun cl => NoDup (map snd (snd cl)) /\ Forall (fun oi => (snd oi < 2)%nat /\ fst oi <> NP /\ fst oi <> NM) (snd cl)) tfi.
Proof.
  split; [apply C34_many_states_partial; cbn; lia|]. split; [cbn; lia|].
  repeat constructor; cbn; try lia; try discriminate; intuition discriminate.
Qed.
(** the state with equal amplitudes is no eigenvector of it: <O> = 2, variance 1 *)
Example C70_value : forall psi, (forall s, psi s = C0) ->
  exists o, energy_obs 2 2 3 1 0 psi (map to_opstr (map string_of tfi)) [] 0 = Ok o /\ mean o tt = RtoC 2 /\ var o tt = 1.
Proof.
  intros psi H0. destruct C70_example as (E1 & E2 & E3).
  destruct (C70_pauli_partial 2 3 1 0 psi tfi 0 ltac:(lia) E2 ltac:(lia) E1 E3 tfi_clean) as (o & E & M & V). exists o. split; [exact E|].
  assert (EP : forall s, Cexp (psi s) = C1) by (intros; rewrite H0; apply Cexp_C0).
  set (phi := fun s => Cexp (psi s)) in *.
  assert (D : documented tfi phi [0; 0]%nat = (C1 + C1 + C1)%C /\ documented tfi phi [0; 1]%nat = C1 /\ documented tfi phi [1; 0]%nat = C1 /\ documented tfi phi [1; 1]%nat = (C1 + C1 + C1)%C).
  { unfold documented, tfi. cbn [map fst snd product_op matrix_of]. unfold on_site, msum. cbn [seq map nth pauli_x pauli_z]. rewrite !csum_cons, !csum_nil. unfold phi. rewrite !EP. split; [|split; [|split]]. all: cbn [put firstn skipn app nth pauli_z]; ring. }
  destruct D as (D0 & D1 & D2 & D3).
  assert (AC : all_configs 2 2 = [[0; 0]; [0; 1]; [1; 0]; [1; 1]]%nat) by reflexivity.
  assert (N4 : norm2 (all_configs 2 2) phi = 4).
  { rewrite AC. unfold norm2. cbn [map]. unfold phi. rewrite !EP. unfold Cnorm2. cbn. ring. }
  assert (EX : expectation (all_configs 2 2) (documented tfi) phi = RtoC 2).
  { unfold expectation. rewrite N4, AC. unfold braket. cbn [map]. rewrite D0, D1, D2, D3. unfold phi. rewrite !EP. rewrite !csum_cons, csum_nil. unfold Cdiv. rewrite <- Cinv_RtoC_ by lra. Cunf. apply C_eq; cbn; field. }
  split; [now rewrite M|]. rewrite V. unfold spread. rewrite EX, N4, AC. unfold norm2. cbn [map]. rewrite D0, D1, D2, D3. unfold phi. rewrite !EP. Cunf. cbn. field.
Qed.

(** One spin, O = i S+ - i S-, which is Hermitian, in the state with amplitudes 1 and i: <O> = 1,
    but the local energies have the mean -1; see C12. *)
Definition current : list (C * list (opname * nat)) := [(Ci, [(NP, 0)]); ((- Ci)%C, [(NM, 0)])]%nat.
Definition phase_state (s : config) : C := match s with [0%nat] => C0 | _ => (Ci * RtoC (PI / 2))%C end.
Theorem C70_convention_refuted : exists N terms psi, let basis := all_configs 2 N in let phi := fun s => Cexp (psi s) in
  complete_enumeration N 2 1 1 /\ hermitian_on basis (documented terms)
  /\ (forall s els, wf_config 2 N s -> operator_elements 2 N (map to_opstr (map string_of terms)) [] s = Ok els -> clean els)
  /\ expectation basis (documented terms) phi = RtoC 1
  /\ exists o, energy_obs 2 N 1 1 0 psi (map to_opstr (map string_of terms)) [] 0 = Ok o /\ mean o tt = RtoC (-1).
Proof.
  exists 1%nat, current, phase_state. cbv zeta.
  assert (P0 : Cexp (phase_state [0%nat]) = C1) by (apply Cexp_C0).
  assert (P1 : Cexp (phase_state [1%nat]) = Ci).
  { unfold phase_state, Cexp. cbn. replace (0 * (PI / 2) - 1 * 0) with 0 by ring. replace (0 * 0 + 1 * (PI / 2)) with (PI / 2) by ring. rewrite exp_0, cos_PI2, sin_PI2. unfold Ci. f_equal; ring. }
  assert (N2 : norm2 (all_configs 2 1) (fun s => Cexp (phase_state s)) = 2).
  { unfold norm2. cbn -[phase_state Cexp]. rewrite P0, P1. unfold Cnorm2. cbn. ring. }
  pose proof Ci_mul_Ci as II. assert (CC : Cconj Ci = (- Ci)%C) by (apply C_eq; cbn; ring).
  assert (E1 : complete_enumeration 1 2 1 1) by (apply C34_many_states_partial; cbn; lia).
  assert (CL : forall s els, wf_config 2 1 s -> operator_elements 2 1 (map to_opstr (map string_of current)) [] s = Ok els -> clean els).
  { intros s els (L & _ & B) E. assert (K : forall m, Cnorm2 m = 1 -> m = C0 \/ / 1000000 < Cabs m) by (intros m H; right; unfold Cabs; rewrite H, sqrt_1; lra).
    assert (K0 : forall m, Cnorm2 m = 0 -> m = C0 \/ / 1000000 < Cabs m) by (intros m H; left; now apply Cnorm2_eq0).
    destruct s as [|x [|]]; try discriminate L. pose proof (B x ltac:(now left)). destruct x as [|[|x]]; try lia; cbn in E; inversion E; intros s' m Hin; cbn in Hin;
    repeat (destruct Hin as [Hin|Hin]; [inversion Hin; first [apply K; unfold Cnorm2; cbn; ring | apply K0; unfold Cnorm2; cbn; ring]|]); destruct Hin. }
  split; [exact E1|]. split; [|split; [exact CL|split]].
  - intros phi chi. unfold braket, documented, current, on_site, msum. cbn -[Cconj Cadd Cmul Copp]. rewrite !Cconj_add, !Cconj_mul, !Cconj_add, !Cconj_mul, !Cconj_add, !Cconj_mul, !Cconj_opp, !Cconj_conj, CC, !Cconj_C1, !Cconj_C0. ring.
  - unfold expectation. rewrite N2. unfold Cdiv. rewrite <- Cinv_RtoC_ by lra. transitivity ((C1 + C1) * RtoC (/ 2))%C; [|Cunf; apply C_eq; cbn; field].
    f_equal. unfold braket, documented, current, on_site, msum. cbn -[phase_state Cexp Cconj Cadd Cmul Copp]. rewrite P0, P1, Cconj_C1, CC. ring [II].
  - destruct (C70_expectation_partial 2 1 1 1 0 phase_state (map string_of current) [] (map fst current) 0 ltac:(lia) ltac:(lia) ltac:(cbn; lia) ltac:(lia) E1) as (o & E & M & _).
    + constructor; [|constructor; [|constructor]]; (split; [|discriminate]); (constructor; [|constructor]); [apply (wf_2 1 0 NP)|apply (wf_2 1 0 NM)]; lia.
    + repeat constructor.
    + exact CL.
    + exists o. split; [exact E|]. rewrite M. change (Z.to_nat 2) with 2%nat. unfold expectation. rewrite N2. unfold Cdiv. rewrite <- Cinv_RtoC_ by lra. transitivity (- (C1 + C1) * RtoC (/ 2))%C; [|Cunf; apply C_eq; cbn; field].
      f_equal. unfold braket, apply_strings, current. cbn -[phase_state Cexp Cconj Cadd Cmul Copp]. rewrite P0, P1, Cconj_C1, CC. ring [II].
Qed.
Print Assumptions C70_convention_refuted.

(** ** C71, C72: log-amplitudes that depend on n real parameters *)
Section Evolution.
Variables (lDim : Z) (N : nat) (commSize devices : Z) (lastNorm : R).
Hypothesis Hl : (0 < lDim)%Z.
Hypothesis HN : (0 < N)%nat.
Hypothesis Hc : (0 < commSize <= lDim ^ Z.of_nat N)%Z.
Hypothesis Hd : (0 < devices)%Z.
Hypothesis He : complete_enumeration N lDim commSize devices.
Context {A : Type}.
Variables (n : nat) (lp : (nat -> R) -> config -> C) (theta : nat -> R) (grads : config -> nat -> C).
Hypothesis Hg : log_gradient n lp theta grads.
Variables (sts : list (ostring A)) (args : list A) (vals : list C) (bs : nat).
Hypothesis Hw : Forall (wf_string (Z.to_nat lDim) N) sts.
Hypothesis Hp : Forall2 (prefactor_is args) sts vals.
Hypothesis Hclean : forall s els, wf_config (Z.to_nat lDim) N s -> operator_elements (Z.to_nat lDim) N (map to_opstr sts) args s = Ok els -> clean els.
Let basis := all_configs (Z.to_nat lDim) N.
Let O := apply_strings sts vals.
Hypothesis Hherm : hermitian_on basis O.
(** the local energies and the gradients at theta *)
Variable E : sobs unit.
Hypothesis HE : energy_obs lDim N commSize devices lastNorm (lp theta) (map to_opstr sts) args bs = Ok E.
Let G : sobs nat := gradient_obs lDim N commSize devices lastNorm (lp theta) grads.
Let energy := energy_at basis O lp.

Let phi : wavefun := fun s => Cexp (lp theta s).
Let w := probs lDim N commSize devices lastNorm (lp theta).
Let eL := lmap (fun s (_ : unit) => (O phi s / phi s)%C) (configs lDim N commSize devices).
Let gL := lmap grads (configs lDim N commSize devices).
Lemma fit_ : forall r, (0 <= r < commSize)%Z -> fits (lDim ^ Z.of_nat N) commSize devices r.
Proof. destruct Hc. now apply enumerates_iff. Qed.
Lemma E_form : E = init eL w.
Proof.
  destruct Hc as [H1 H2]. pose proof (energy_obs_ok lDim N commSize devices lastNorm (lp theta) Hl HN H1 Hd fit_ H2 sts args vals bs Hw Hp Hclean) as H. rewrite HE in H. now injection H.
Qed.
Lemma G_form : G = init gL w. Proof. reflexivity. Qed.
Lemma w_ok : weights_ok (flat w). Proof. destruct Hc. now apply probs_ok, fit_. Qed.
Lemma e_shape : shape_eq eL w. Proof. destruct Hc. now apply shape_of, fit_. Qed.
Lemma g_shape : shape_eq gL w. Proof. destruct Hc. now apply shape_of, fit_. Qed.
Lemma gradient_ok : gradient_of n energy theta (slope lDim N lp theta grads sts vals).
Proof. destruct Hc. apply (slope_gradient lDim N commSize devices); try assumption. exact fit_. Qed.

(** The energy has a gradient and the force of stochastic reconfiguration is minus half of it. *)
Theorem C71_force c o : c_imag c = false -> c_prefactor c = C1 ->
  exists dE, gradient_of n energy theta dE /\ forall k, snd (snd (get_tdvp_equation c o E G)) k = RtoC (- (dE k / 2)).
Proof.
  intros H1 H2. exists (slope lDim N lp theta grads sts vals). split; [exact gradient_ok|]. intros k. destruct Hc as [Hc1 Hc2].
  rewrite E_form. rewrite G_form. rewrite (equation_F c w gL eL g_shape e_shape w_ok o k). rewrite H1, H2. apply force_descent; try assumption. exact fit_.
Qed.

(** The update never points uphill, and downhill unless it vanishes, whatever the settings. *)
Theorem C71_descent ej en c fuel Ns o o' u res cut d :
  solves_eigenproblem n ej -> solves_eigenproblem n en -> c_imag c = false -> c_prefactor c = C1 ->
  solve n ej en c fuel Ns o E G = (o', Ok (Some u, res, cut)) ->
  derivable_pt_lim (fun t => energy (moved theta u t)) 0 d ->
  d <= 0 /\ (d = 0 -> forall k, (k < n)%nat -> u k = 0).
Proof.
  intros H1 H2 H3 H4 H5 H6. pose proof (uniqueness_limite _ _ _ _ H6 (gradient_ok u)) as ED. destruct Hc as [Hc1 Hc2].
  assert (AS : exists s, applied_shift (c_shift c) s).
  { destruct (Rlt_le_dec (/ 10 ^ 10) (c_shift c)); [exists (c_shift c); left; auto|exists 0; right; auto]. }
  destruct AS as (sh & AS). rewrite E_form in H5. rewrite G_form in H5.
  destruct (real_update_zero n ej en c w gL eL sh fuel Ns o o' u res cut H1 H2 g_shape e_shape w_ok AS H5 H3) as [Q1 Q2]. rewrite H4 in Q1, Q2.
  assert (EI : Re (inner n (force false C1 w gL eL) (real u)) = - (d / 2)).
  { unfold inner. rewrite Re_csumn, ED.
    replace (- (rsumn n (fun k => slope lDim N lp theta grads sts vals k * u k) / 2)) with ((- (1/2)) * rsumn n (fun k => slope lDim N lp theta grads sts vals k * u k)) by field.
    rewrite <- rsumn_scal. apply rsumn_ext. intros k _. unfold real. pose proof (force_descent lDim N commSize devices lastNorm Hl HN Hc1 Hd fit_ lp theta grads sts vals k) as Q.
    change (force false C1 w gL eL k = RtoC (- (slope lDim N lp theta grads sts vals k / 2))) in Q. rewrite Q. cbn. field. }
  rewrite EI in Q1, Q2. split; [lra|]. intros Hz. apply Q2. lra.
Qed.

(** Real time evolution.  An exact solution of the equation, with any diagonal shift, keeps the energy. *)
Theorem C72_conserved c o (u : nat -> R) d : c_imag c = true -> c_prefactor c = Ci ->
  (forall k, (k < n)%nat -> apply n (fst (snd (get_tdvp_equation c o E G))) (real u) k = snd (snd (get_tdvp_equation c o E G)) k) ->
  derivable_pt_lim (fun t => energy (moved theta u t)) 0 d -> d = 0.
Proof.
  intros H1 H2 H3 H4. pose proof (uniqueness_limite _ _ _ _ H4 (gradient_ok u)) as ED. destruct Hc as [Hc1 Hc2].
  assert (AS : exists s, applied_shift (c_shift c) s).
  { destruct (Rlt_le_dec (/ 10 ^ 10) (c_shift c)); [exists (c_shift c); left; auto|exists 0; right; auto]. }
  destruct AS as (sh & AS). rewrite E_form in H3. rewrite G_form in H3. rewrite ED.
  rewrite (energy_rate lDim N commSize devices lastNorm Hl HN Hc1 Hd fit_ n lp theta grads sts vals sh u).
  rewrite (rsumn_ext n _ (fun _ => 0 * 0)); [rewrite rsumn_scal; ring|]. intros k Hk. specialize (H3 k Hk).
  rewrite (equation_F c w gL eL g_shape e_shape w_ok o k), H1, H2 in H3.
  unfold minus. change (force true Ci (probs lDim N commSize devices lastNorm (lp theta)) (lmap grads (configs lDim N commSize devices)) _ k) with (force true Ci w gL eL k).
  rewrite <- H3. rewrite (apply_ext n (fst (snd (get_tdvp_equation c o (init eL w) (init gL w)))) (fisher true sh w gL) (real u) (real u) k); [|intros l _; rewrite <- H1; apply (equation_S c w gL eL sh g_shape w_ok AS)|reflexivity].
  change (fisher true sh (probs lDim N commSize devices lastNorm (lp theta)) (lmap grads (configs lDim N commSize devices))) with (fisher true sh w gL).
  cbn. ring.
Qed.

(** In general the cosine of the angle between the update and the gradient of the energy is at most
    the residual that [solve] returns. *)
Theorem C72_residual ej en c fuel Ns o o' u res cut dE d :
  solves_eigenproblem n ej -> solves_eigenproblem n en -> c_imag c = true -> c_prefactor c = Ci -> c_exact c = true ->
  solve n ej en c fuel Ns o E G = (o', Ok (Some u, res, cut)) ->
  gradient_of n energy theta dE -> nonzero n (real dE) ->
  derivable_pt_lim (fun t => energy (moved theta u t)) 0 d ->
  exists r, res = Fin r /\ r <= 1 /\ Rabs d <= r * len n (real dE) * len n (real u).
Proof.
  intros H1 H2 H3 H4 H5 H6 H7 H8 H9. pose proof (uniqueness_limite _ _ _ _ H9 (gradient_ok u)) as ED. destruct Hc as [Hc1 Hc2].
  assert (AS : exists s, applied_shift (c_shift c) s).
  { destruct (Rlt_le_dec (/ 10 ^ 10) (c_shift c)); [exists (c_shift c); left; auto|exists 0; right; auto]. }
  destruct AS as (sh & AS). rewrite E_form in H6. rewrite G_form in H6.
  assert (SE : forall k, (k < n)%nat -> dE k = slope lDim N lp theta grads sts vals k) by (intros k Hk; exact (gradient_entry n theta energy _ _ k Hk H7 gradient_ok)).
  assert (FE : forall k, force true Ci w gL eL k = (Ci * RtoC (- (slope lDim N lp theta grads sts vals k / 2)))%C) by (intros k; apply force_real_time; try assumption; exact fit_).
  assert (NZ : nonzero n (force true (c_prefactor c) w gL eL)).
  { destruct H8 as (k & Hk & Hz). exists k. split; [exact Hk|]. rewrite H4, FE, <- SE by exact Hk. intros Q. apply Hz. unfold real. apply (f_equal Im) in Q. cbn in Q. rewrite <- RtoC_0. apply f_equal. lra. }
  destruct (C52_imag n ej en c w gL eL sh fuel Ns o o' u res cut H1 H2 g_shape e_shape w_ok AS H6 H3 NZ (or_introl H5)) as [R1 R2]. rewrite H4 in R1, R2, NZ.
  eexists. split; [exact R1|]. split; [exact R2|]. rewrite ED.
  eapply Rle_trans; [exact (rate_bound lDim N commSize devices lastNorm Hl HN Hc1 Hd fit_ n lp theta grads sts vals sh u)|].
  pose proof (force_length lDim N commSize devices lastNorm Hl HN Hc1 Hd fit_ n lp theta grads sts vals) as FL.
  change (len n (force true Ci w gL eL) = len n (real (slope lDim N lp theta grads sts vals)) / 2) in FL.
  assert (LE : len n (real dE) = 2 * len n (force true Ci w gL eL)).
  { rewrite FL. rewrite (len_ext n (real dE) (real (slope lDim N lp theta grads sts vals))) by (intros k Hk; unfold real; now rewrite SE). field. }
  rewrite LE. unfold rel_error. pose proof (len_nonzero n _ NZ) as LP.
  change (2 * (len n (minus (apply n (fisher true sh w gL) (real u)) (force true Ci w gL eL)) * len n (real u))
    <= len n (minus (apply n (fisher true sh w gL) (real u)) (force true Ci w gL eL)) / len n (force true Ci w gL eL) * (2 * len n (force true Ci w gL eL)) * len n (real u)).
  apply Req_le. field. exact (Rgt_not_eq _ _ LP).
Qed.
End Evolution.
Print Assumptions C71_force.
Print Assumptions C71_descent.
Print Assumptions C72_conserved.
Print Assumptions C72_residual.

(** One spin with the parameters amplitude and phase, log psi(s) = (theta_0 + i theta_1) s, and the
    Hamiltonian Sz: the equation of real time evolution has a solution, precession about the z axis. *)
Definition lp1 (theta : nat -> R) (s : config) : C := ((RtoC (theta 0%nat) + Ci * RtoC (theta 1%nat)) * RtoC (INR (nth 0 s 0%nat)))%C.
Definition g1 (s : config) (k : nat) : C := ((if Nat.eqb k 0 then C1 else Ci) * RtoC (INR (nth 0 s 0%nat)))%C.
Definition z1 : list (ostring unit) := [(None, [Sz 0])].
Lemma lp1_gradient theta : log_gradient 2 lp1 theta g1.
Proof.
  intros s v. unfold lp1, moved, g1. set (x := INR (nth 0 s 0%nat)).
  assert (L : forall a b, derivable_pt_lim (fun t => (a + t * b) * x) 0 (b * x)).
  { intros a b. apply (deriv_ext (fun t => a * x + (b * x) * t)); [intros; ring|]. eapply deriv_value; [apply (derivable_pt_lim_plus (fun _ => a * x) (fun t => (b * x) * t)); [apply derivable_pt_lim_const|apply (derivable_pt_lim_scal (fun t => t)); apply derivable_pt_lim_id]|ring]. }
  split.
  - eapply deriv_value; [eapply (deriv_ext (fun t => (theta 0%nat + t * v 0%nat) * x)); [intros t; cbn; ring|apply L]|]. cbn. ring.
  - eapply deriv_value; [eapply (deriv_ext (fun t => (theta 1%nat + t * v 1%nat) * x)); [intros t; cbn; ring|apply L]|]. cbn. ring.
Qed.
Lemma z1_wf : Forall (wf_string 2 1) z1.
Proof. constructor; [|constructor]. split; [|discriminate]. constructor; [|constructor]. apply (wf_2 1 0 NZ). lia. Qed.
Lemma z1_hermitian : hermitian_on (all_configs 2 1) (apply_strings z1 [C1]).
Proof.
  apply strings_hermitian; [apply NoDup_all_configs|intros v [<-|[]]; reflexivity|]. constructor; [|constructor].
  apply (pauli_self_adjoint 1 [(NZ, 0%nat)]); [lia|]. split; repeat constructor; cbn; try lia; try discriminate.
Qed.
Lemma z1_clean s els : wf_config 2 1 s -> operator_elements 2 1 (map to_opstr z1) [] s = Ok els -> clean els.
Proof.
  intros (L & _ & B) E. assert (K : forall m, Cnorm2 m = 1 -> m = C0 \/ / 1000000 < Cabs m) by (intros m H; right; unfold Cabs; rewrite H, sqrt_1; lra).
  destruct s as [|x [|]]; try discriminate L. pose proof (B x ltac:(now left)). destruct x as [|[|x]]; try lia; cbn in E; inversion E; intros s' m Hin; cbn in Hin;
  repeat (destruct Hin as [Hin|Hin]; [inversion Hin; apply K; unfold Cnorm2; cbn; ring|]); destruct Hin.
Qed.
Lemma z1_complete : complete_enumeration 1 2 2 1. Proof. apply C34_many_states_partial; cbn; lia. Qed.
Example C72_case c o : c_imag c = true -> c_prefactor c = Ci -> c_shift c = 0 -> let theta := fun _ : nat => 0 in
  exists E u, energy_obs 2 1 2 1 0 (lp1 theta) (map to_opstr z1) [] 0 = Ok E
  /\ (forall k, (k < 2)%nat -> apply 2 (fst (snd (get_tdvp_equation c o E (gradient_obs 2 1 2 1 0 (lp1 theta) g1)))) (real u) k
                              = snd (snd (get_tdvp_equation c o E (gradient_obs 2 1 2 1 0 (lp1 theta) g1))) k)
  /\ u 1%nat = -2.
Proof.
  intros H1 H2 H3 theta. eexists. exists (fun k => if Nat.eqb k 1 then -2 else 0).
  pose proof (proj1 (enumerates_iff 1 2 2 1 ltac:(lia) ltac:(lia) ltac:(lia)) z1_complete) as Hfit.
  split; [exact (energy_obs_ok 2 1 2 1 0 (lp1 theta) ltac:(lia) ltac:(lia) ltac:(lia) ltac:(lia) Hfit ltac:(cbn; lia) z1 [] [C1] 0 z1_wf ltac:(repeat constructor) z1_clean)|].
  split; [|reflexivity].
  assert (EP : forall s, Cexp (lp1 theta s) = C1).
  { intros s. rewrite <- Cexp_C0. f_equal. unfold lp1, theta. rewrite RtoC_0. ring. }
  set (phi := fun s => Cexp (lp1 theta s)) in *.
  assert (EB : born_list (all_configs (Z.to_nat 2) 1) phi = [(1/2, [0%nat]); (1/2, [1%nat])]).
  { change (Z.to_nat 2) with 2%nat. unfold born_list, norm2. cbn -[Cexp lp1 Cmul Cadd Cdiv]. unfold phi. rewrite !EP. unfold Cnorm2; cbn. repeat f_equal; field. }
  assert (CV : forall (h1 h2 : config -> C), cov (born_list (all_configs (Z.to_nat 2) 1) phi) h1 h2 = (RtoC (1/2) * (Cconj (h1 [0%nat]) * h2 [0%nat] + Cconj (h1 [1%nat]) * h2 [1%nat])
     - RtoC (1/2) * Cconj (h1 [0%nat] + h1 [1%nat]) * (RtoC (1/2) * (h2 [0%nat] + h2 [1%nat])))%C).
  { intros h1 h2. rewrite EB. unfold cov, expect. cbn [map fst snd]. rewrite !csum_cons, !csum_nil, !Cscal_RtoC, !Cconj_add, !Cconj_mul, !Cconj_RtoC, Cconj_C0. ring. }
  intros k Hk. unfold gradient_obs. cbn [get_tdvp_equation fst snd]. destruct (Rlt_dec (/ 10 ^ 10) (c_shift c)) as [Q|_].
  { exfalso. rewrite H3 in Q. assert (0 < / 10 ^ 10) by (apply Rinv_0_lt_compat, pow_lt; lra). lra. }
  rewrite (cov_of 2 1 2 1 0 (lp1 theta) ltac:(lia) ltac:(lia) ltac:(lia) ltac:(lia) Hfit g1 (fun s (_ : unit) => (apply_strings z1 [C1] phi s / phi s)%C)).
  unfold apply. rewrite (csumn_ext 2 _ (fun l => (makeReal (c_imag c) (cov (born_list (all_configs (Z.to_nat 2) 1) phi) (fun s => g1 s k) (fun s => g1 s l)) * real (fun k => if Nat.eqb k 1 then -2 else 0) l)%C)).
  2: { intros l _. f_equal. f_equal. apply (cov_of 2 1 2 1 0 (lp1 theta) ltac:(lia) ltac:(lia) ltac:(lia) ltac:(lia) Hfit g1 g1). }
  rewrite H1, H2. fold phi. rewrite !makeReal_part. rewrite (csumn_ext 2 _ (fun l => (part true (cov (born_list (all_configs (Z.to_nat 2) 1) phi) (fun s => g1 s k) (fun s => g1 s l)) * real (fun k => if Nat.eqb k 1 then -2 else 0) l)%C)) by (intros; now rewrite makeReal_part).
  unfold csumn. cbn [seq map]. rewrite !csum_cons, csum_nil, !CV.
  assert (O0 : (apply_strings z1 [C1] phi [0%nat] / phi [0%nat])%C = (- C1)%C).
  { unfold apply_strings. cbn [combine map z1 fst snd]. rewrite csum_cons, csum_nil. cbn -[Cexp lp1 Cmul Cadd Cdiv]. unfold phi. rewrite !EP. field. exact C1_neq_C0. }
  assert (O1 : (apply_strings z1 [C1] phi [1%nat] / phi [1%nat])%C = C1).
  { unfold apply_strings. cbn [combine map z1 fst snd]. rewrite csum_cons, csum_nil. cbn -[Cexp lp1 Cmul Cadd Cdiv]. unfold phi. rewrite !EP. field. exact C1_neq_C0. }
  rewrite O0, O1. destruct k as [|[|k]]; [| |lia]; unfold g1, part, real; cbn [Nat.eqb nth INR]; apply C_eq; cbn; field.
Qed.
(** and the hypotheses of C71 and C72 hold for it *)
Example C71_hypotheses theta : log_gradient 2 lp1 theta g1 /\ Forall (wf_string 2 1) z1 /\ Forall2 (prefactor_is []) z1 [C1]
  /\ hermitian_on (all_configs 2 1) (apply_strings z1 [C1]) /\ complete_enumeration 1 2 2 1
  /\ (forall s els, wf_config 2 1 s -> operator_elements 2 1 (map to_opstr z1) [] s = Ok els -> clean els).
Proof.
  split; [apply lp1_gradient|]. split; [exact z1_wf|]. split; [repeat constructor|]. split; [exact z1_hermitian|]. split; [exact z1_complete|exact z1_clean].
Qed.
