(** C90: MinSR updates computed from samples converge to the exact one. *)
From Coq Require Import ZArith List Reals Lia Lra Arith.
From Verif Require Import Base Cplx Povm_Spec Povm_Proofs Mpi_Model Mpi_Spec Mpi_Proofs Stats_Model Stats_Spec Stats_Proofs BranchFree_Model BranchFree_Spec BranchFree_Proofs Tdvp_Model Tdvp_Spec Tdvp_Proofs Tdvp7_Proofs Tdvp_Props Dist Sampler_Model Sampler_Spec Sampler_Proofs Sampler2_Proofs Sampler_Props
  Ergo_Model Ergo_Spec Ergo_Proofs Ergo2_Proofs Ergo3_Proofs Ergo4_Proofs Ergo5_Proofs Ergo6_Proofs Ergo7_Proofs Ergo_Props Wrap_Model Wrap_Spec Direct_Model Direct_Spec Direct_Proofs Direct2_Proofs Direct_Props
  Conv_Model Conv_Spec Conv_Proofs Conv2_Proofs Conv3_Proofs Conv_Props MinConv_Model MinConv_Spec MinConv_Proofs MinConv2_Proofs.
Import ListNotations.
Local Open Scope R_scope.

(** ** Samples drawn directly *)
(** There is an exact update, the shortest solution of the equation for the probabilities of all
    configurations, and the probability that the MinSR update of a sample is further than e from
    it is at most K/numSamples.  K does not depend on the numbers of samples, processes and
    devices.  S may be singular. *)
Theorem C90_direct space kappa draw call P n pinv Eloc G :
  NoDup space -> mass draw = 1 -> nonneg draw -> draws_born space kappa draw call -> born_probabilities space kappa call P -> inverts_kernels n pinv ->
  exists u, sr_update n (ensemble space P) Eloc G u
  /\ forall e, 0 < e -> exists K, 0 <= K /\ forall numSamples devices ranks, (0 < numSamples)%Z -> (0 < devices)%Z -> (1 <= ranks)%nat ->
     prob_above (Direct_Model.sample_gen draw numSamples 1 devices ranks) (fun q => distance n (sampled_minsr n pinv Eloc G q) u) e <= K / IZR numSamples.
Proof.
  intros HN Hm Hnn HB HP HI. pose proof (born_total _ _ _ _ _ HN Hm HB HP) as H1.
  assert (Hpos : forall s, In s space -> 0 < P s). { intros s Hs. destruct HB as [_ HB]. destruct (HB s Hs) as (z & Hz & _). rewrite (HP s z Hs Hz). apply exp_pos. }
  destruct (exact_update_exists n pinv Eloc G HI space P H1 Hpos) as (u & Hu). exists u. split; [exact Hu|]. intros e He.
  destruct (far_below n pinv Eloc G HI space P H1 Hpos u e Hu He) as (B & us & HB0 & HD).
  assert (HS : forall u, 0 <= spread space P u). { intros v. unfold spread. rewrite <- (draw_expected space kappa draw call P _ HN HB HP). rewrite <- (Rmult_0_l (mass draw)), mass_E, <- E_scal. apply E_le; [exact Hnn|]. intros s _. pose proof (pow2_ge_0 (v s - expected space P v)). lra. }
  set (M := rsum (map (spread space P) us)). assert (HM : 0 <= M) by (apply rsum_map_nonneg; intros; apply HS).
  exists (B * M). split; [now apply Rmult_le_pos|]. intros numSamples devices ranks Hn Hd Hc.
  destruct (gen_number numSamples devices ranks Hn Hd Hc) as (N & Hg & HL & Hnum).
  destruct (C84_estimate_partial space kappa draw call P numSamples devices ranks HN Hm HB HP Hn Hd Hc) as (N' & Hg' & _ & HE). assert (N' = N) by (rewrite <- (Hg 0%Z); symmetry; apply Hg'). subst N'. clear Hg'.
  assert (Pn : 0 < IZR numSamples) by (apply IZR_lt; lia). assert (Le : IZR numSamples <= IZR N) by (apply IZR_le; lia).
  replace (B * M / IZR numSamples) with (B * (M / IZR numSamples)) by (field; lra). apply HD.
  - now apply gen_nonneg.
  - intros q. apply (gen_good draw space numSamples devices ranks N q (proj1 HB) Hg ltac:(lia) Hnum).
  - apply Rmult_le_pos; [exact HM|exact (Rlt_le _ _ (Rinv_0_lt_compat _ Pn))].
  - apply Forall_forall. intros v Hv. unfold mse. apply Rle_trans with (spread space P v / IZR N); [right; exact (proj2 (HE v))|]. apply Rle_trans with (M / IZR N).
    + apply Rmult_le_compat_r; [apply Rlt_le, Rinv_0_lt_compat; lra|]. unfold M. clear -Hv HS. induction us as [|w us IH]; [destruct Hv|]. cbn [map]. rewrite rsum_cons.
      assert (0 <= rsum (map (spread space P) us)) by (apply rsum_map_nonneg; intros; apply HS). destruct Hv as [->|Hv]; [lra|]. specialize (IH Hv). pose proof (HS w). lra.
    + apply Rmult_le_compat_l; [exact HM|]. apply Rinv_le_contravar; lra.
Qed.
Print Assumptions C90_direct.

(** ** Samples from Markov chains *)
(** The update converges in probability to the exact one when more samples are requested, for every number of
    processes, devices and chains, every thermalisation and initial states. *)
Definition updates_converge (space : list config) (logPsi : config -> C) (mu : R) (prop : config -> dist config) : Prop :=
  forall lpf n pinv Eloc G, lpf <> 0 -> inverts_kernels n pinv ->
  exists u, sr_update n (ensemble space (chain_probability space logPsi lpf)) Eloc G u
  /\ forall ranks devices chains therm steps multipleOf e delta, (1 <= ranks)%nat -> (1 <= devices)%nat -> (1 <= chains)%nat -> (1 <= steps)%nat -> (0 < multipleOf)%Z -> 0 < e -> 0 < delta ->
     exists N0, forall numSamples states, (N0 <= numSamples)%Z -> chains_in space ranks devices chains states ->
       prob_above (Ergo_Model.sample_mcmc logPsi lpf mu prop numSamples multipleOf (Z.of_nat devices) (Z.of_nat chains) therm steps states)
         (fun q => distance n (sampled_minsr n pinv Eloc G q) u) e <= delta.

Lemma updates_converge_ok space logPsi mu prop : space <> [] -> good_proposal space prop -> (forall s, In s space -> nonneg (prop s)) -> estimates_converge space logPsi mu prop -> updates_converge space logPsi mu prop.
Proof.
  intros Hne HG Hnn HC lpf n pinv Eloc G Hl HI.
  set (Z := rsum (map (Sampler_Spec.born lpf (fun s => Re (logPsi s))) space)). assert (ZP : 0 < Z) by (apply rsum_map_pos; [assumption|]; intros; apply exp_pos).
  set (P := chain_probability space logPsi lpf).
  assert (H1 : rsum (map P space) = 1). { unfold P, chain_probability. fold Z. unfold Rdiv. rewrite rsum_scal_r. fold Z. apply Rinv_r. lra. }
  assert (Hpos : forall s, In s space -> 0 < P s). { intros s _. unfold P, chain_probability. fold Z. apply Rdiv_lt_0_compat; [apply exp_pos|exact ZP]. }
  assert (HE : forall u, expected space P u = average (Sampler_Spec.born lpf (fun s => Re (logPsi s))) u space).
  { intros u. unfold expected, average, P, chain_probability. fold Z. unfold Rdiv. rewrite <- rsum_scal_r. apply rsum_ext. intros. ring. }
  destruct (exact_update_exists n pinv Eloc G HI space P H1 Hpos) as (u & Hu). exists u. split; [exact Hu|].
  intros ranks d k therm steps m e delta Hr Hd Hk Hs Hm He Hdl.
  destruct (far_below n pinv Eloc G HI space P H1 Hpos u e Hu He) as (B & us & HB & HD).
  assert (Hd0 : 0 < delta / (B + 1)) by (apply Rdiv_lt_0_compat; lra). set (x := delta / (B + 1)) in *.
  assert (F : exists N0, forall numSamples states, (N0 <= numSamples)%Z -> chains_in space ranks d k states -> Forall (fun u => mse space P (Ergo_Model.sample_mcmc logPsi lpf mu prop numSamples m (Z.of_nat d) (Z.of_nat k) therm steps states) u <= x) us).
  { clear HD. induction us as [|v us (N1 & IH)]; [exists 0%Z; constructor|]. destruct (HC lpf v ranks d k therm steps m x Hl Hr Hd Hk Hs Hm Hd0) as (N2 & H2). exists (Z.max N1 N2). intros numSamples states HN Hch. constructor; [|apply IH; [lia|exact Hch]].
    unfold mse. rewrite HE. exact (H2 numSamples states ltac:(lia) Hch). }
  destruct F as (N0 & F). exists (Z.max 1 N0). intros numSamples states HN Hch.
  apply Rle_trans with (B * x).
  - apply HD.
    + apply (chain_nonneg space logPsi mu lpf prop HG Hnn numSamples m ranks d k therm steps states Hch).
    + intros q. apply (chain_good space logPsi mu lpf prop HG numSamples m ranks d k therm steps states Hr Hd Hk Hm ltac:(lia) Hch).
    + lra.
    + apply F; [lia|exact Hch].
  - assert (Q1 : (B + 1) * x = delta) by (unfold x; field; lra). lra.
Qed.

Theorem C90_spin_flip_partial n logPsi mu : (1 <= n)%nat -> varies (all_configs 2 n) (fun s => mu * Re (logPsi s)) -> updates_converge (all_configs 2 n) logPsi mu propose_spin_flip.
Proof.
  intros Hn Hv. apply updates_converge_ok; [apply all_configs_nonempty|now apply spin_flip_good|intros; apply strict_nonneg, strict_spin_flip|]. now apply C83_spin_flip_partial.
Qed.
Print Assumptions C90_spin_flip_partial.

Theorem C90_spin_flip_Z2_partial n logPsi mu : (1 <= n)%nat -> varies (all_configs 2 n) (fun s => mu * Re (logPsi s)) \/ Nat.odd n = true -> updates_converge (all_configs 2 n) logPsi mu propose_spin_flip_Z2.
Proof.
  intros Hn Hv. apply updates_converge_ok; [apply all_configs_nonempty|now apply Z2_good|intros; apply strict_nonneg, strict_Z2|]. now apply C83_spin_flip_Z2_partial.
Qed.
Print Assumptions C90_spin_flip_Z2_partial.

(** Zero magnetisation: without any condition on psi (but there must be such configurations). *)
Theorem C90_zeroMag a b prop logPsi mu : (1 <= a * b)%nat -> zm_space a b <> [] -> (forall s, length s = (a * b)%nat -> propose_spin_flip_zeroMag [a; b] s = Ok (prop s)) -> updates_converge (zm_space a b) logPsi mu prop.
Proof.
  intros Hn Hz Hp. apply updates_converge_ok; [exact Hz|exact (zeroMag_good a b prop Hn Hp)| |now apply C83_zeroMag].
  intros s Hs. apply strict_nonneg, (strict_zeroMag a b s). apply Hp. now apply in_zm_configs in Hs as [L _].
Qed.
Print Assumptions C90_zeroMag.

(** ** Cases *)
Lemma pinv1_kernels : inverts_kernels 1 pinv1.
Proof.
  intros N A [O HO]. apply (pinv1_correct N A (fun i => O i 0%nat)). intros i j Hi Hj. rewrite HO by assumption.
  unfold csumn. cbn [seq map]. rewrite csum_cons, csum_nil. ring.
Qed.
Lemma one_equation ens Eloc G z : sr_equation 1 ens Eloc G z <-> (cov ens (fun s => G s 0%nat) (fun s => G s 0%nat) * z 0%nat)%C = (- cov ens (fun s => G s 0%nat) Eloc)%C.
Proof.
  unfold sr_equation, csumn. cbn [seq map]. split; intros H.
  - specialize (H 0%nat ltac:(lia)). rewrite csum_cons, csum_nil in H. rewrite <- H. ring.
  - intros k Hk. assert (k = 0)%nat as -> by lia. rewrite csum_cons, csum_nil, <- H. ring.
Qed.
Lemma one_update ens Eloc G : cov ens (fun s => G s 0%nat) (fun s => G s 0%nat) = C1 -> cov ens (fun s => G s 0%nat) Eloc = C1 -> forall u, sr_update 1 ens Eloc G u <-> u 0%nat = (- C1)%C.
Proof.
  intros E1 E2 u. unfold sr_update. rewrite one_equation, E1, E2. split.
  - intros [H _]. rewrite <- H. ring.
  - intros H. split; [rewrite H; ring|]. intros z Hz. apply one_equation in Hz. rewrite E1, E2 in Hz. right. apply len_ext. intros k Hk. assert (k = 0)%nat as -> by lia. rewrite H, <- Hz. ring.
Qed.
(** One gradient component, one energy, for the uniform superposition of two sites: the exact update is -1. *)
Example C90_case :
  NoDup c84_space /\ mass c84_draw = 1 /\ nonneg c84_draw /\ draws_born c84_space (1 / 2) c84_draw (fun s => Ok (c84_psi s))
  /\ born_probabilities c84_space (1 / 2) (fun s => Ok (c84_psi s)) (fun _ => 1 / 4) /\ inverts_kernels 1 pinv1
  /\ sr_update 1 (ensemble c84_space (fun _ => 1 / 4)) (fun s => RtoC (sign s)) (fun s _ => RtoC (sign s)) (fun _ => (- C1)%C)
  /\ varies (all_configs 2 3) (fun s => 2 * Re (RtoC (INR (ones s))))
  /\ chains_in (all_configs 2 3) 2 1 2 [[[[0; 1; 1]; [0; 0; 0]]]; [[[1; 1; 1]; [0; 1; 0]]]]%nat
  /\ chains_in (zm_space 4 1) 1 1 1 [[[[0; 1; 1; 0]]]]%nat.
Proof.
  destruct C85_case as (A1 & A2 & A3 & A4 & A5 & _ & _ & A8 & A9 & A10). repeat (split; [assumption || exact pinv1_kernels|]).
  assert (HC : cov (ensemble c84_space (fun _ => 1 / 4)) (fun s => RtoC (sign s)) (fun s => RtoC (sign s)) = C1).
  { unfold cov. rewrite !expect_expected. unfold expected, c84_space, sign, parity, ones. cbn. apply C_eq; cbn; lra. }
  split; [now apply one_update|]. auto.
Qed.
(** Two parameters that do the same (S is singular): the exact update shares the change. *)
Example C90_singular : sr_update 2 (ensemble c84_space (fun _ => 1 / 4)) (fun s => RtoC (sign s)) (fun s _ => RtoC (sign s)) (fun _ => RtoC (- (1 / 2))).
Proof.
  assert (HC : cov (ensemble c84_space (fun _ => 1 / 4)) (fun s => RtoC (sign s)) (fun s => RtoC (sign s)) = C1).
  { unfold cov. rewrite !expect_expected. unfold expected, c84_space, sign, parity, ones. cbn. apply C_eq; cbn; lra. }
  split.
  - intros k _. unfold csumn. cbn [seq map]. rewrite !csum_cons, csum_nil, HC. apply C_eq; cbn; lra.
  - intros z Hz. specialize (Hz 0%nat ltac:(lia)). unfold csumn in Hz. cbn [seq map] in Hz. rewrite !csum_cons, csum_nil, HC in Hz. unfold len, rsumn. cbn [seq map]. rewrite !rsum_cons, !rsum_nil. apply sqrt_le_1_alt.
    destruct (z 0%nat) as [a b], (z 1%nat) as [c d]. pose proof (f_equal fst Hz) as H1. cbn in H1. unfold Cnorm2, RtoC. cbn [fst snd].
    pose proof (Rle_0_sqr (a - c)) as Q1. pose proof (Rle_0_sqr b) as Q2. pose proof (Rle_0_sqr d) as Q3. unfold Rsqr in *. assert (c = -1 - a) by lra. subst c. nra.
Qed.

(** ** Finding *)
Lemma distance1 u v : distance 1 u v = sqrt (Cnorm2 (u 0%nat - v 0%nat)%C).
Proof. unfold distance, len, rsumn, minus. cbn [seq map]. rewrite rsum_cons, rsum_nil. f_equal. ring. Qed.
Section AllEven.
  Variables (space : list config) (Q : dist sample).
  Hypothesis Hn : nonneg Q.
  Hypothesis Good : forall q, outcome Q q -> good_sample space q.
  Hypothesis A : forall y, E Q (fun s => (estimate sign s - y) ^ 2) = (1 - y) ^ 2.
  Let Eloc := fun s : config => RtoC (sign s).
  Let G := fun (s : config) (_ : nat) => RtoC (sign s).
  Lemma even_mass : mass Q = 1.
  Proof.
    rewrite mass_E. pose proof (A 1) as A1. pose proof (A (-1)) as A2. pose proof (A 0) as A0.
    assert (K : E Q (fun s => (estimate sign s - 1) ^ 2) + E Q (fun s => (estimate sign s - -1) ^ 2) = 2 * E Q (fun s => (estimate sign s - 0) ^ 2) + 2 * E Q (fun _ => 1)).
    { rewrite <- !E_scal, <- !E_add. apply E_ext. intros. ring. } rewrite A1, A2, A0 in K. lra.
  Qed.
  Lemma even_update w q : In (w, q) Q -> w = 0 \/ sampled_minsr 1 pinv1 Eloc G q 0%nat = C0.
  Proof.
    intros Hin. assert (Gq : good_sample space q) by (apply Good; exact (in_map snd _ _ Hin)).
    assert (Z : w * (estimate sign q - 1) ^ 2 = 0).
    { refine (rsum_nonneg_eq0 (fun wa => fst wa * (estimate sign (snd wa) - 1) ^ 2) Q _ _ (w, q) Hin).
      - intros wa Hw. apply Rmult_le_pos; [|apply pow2_ge_0]. pose proof Hn as F. unfold nonneg in F. rewrite Forall_forall in F. now apply F.
      - pose proof (A 1) as A1. etransitivity; [exact A1|ring]. }
    apply Rmult_integral in Z as [Z|Z]; [now left|right].
    assert (Es : estimate sign q = 1) by (apply Rminus_diag_uniq; destruct (Req_dec (estimate sign q - 1) 0) as [Y|Y]; [exact Y|]; exfalso; apply (pow_nonzero _ 2 Y); exact Z).
    assert (Cq : cov (ens_of q) (fun s => RtoC (sign s)) (fun s => RtoC (sign s)) = C0) by (rewrite (sign_cov space q Gq), Es; apply C_eq; cbn; ring).
    destruct (sampled_update 1 pinv1 Eloc G pinv1_kernels space q Gq) as [_ Hmin]. specialize (Hmin (fun _ => C0)).
    assert (L : len 1 (sampled_minsr 1 pinv1 Eloc G q) <= len 1 (fun _ => C0)).
    { apply Hmin. apply one_equation. unfold G, Eloc. rewrite Cq. ring. }
    set (u := sampled_minsr 1 pinv1 Eloc G q) in *. pose proof (len_sq 1 u) as S1. pose proof (len_sq 1 (fun _ => C0)) as S2. unfold rsumn in S1, S2. cbn [seq map] in S1, S2. rewrite rsum_cons, rsum_nil in S1, S2. rewrite Cnorm2_C0 in S2.
    pose proof (len_ge 1 u). assert (len 1 u = 0) as L0 by nra. rewrite L0 in S1. apply Cnorm2_eq0. lra.
  Qed.
  Lemma even_far u : u 0%nat = (- C1)%C -> prob_above Q (fun q => distance 1 (sampled_minsr 1 pinv1 Eloc G q) u) (1 / 2) = 1.
  Proof.
    intros Hu. transitivity (mass Q); [|exact even_mass]. unfold prob_above, E, mass. apply rsum_ext. intros [w q] Hin. cbn [fst snd]. destruct (even_update w q Hin) as [->|Hq]; [ring|]. match goal with |- context [Rle_dec ?a ?b] => destruct (Rle_dec a b) as [L|L] end; [|ring]. exfalso.
    rewrite distance1, Hu in L. rewrite Hq in L. replace (Cnorm2 (C0 - - C1)%C) with 1 in L by (unfold Cnorm2; cbn; ring). rewrite sqrt_1 in L. lra.
  Qed.
  Lemma even_zero : prob_above Q (fun q => distance 1 (sampled_minsr 1 pinv1 Eloc G q) (fun _ => C0)) 0 = 0.
  Proof.
    unfold prob_above, E. transitivity (rsum (map (fun _ : R * sample => 0) Q)); [|apply rsum_zero]. apply rsum_ext. intros [w q] Hin. cbn [fst snd]. destruct (even_update w q Hin) as [->|Hq]; [ring|]. match goal with |- context [Rle_dec ?a ?b] => destruct (Rle_dec a b) as [L|L] end; [ring|]. exfalso. apply L.
    rewrite distance1, Hq. replace (Cnorm2 (C0 - C0)%C) with 0 by (unfold Cnorm2; cbn; ring). rewrite sqrt_0. lra.
  Qed.
End AllEven.
Local Notation c90_chain N := (Ergo_Model.sample_mcmc (fun _ => C0) (1 / 2) 2 propose_spin_flip N 1 1 1 10 10 (initial_states 1 1 1 4)).
Lemma c90_nonneg N : nonneg (c90_chain N).
Proof.
  destruct (initial_ok 1 1 1 4) as [J1 _].
  exact (chain_nonneg (all_configs 2 4) (fun _ => C0) 2 (1 / 2) propose_spin_flip (spin_flip_good 4 ltac:(lia)) (fun s _ => strict_nonneg _ (strict_spin_flip s)) N 1 1 1 1 10 10 (initial_states 1 1 1 4) J1).
Qed.
Lemma c90_good N q : (0 < N)%Z -> outcome (c90_chain N) q -> good_sample (all_configs 2 4) q.
Proof.
  intros HN. destruct (initial_ok 1 1 1 4) as [J1 _].
  exact (chain_good (all_configs 2 4) (fun _ => C0) 2 (1 / 2) propose_spin_flip (spin_flip_good 4 ltac:(lia)) N 1 1 1 1 10 10 (initial_states 1 1 1 4) ltac:(lia) ltac:(lia) ltac:(lia) ltac:(lia) HN J1 q).
Qed.
Lemma c90_even N y : (0 < N)%Z -> E (c90_chain N) (fun s => (estimate sign s - y) ^ 2) = (1 - y) ^ 2.
Proof.
  intros HN. destruct (C83_alternating 4 ltac:(lia)) as [Ha _]. destruct (initial_ok 1 1 1 4) as [J1 J2].
  exact (Ha (fun _ => C0) (1 / 2) 2 (2 * Re C0) true y 1%nat 1%nat 1%nat 10%nat 10%nat 1%Z N _ ltac:(reflexivity) eq_refl ltac:(lia) ltac:(lia) ltac:(lia) ltac:(lia) HN J1 J2).
Qed.
Lemma c90_cov : cov (ensemble (all_configs 2 4) (chain_probability (all_configs 2 4) (fun _ => C0) (1 / 2))) (fun s => RtoC (sign s)) (fun s => RtoC (sign s)) = C1.
Proof.
  unfold cov. rewrite !expect_expected. unfold expected, chain_probability, sign, parity, ones, Sampler_Spec.born. cbn [Re C0 fst].
  replace (0 / (1 / 2)) with 0 by field. rewrite exp_0. cbn. apply C_eq; cbn; lra.
Qed.
(** Constant |psi|, single flips and the default arguments: the exact update is -1, but the update computed from the
    samples is zero with certainty, for every number of samples. *)
Theorem C90_chain_refuted : exists n logPsi Eloc G pinv, (1 <= n)%nat /\ ~ updates_converge (all_configs 2 n) logPsi 2 propose_spin_flip
  /\ inverts_kernels 1 pinv
  /\ (forall u, sr_update 1 (ensemble (all_configs 2 n) (chain_probability (all_configs 2 n) logPsi (1 / 2))) Eloc G u <-> u 0%nat = (- C1)%C)
  /\ forall numSamples, (0 < numSamples)%Z ->
     let Q := Ergo_Model.sample_mcmc logPsi (1 / 2) 2 propose_spin_flip numSamples 1 1 1 10 10 (initial_states 1 1 1 n) in
     mass Q = 1 /\ prob_above Q (fun q => distance 1 (sampled_minsr 1 pinv Eloc G q) (fun _ => C0)) 0 = 0.
Proof.
  exists 4%nat, (fun _ => C0), (fun s => RtoC (sign s)), (fun s _ => RtoC (sign s)), pinv1.
  pose proof (one_update _ (fun s => RtoC (sign s)) (fun s _ => RtoC (sign s)) c90_cov c90_cov) as U.
  split; [lia|]. split; [|split; [exact pinv1_kernels|split; [exact U|]]].
  - intros H. destruct (H (1 / 2) 1%nat pinv1 (fun s => RtoC (sign s)) (fun s _ => RtoC (sign s)) ltac:(lra) pinv1_kernels) as (u & Hu & HN). apply U in Hu.
    destruct (HN 1%nat 1%nat 1%nat 10%nat 10%nat 1%Z (1 / 2) (1 / 2) ltac:(lia) ltac:(lia) ltac:(lia) ltac:(lia) ltac:(lia) ltac:(lra) ltac:(lra)) as (N0 & HN'). clear HN.
    destruct (initial_ok 1 1 1 4) as [J1 _]. assert (HM : (0 < Z.max 1 N0)%Z) by lia. specialize (HN' (Z.max 1 N0) (initial_states 1 1 1 4) (Z.le_max_r 1 N0) J1).
    change (Z.of_nat 1) with 1%Z in HN'.
    pose proof (even_far (all_configs 2 4) (c90_chain (Z.max 1 N0)) (c90_nonneg _) (fun q => c90_good _ q HM) (fun y => c90_even _ y HM) u Hu) as K.
    unfold sample in K. rewrite K in HN'. lra.
  - intros N HN. cbv zeta. split.
    + pose proof (even_mass (c90_chain N) (fun y => c90_even N y HN)) as K. unfold sample in K. exact K.
    + pose proof (even_zero (all_configs 2 4) (c90_chain N) (c90_nonneg N) (fun q => c90_good N q HN) (fun y => c90_even N y HN)) as K. unfold sample in K. exact K.
Qed.
Print Assumptions C90_chain_refuted.
