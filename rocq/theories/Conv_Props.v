(** C85: the TDVP equation computed from samples and the exact one. *)
From Coq Require Import ZArith List Reals Lia Lra Arith.
From Verif Require Import Base Cplx Mpi_Model Mpi_Spec Mpi_Proofs Stats_Model Stats_Spec Stats_Proofs BranchFree_Model BranchFree_Spec BranchFree_Proofs Tdvp_Model Dist Sampler_Model Sampler_Spec Sampler_Proofs Sampler2_Proofs Sampler_Props
  Ergo_Model Ergo_Spec Ergo_Proofs Ergo2_Proofs Ergo3_Proofs Ergo4_Proofs Ergo5_Proofs Ergo6_Proofs Ergo7_Proofs Ergo_Props Wrap_Model Wrap_Spec Direct_Model Direct_Spec Direct_Proofs Direct2_Proofs Direct_Props
  Conv_Model Conv_Spec Conv_Proofs Conv2_Proofs Conv3_Proofs.
Import ListNotations.
Local Open Scope R_scope.

Lemma born_total space kappa draw call P : NoDup space -> mass draw = 1 -> draws_born space kappa draw call -> born_probabilities space kappa call P -> rsum (map P space) = 1.
Proof.
  intros HN Hm HB HP. rewrite mass_E in Hm. rewrite (draw_expected space kappa draw call P (fun _ => 1) HN HB HP) in Hm. rewrite <- Hm. unfold expected. apply rsum_ext. intros. ring.
Qed.

(** ** Samples drawn directly *)
(** With N samples (N is the number reported, at least the number requested), on any number of processes and
    devices, matrix and vector of the equation and the energy variance are on average 1 - 1/N times the exact ones,
    and the mean energy is the exact one. *)
Theorem C85_direct_mean_partial space kappa draw call P numSamples devices ranks c o Eloc G :
  NoDup space -> mass draw = 1 -> draws_born space kappa draw call -> born_probabilities space kappa call P ->
  (0 < numSamples)%Z -> (0 < devices)%Z -> (1 <= ranks)%nat ->
  exists N, (forall r, snd (gen_counts r (Z.of_nat ranks) numSamples devices 1) = N) /\ (numSamples <= N)%Z
    /\ let Q := Direct_Model.sample_gen draw numSamples 1 devices ranks in let equation := sampled_equation c o Eloc G in let ens := ensemble space P in
       (forall q, outcome Q q -> energy_of (fst (equation q)) <> None)
       /\ (forall i j, cmean Q (fun q => fst (snd (equation q)) i j) = Cscal (1 - 1 / IZR N) (exact_S (c_imag c) (c_shift c) ens G i j))
       /\ (forall i, cmean Q (fun q => snd (snd (equation q)) i) = Cscal (1 - 1 / IZR N) (exact_F (c_imag c) (c_prefactor c) ens Eloc G i))
       /\ cmean Q (fun q => mean_said (energy_of (fst (equation q)))) = expect ens Eloc
       /\ cmean Q (fun q => variance_said (energy_of (fst (equation q)))) = Cscal (1 - 1 / IZR N) (cov ens Eloc Eloc).
Proof.
  intros HN Hm HB HP Hn Hd Hc. pose proof (born_total _ _ _ _ _ HN Hm HB HP) as H1.
  destruct (gen_number numSamples devices ranks Hn Hd Hc) as (N & Hg & HL & Hnum). exists N. split; [exact Hg|]. split; [exact HL|]. cbv zeta.
  destruct (C84_estimate_partial space kappa draw call P numSamples devices ranks HN Hm HB HP Hn Hd Hc) as (N' & Hg' & _ & HE). assert (N' = N) by (rewrite <- (Hg 0%Z); symmetry; apply Hg'). subst N'. clear Hg'.
  set (Q := Direct_Model.sample_gen draw numSamples 1 devices ranks) in *.
  assert (Good : forall q, outcome Q q -> good_sample space q) by (intros q; apply (gen_good draw space numSamples devices ranks N q (proj1 HB) Hg ltac:(lia) Hnum)).
  pose proof (fun f g => cov_cmean space P f g H1 Q (IZR N) (fun u => proj1 (HE u)) (fun u => proj2 (HE u)) Good) as CC.
  split; [intros q Hq; apply (energy_sample c o Eloc G space q (Good q Hq))|]. split; [|split; [|split]].
  - intros i j. etransitivity; [exact (cmean_ext _ _ _ (fun q Hq => S_sample c o Eloc G space q (Good q Hq) i j))|]. unfold exact_S. rewrite cmean_scal, cmean_part, CC, part_scal. unfold Cscal. cbn [fst snd]. f_equal; ring.
  - intros i. etransitivity; [exact (cmean_ext _ _ _ (fun q Hq => F_sample c o Eloc G space q (Good q Hq) i))|]. unfold exact_F. rewrite cmean_part, cmean_mul, CC, <- part_scal. f_equal. unfold Cscal, Cmul. cbn [fst snd]. f_equal; ring.
  - etransitivity; [exact (cmean_ext _ _ _ (fun q Hq => proj1 (proj2 (energy_sample c o Eloc G space q (Good q Hq)))))|]. apply (mean_cmean space P Eloc Q); intros u; apply HE.
  - etransitivity; [exact (cmean_ext _ _ _ (fun q Hq => proj2 (proj2 (energy_sample c o Eloc G space q (Good q Hq)))))|]. apply CC.
Qed.
Print Assumptions C85_direct_mean_partial.

(** Their mean square deviations from the exact ones fall like 1/numSamples, with a constant that depends neither on
    the number of samples nor on the numbers of processes and devices. *)
Theorem C85_direct_rate_partial space kappa draw call P c Eloc G i j :
  NoDup space -> mass draw = 1 -> nonneg draw -> draws_born space kappa draw call -> born_probabilities space kappa call P ->
  exists K, 0 <= K /\ forall o numSamples devices ranks, (0 < numSamples)%Z -> (0 < devices)%Z -> (1 <= ranks)%nat ->
    deviations_below c o Eloc G space P (Direct_Model.sample_gen draw numSamples 1 devices ranks) i j (K / IZR numSamples).
Proof.
  intros HN Hm Hnn HB HP. pose proof (born_total _ _ _ _ _ HN Hm HB HP) as H1. destruct (deviations_bounded space P c Eloc G H1 i j) as (B & us & HB0 & HD).
  assert (HS : forall u, 0 <= spread space P u). { intros u. unfold spread. rewrite <- (draw_expected space kappa draw call P _ HN HB HP). rewrite <- (Rmult_0_l (mass draw)), mass_E, <- E_scal. apply E_le; [exact Hnn|]. intros s _. pose proof (pow2_ge_0 (u s - expected space P u)). lra. }
  set (M := rsum (map (spread space P) us)). assert (HM : 0 <= M) by (apply rsum_map_nonneg; intros; apply HS).
  exists (B * M). split; [now apply Rmult_le_pos|]. intros o numSamples devices ranks Hn Hd Hc.
  destruct (gen_number numSamples devices ranks Hn Hd Hc) as (N & Hg & HL & Hnum).
  destruct (C84_estimate_partial space kappa draw call P numSamples devices ranks HN Hm HB HP Hn Hd Hc) as (N' & Hg' & _ & HE). assert (N' = N) by (rewrite <- (Hg 0%Z); symmetry; apply Hg'). subst N'. clear Hg'.
  assert (Pn : 0 < IZR numSamples) by (apply IZR_lt; lia). assert (Le : IZR numSamples <= IZR N) by (apply IZR_le; lia).
  replace (B * M / IZR numSamples) with (B * (M / IZR numSamples)) by (field; lra). apply HD.
  - now apply gen_nonneg.
  - intros q. apply (gen_good draw space numSamples devices ranks N q (proj1 HB) Hg ltac:(lia) Hnum).
  - apply Rmult_le_pos; [exact HM|exact (Rlt_le _ _ (Rinv_0_lt_compat _ Pn))].
  - apply Forall_forall. intros u Hu. unfold mse. apply Rle_trans with (spread space P u / IZR N); [right; exact (proj2 (HE u))|]. apply Rle_trans with (M / IZR N).
    + apply Rmult_le_compat_r; [apply Rlt_le, Rinv_0_lt_compat; lra|]. unfold M. clear -Hu HS. induction us as [|v us IH]; [destruct Hu|]. cbn [map]. rewrite rsum_cons.
      assert (0 <= rsum (map (spread space P) us)) by (apply rsum_map_nonneg; intros; apply HS). destruct Hu as [->|Hu]; [lra|]. specialize (IH Hu). pose proof (HS v). lra.
    + apply Rmult_le_compat_l; [exact HM|]. apply Rinv_le_contravar; lra.
Qed.
Print Assumptions C85_direct_rate_partial.

(** ** Samples from Markov chains *)
(** the probabilities |psi|^(1/logProbFactor) / Z *)
Definition chain_probability (space : list config) (logPsi : config -> C) (lpf : R) (s : config) : R :=
  Sampler_Spec.born lpf (fun s => Re (logPsi s)) s / rsum (map (Sampler_Spec.born lpf (fun s => Re (logPsi s))) space).

(** The equation and the energies approach the exact ones (in mean square) when more samples are requested, for every
    number of processes, devices and chains, every thermalisation and initial states. *)
Definition equation_converges (space : list config) (logPsi : config -> C) (mu : R) (prop : config -> dist config) : Prop :=
  forall lpf c Eloc G i j ranks devices chains therm steps multipleOf eps, lpf <> 0 -> (1 <= ranks)%nat -> (1 <= devices)%nat -> (1 <= chains)%nat -> (1 <= steps)%nat -> (0 < multipleOf)%Z -> 0 < eps ->
  exists N0, forall o numSamples states, (N0 <= numSamples)%Z -> chains_in space ranks devices chains states ->
    deviations_below c o Eloc G space (chain_probability space logPsi lpf)
      (Ergo_Model.sample_mcmc logPsi lpf mu prop numSamples multipleOf (Z.of_nat devices) (Z.of_nat chains) therm steps states) i j eps.

Lemma equation_converges_ok space logPsi mu prop : space <> [] -> good_proposal space prop -> (forall s, In s space -> nonneg (prop s)) -> estimates_converge space logPsi mu prop -> equation_converges space logPsi mu prop.
Proof.
  intros Hne HG Hnn HC lpf c Eloc G i j ranks d k therm steps m eps Hl Hr Hd Hk Hs Hm He.
  set (Z := rsum (map (Sampler_Spec.born lpf (fun s => Re (logPsi s))) space)). assert (ZP : 0 < Z) by (apply rsum_map_pos; [assumption|]; intros; apply exp_pos).
  set (P := chain_probability space logPsi lpf).
  assert (H1 : rsum (map P space) = 1). { unfold P, chain_probability. fold Z. unfold Rdiv. rewrite rsum_scal_r. fold Z. apply Rinv_r. lra. }
  assert (HE : forall u, expected space P u = average (Sampler_Spec.born lpf (fun s => Re (logPsi s))) u space).
  { intros u. unfold expected, average, P, chain_probability. fold Z. unfold Rdiv. rewrite <- rsum_scal_r. apply rsum_ext. intros. ring. }
  destruct (deviations_bounded space P c Eloc G H1 i j) as (B & us & HB & HD).
  assert (Hd0 : 0 < eps / (B + 1)) by (apply Rdiv_lt_0_compat; lra). set (e := eps / (B + 1)) in *.
  assert (F : exists N0, forall numSamples states, (N0 <= numSamples)%Z -> chains_in space ranks d k states -> Forall (fun u => mse space P (Ergo_Model.sample_mcmc logPsi lpf mu prop numSamples m (Z.of_nat d) (Z.of_nat k) therm steps states) u <= e) us).
  { clear HD. induction us as [|u us (N1 & IH)]; [exists 0%Z; constructor|]. destruct (HC lpf u ranks d k therm steps m e Hl Hr Hd Hk Hs Hm Hd0) as (N2 & H2). exists (Z.max N1 N2). intros numSamples states HN Hch. constructor; [|apply IH; [lia|exact Hch]].
    unfold mse. rewrite HE. exact (H2 numSamples states ltac:(lia) Hch). }
  destruct F as (N0 & F). exists (Z.max 1 N0). intros o numSamples states HN Hch.
  assert (D : deviations_below c o Eloc G space P (Ergo_Model.sample_mcmc logPsi lpf mu prop numSamples m (Z.of_nat d) (Z.of_nat k) therm steps states) i j (B * e)).
  { apply HD.
    - apply (chain_nonneg space logPsi mu lpf prop HG Hnn numSamples m ranks d k therm steps states Hch).
    - intros q. apply (chain_good space logPsi mu lpf prop HG numSamples m ranks d k therm steps states Hr Hd Hk Hm ltac:(lia) Hch).
    - lra.
    - apply F; [lia|exact Hch]. }
  assert (L : B * e <= eps). { assert (Q1 : (B + 1) * e = eps) by (unfold e; field; lra). lra. }
  destruct D as (D1 & D2 & D3 & D4). repeat split; eapply Rle_trans; eassumption.
Qed.

Lemma all_configs_nonempty n : all_configs 2 n <> [].
Proof.
  intros E0. assert (Hz : In (repeat 0%nat n) (all_configs 2 n)); [|rewrite E0 in Hz; destruct Hz]. apply in_all_configs. rewrite repeat_length. split; [reflexivity|]. apply Forall_forall. intros x Hx. apply repeat_spec in Hx. lia.
Qed.

Theorem C85_spin_flip_partial n logPsi mu : (1 <= n)%nat -> varies (all_configs 2 n) (fun s => mu * Re (logPsi s)) -> equation_converges (all_configs 2 n) logPsi mu propose_spin_flip.
Proof.
  intros Hn Hv. apply equation_converges_ok; [apply all_configs_nonempty|now apply spin_flip_good|intros; apply strict_nonneg, strict_spin_flip|]. now apply C83_spin_flip_partial.
Qed.
Print Assumptions C85_spin_flip_partial.

Theorem C85_spin_flip_Z2_partial n logPsi mu : (1 <= n)%nat -> varies (all_configs 2 n) (fun s => mu * Re (logPsi s)) \/ Nat.odd n = true -> equation_converges (all_configs 2 n) logPsi mu propose_spin_flip_Z2.
Proof.
  intros Hn Hv. apply equation_converges_ok; [apply all_configs_nonempty|now apply Z2_good|intros; apply strict_nonneg, strict_Z2|]. now apply C83_spin_flip_Z2_partial.
Qed.
Print Assumptions C85_spin_flip_Z2_partial.

(** Zero magnetisation: without any condition on psi. *)
Theorem C85_zeroMag a b prop logPsi mu : (1 <= a * b)%nat -> (forall s, length s = (a * b)%nat -> propose_spin_flip_zeroMag [a; b] s = Ok (prop s)) -> equation_converges (zm_space a b) logPsi mu prop.
Proof.
  intros Hn Hp. destruct (zm_space a b) as [|z l] eqn:Es.
  - intros lpf c Eloc G i j ranks d k therm steps m eps Hl Hr Hd Hk Hs Hm He. exists 0%Z. intros o N states _ [Hlen F]. exfalso. destruct states as [|devs states]; cbn [length] in Hlen; [lia|]. apply Forall_cons_iff in F as [[Ld F] _]. destruct devs as [|ss devs]; cbn [length] in Ld; [lia|].
    apply Forall_cons_iff in F as [[Lk F] _]. destruct ss as [|s ss]; cbn [length] in Lk; [lia|]. apply Forall_cons_iff in F as [[] _].
  - rewrite <- Es. apply equation_converges_ok.
    + rewrite Es. discriminate.
    + exact (zeroMag_good a b prop Hn Hp).
    + intros s Hs. apply strict_nonneg, (strict_zeroMag a b s). apply Hp. now apply in_zm_configs in Hs as [L _].
    + now apply C83_zeroMag.
Qed.
Print Assumptions C85_zeroMag.

(** ** Cases *)
(** One gradient component, one energy, for the uniform superposition of two sites: S = Var(sign) = 1, F = -1. *)
Definition c85_settings : settings := mk_settings false 2 0 0 false C1 0 false true.
Lemma c85_factor i j : diagonal_factor (c_shift c85_settings) i j = 1.
Proof. unfold diagonal_factor. cbn [c_shift c85_settings]. destruct (Rlt_dec (/ 10 ^ 10) 0) as [H|H]; [|reflexivity]. exfalso. assert (0 < / 10 ^ 10) by (apply Rinv_0_lt_compat, pow_lt; lra). lra. Qed.
Example C85_case :
  NoDup c84_space /\ mass c84_draw = 1 /\ nonneg c84_draw /\ draws_born c84_space (1 / 2) c84_draw (fun s => Ok (c84_psi s))
  /\ born_probabilities c84_space (1 / 2) (fun s => Ok (c84_psi s)) (fun _ => 1 / 4)
  /\ exact_S (c_imag c85_settings) (c_shift c85_settings) (ensemble c84_space (fun _ => 1 / 4)) (fun s _ => RtoC (sign s)) 0 0 = C1
  /\ exact_F (c_imag c85_settings) (c_prefactor c85_settings) (ensemble c84_space (fun _ => 1 / 4)) (fun s => RtoC (sign s)) (fun s _ => RtoC (sign s)) 0 = (-1, 0)
  /\ varies (all_configs 2 3) (fun s => 2 * Re (RtoC (INR (ones s))))
  /\ chains_in (all_configs 2 3) 2 1 2 [[[[0; 1; 1]; [0; 0; 0]]]; [[[1; 1; 1]; [0; 1; 0]]]]%nat
  /\ chains_in (zm_space 4 1) 1 1 1 [[[[0; 1; 1; 0]]]]%nat.
Proof.
  destruct C84_case as (H1 & H2 & H3 & H4 & _). destruct C83_example as (V & I1 & I2 & _).
  assert (HC : cov (ensemble c84_space (fun _ => 1 / 4)) (fun s => RtoC (sign s)) (fun s => RtoC (sign s)) = C1).
  { unfold cov. rewrite !expect_expected. unfold expected, c84_space, sign, parity, ones. cbn. apply C_eq; cbn; lra. }
  split; [exact H1|]. split; [exact H2|]. split; [apply strict_nonneg; unfold c84_draw; apply strict_uniform|]. split; [exact H3|]. split; [exact H4|].
  unfold exact_S, exact_F. rewrite c85_factor, HC. split; [apply C_eq; cbn; lra|]. split; [apply C_eq; cbn; lra|]. split; [exact V|]. split; [exact I1|exact I2].
Qed.

(** ** Findings *)
(** Constant |psi|, single flips and the default arguments: the gradient of the sign of the parity has S = 1, but
    the matrix computed from the samples is zero with certainty, for every number of samples. *)
Lemma sign_cov space q : good_sample space q -> cov (ens_of q) (fun s => RtoC (sign s)) (fun s => RtoC (sign s)) = RtoC (1 - estimate sign q ^ 2).
Proof.
  intros Hq. unfold cov. replace (expect (ens_of q) (fun s => Cconj (RtoC (sign s)) * RtoC (sign s))%C) with C1.
  - rewrite expect_estimate. cbn [RtoC Re Im fst snd]. change (fun s : config => sign s) with sign. assert (Z0 : estimate (fun _ => 0) q = 0). { unfold estimate. rewrite (rsum_ext _ (fun _ => 0)); [apply rsum_zero|]. intros. ring. }
    rewrite Z0. apply C_eq; cbn; ring.
  - symmetry. transitivity (expect (ens_of q) (fun _ => C1)).
    + unfold expect. f_equal. apply map_ext. intros px. f_equal. unfold sign. destruct (parity (snd px)); apply C_eq; cbn; ring.
    + rewrite expect_const, (ens_total space q Hq). apply C_eq; cbn; ring.
Qed.

Theorem C85_chain_refuted : exists n logPsi G, (1 <= n)%nat /\ ~ equation_converges (all_configs 2 n) logPsi 2 propose_spin_flip
  /\ exact_S (c_imag c85_settings) (c_shift c85_settings) (ensemble (all_configs 2 n) (chain_probability (all_configs 2 n) logPsi (1 / 2))) G 0 0 = C1
  /\ forall o Eloc numSamples, (0 < numSamples)%Z ->
     let Q := Ergo_Model.sample_mcmc logPsi (1 / 2) 2 propose_spin_flip numSamples 1 1 1 10 10 (initial_states 1 1 1 n) in
     mass Q = 1 /\ mean_square Q (fun q => fst (snd (sampled_equation c85_settings o Eloc G q)) 0%nat 0%nat) C0 = 0.
Proof.
  exists 4%nat, (fun _ => C0), (fun s _ => RtoC (sign s)).
  set (space := all_configs 2 4). set (G := fun (s : config) (_ : nat) => RtoC (sign s)).
  assert (X : exact_S (c_imag c85_settings) (c_shift c85_settings) (ensemble space (chain_probability space (fun _ => C0) (1 / 2))) G 0 0 = C1).
  { unfold exact_S. rewrite c85_factor. unfold cov. rewrite !expect_expected. unfold expected, chain_probability, G, sign, parity, ones, space, Sampler_Spec.born. cbn [Re C0 fst]. 
    replace (0 / (1 / 2)) with 0 by field. rewrite exp_0. cbn. apply C_eq; cbn; lra. }
  assert (M : forall o Eloc numSamples, (0 < numSamples)%Z ->
     let Q := Ergo_Model.sample_mcmc (fun _ => C0) (1 / 2) 2 propose_spin_flip numSamples 1 1 1 10 10 (initial_states 1 1 1 4) in
     mass Q = 1 /\ mean_square Q (fun q => fst (snd (sampled_equation c85_settings o Eloc G q)) 0%nat 0%nat) C0 = 0).
  { intros o Eloc N HN Q. destruct (C83_alternating 4 ltac:(lia)) as [Ha _]. destruct (initial_ok 1 1 1 4) as [J1 J2].
    assert (A : forall y, E Q (fun s => (estimate sign s - y) ^ 2) = (1 - y) ^ 2).
    { intros y. unfold Q. exact (Ha (fun _ => C0) (1 / 2) 2 (2 * Re C0) true y 1%nat 1%nat 1%nat 10%nat 10%nat 1%Z N _ ltac:(reflexivity) eq_refl ltac:(lia) ltac:(lia) ltac:(lia) ltac:(lia) HN J1 J2). }
    assert (mq : mass Q = 1).
    { rewrite mass_E. pose proof (A 1) as A1. pose proof (A (-1)) as A2. pose proof (A 0) as A0.
      assert (K : E Q (fun s => (estimate sign s - 1) ^ 2) + E Q (fun s => (estimate sign s - -1) ^ 2) = 2 * E Q (fun s => (estimate sign s - 0) ^ 2) + 2 * E Q (fun _ => 1)).
      { rewrite <- !E_scal, <- !E_add. apply E_ext. intros. ring. } rewrite A1, A2, A0 in K. lra. }
    split; [exact mq|].
    assert (Good : forall q, outcome Q q -> good_sample space q).
    { intros q. apply (chain_good space (fun _ => C0) 2 (1 / 2) propose_spin_flip (spin_flip_good 4 ltac:(lia)) N 1 1 1 1 10 10 (initial_states 1 1 1 4)); try lia. exact J1. }
    assert (Hn : nonneg Q).
    { apply (chain_nonneg space (fun _ => C0) 2 (1 / 2) propose_spin_flip (spin_flip_good 4 ltac:(lia)) (fun s _ => strict_nonneg _ (strict_spin_flip s)) N 1 1 1 1 10 10 (initial_states 1 1 1 4)). exact J1. }
    clearbody Q. apply Rle_antisym.
    - apply Rle_trans with (4 * E Q (fun s => (estimate sign s - 1) ^ 2)); [|right; rewrite A; ring]. unfold mean_square. rewrite <- E_scal. apply E_le; [exact Hn|]. intros q Hq. pose proof (Good q Hq) as Gq.
      rewrite (S_sample _ o Eloc G space q Gq). unfold exact_S. rewrite c85_factor. unfold G. rewrite (sign_cov space q Gq).
      assert (Bd : estimate sign q ^ 2 <= 1).
      { pose proof (real_jensen (ens_of q) sign (fun px H => proj1 (ens_nonneg space q Gq px H)) (ens_total space q Gq)) as Jn.
        assert (T : rsum (map (fun px => fst px * sign (snd px) ^ 2) (ens_of q)) = 1). { rewrite <- (ens_total space q Gq). apply rsum_ext. intros px _. unfold sign. destruct (parity (snd px)); ring. }
        rewrite T in Jn. exact Jn. }
      unfold part, Cnorm2, Cscal, RtoC, C0, Re, Im. cbn [c_imag c85_settings fst snd Csub Cadd Copp]. set (x := estimate sign q) in *.
      replace ((1 * (1 - x ^ 2) + - 0) * (1 * (1 - x ^ 2) + - 0) + (1 * 0 + - 0) * (1 * 0 + - 0)) with ((x - 1) ^ 2 * (x + 1) ^ 2) by ring.
      rewrite (Rmult_comm 4). apply Rmult_le_compat_l; [apply pow2_ge_0|]. assert (-1 <= x <= 1) by (split; nra). nra.
    - apply Rle_trans with (E Q (fun _ => 0)); [rewrite (E_const Q 0), mq; lra|]. unfold mean_square. apply E_le; [exact Hn|]. intros; apply Cnorm2_ge. }
  split; [lia|]. split; [|split; [exact X|exact M]].
  intros H. destruct (H (1 / 2) c85_settings (fun _ => C0) G 0%nat 0%nat 1%nat 1%nat 1%nat 10%nat 10%nat 1%Z (1 / 4)) as (N0 & HN); try lra; try lia.
  set (o := mk_tdvp None None None None None None None). destruct (initial_ok 1 1 1 4) as [J1 _]. specialize (HN o (Z.max 1 N0) (initial_states 1 1 1 4) ltac:(lia) J1). destruct HN as (D & _).
  destruct (M o (fun _ => C0) (Z.max 1 N0) ltac:(lia)) as [mq Z]. change (Z.of_nat 1) with 1%Z in D. fold space in D. rewrite X in D.
  set (Q := Ergo_Model.sample_mcmc _ _ _ _ _ _ _ _ _ _ _) in *.
  assert (Hn : nonneg Q).
  { apply (chain_nonneg space (fun _ => C0) 2 (1 / 2) propose_spin_flip (spin_flip_good 4 ltac:(lia)) (fun s _ => strict_nonneg _ (strict_spin_flip s)) (Z.max 1 N0) 1 1 1 1 10 10 (initial_states 1 1 1 4)). exact J1. }
  set (Y := fun q => fst (snd (sampled_equation c85_settings o (fun _ => C0) G q)) 0%nat 0%nat) in *.
  assert (K : mass Q <= 2 * mean_square Q Y C1 + 2 * mean_square Q Y C0).
  { rewrite mass_E. unfold mean_square. rewrite <- !E_scal, <- E_add. apply E_le; [exact Hn|]. intros q _. pose proof (Cnorm2_sub_le (Y q - C0)%C (Y q - C1)%C) as L. replace (Y q - C0 - (Y q - C1))%C with C1 in L by ring. replace (Cnorm2 C1) with 1 in L by (unfold Cnorm2; cbn; ring). lra. }
  assert (D' : mean_square Q Y C1 <= 1 / 4) by exact D. assert (Z' : mean_square Q Y C0 = 0) by exact Z. rewrite mq, Z' in K. lra.
Qed.
Print Assumptions C85_chain_refuted.

(** multipleOf = 2, directly drawn samples: the weights do not add up to one, and a gradient that is the same for all
    configurations (a change of the norm only), for which S = 0, gets S = 1/8. *)
Theorem C85_multipleOf_refuted : exists numSamples multipleOf G, (0 < numSamples /\ 0 < multipleOf)%Z
  /\ (forall space P, rsum (map P space) = 1 -> exact_S false 0 (ensemble space P) G 0 0 = C0)
  /\ forall draw o Eloc q, outcome (Direct_Model.sample_gen draw numSamples multipleOf 1 1) q ->
       fst (snd (sampled_equation c85_settings o Eloc G q)) 0%nat 0%nat = RtoC (1 / 8).
Proof.
  exists 4%Z, 2%Z, (fun _ _ => C1). split; [lia|]. split.
  - intros space P H1. unfold exact_S, cov. rewrite (const_expect space P H1 C1). rewrite (const_expect space P H1 (Cconj C1 * C1)%C). generalize (diagonal_factor 0 0 0). intros x. apply C_eq; cbn; ring.
  - intros draw o Eloc q Hq. destruct (gen_outcome draw 4 2 1 1 4 q ltac:(reflexivity) Hq) as (configs & Hc & ->). change (gen_ns 4 2 1 1) with [2%nat] in Hc. change (Z.to_nat 1) with 1%nat in Hc.
    apply outcome_mapD in Hc. inversion Hc as [|? devs ? tl Hd Htl]; subst. inversion Htl; subst. clear Hc Htl. apply outcome_mapD in Hd. inversion Hd as [|? xs ? tl Hx Htl]; subst. inversion Htl; subst. clear Hd Htl.
    apply outcome_mapD in Hx. inversion Hx as [|? a ? tl _ Ht]; subst. inversion Ht as [|? b ? tl' _ Ht']; subst. inversion Ht'; subst. clear Hx Ht Ht'.
    assert (SQ : sqrt (gen_weight 4) = 1 / 2). { unfold gen_weight. replace (1 / 4) with ((1 / 2) * (1 / 2)) by field. apply sqrt_square. lra. }
    unfold sampled_equation, get_tdvp_equation. cbn [fst snd c_shift c85_settings c_imag]. destruct (Rlt_dec (/ 10 ^ 10) 0) as [H|_]; [exfalso; assert (0 < / 10 ^ 10) by (apply Rinv_0_lt_compat, pow_lt; lra); lra|].
    unfold covar, init, data_prep, dev_mean, lmap2, lmap, map2, gsum. cbn [map combine fst snd so_data csum fold_right]. rewrite SQ. unfold makeReal, gen_weight. cbn. apply C_eq; cbn; field.
Qed.
Print Assumptions C85_multipleOf_refuted.
