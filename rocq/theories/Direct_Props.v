(** C84: expectation values estimated with directly drawn samples, and the statistical error that
    [measure] reports for them. *)
From Coq Require Import String ZArith List Reals Lia Lra Arith.
From Verif Require Import Base Cplx Mpi_Model Mpi_Spec Mpi_Proofs Mpi_Props BranchFree_Model Dist Sampler_Model Sampler_Spec Sampler_Proofs Sampler_Props
  Ergo_Model Ergo_Spec Ergo_Proofs Ergo2_Proofs Ergo3_Proofs Ergo7_Proofs Ergo_Props Measure_Model Measure_Spec Measure_Proofs Measure_Props
  Wrap_Model Wrap_Spec Wrap_Proofs Wrap_Props Direct_Model Direct_Spec Direct_Proofs Direct2_Proofs Direct3_Proofs.
Import ListNotations.
Local Open Scope R_scope.

(** [P] are the probabilities |psi|^(1/kappa) *)
Definition born_probabilities (space : list config) (kappa : R) (call : config -> result C) (P : config -> R) : Prop :=
  forall s z, In s space -> call s = Ok z -> P s = modulus_power (1 / kappa) z.

Lemma draw_expected space kappa draw call P f : NoDup space -> draws_born space kappa draw call -> born_probabilities space kappa call P -> E draw f = expected space P f.
Proof.
  intros HN [HO HB] HP. rewrite (E_space draw space f HN HO). unfold expected. apply rsum_ext. intros s Hs. destruct (HB s Hs) as (z & Hz & ->). now rewrite (HP s z Hs Hz).
Qed.

(** The number of samples N that is reported is at least the requested one; the estimate of any function is
    right on average, and its mean square deviation is the variance of the function over N, on any number
    of processes and devices. *)
Theorem C84_estimate_partial space kappa draw call P numSamples devices c :
  NoDup space -> mass draw = 1 -> draws_born space kappa draw call -> born_probabilities space kappa call P ->
  (0 < numSamples)%Z -> (0 < devices)%Z -> (1 <= c)%nat ->
  exists N, (forall r, snd (gen_counts r (Z.of_nat c) numSamples devices 1) = N) /\ (numSamples <= N)%Z
    /\ forall f, E (sample_gen draw numSamples 1 devices c) (estimate f) = expected space P f
              /\ E (sample_gen draw numSamples 1 devices c) (fun q => (estimate f q - expected space P f) ^ 2) = spread space P f / IZR N.
Proof.
  intros HN Hm HB HP Hn Hd Hc. destruct (gen_number numSamples devices c Hn Hd Hc) as (N & Hg & HL & Hnum). exists N. split; [exact Hg|]. split; [exact HL|]. intros f.
  rewrite (estimate_mean draw Hm numSamples devices c N Hg HL Hn Hnum). unfold spread. rewrite <- !(draw_expected space kappa draw call P _ HN HB HP).
  split; [reflexivity|]. apply (estimate_square draw Hm numSamples devices c N Hg HL Hn Hnum).
Qed.
Print Assumptions C84_estimate_partial.

(** What [measure] reports for an operator with local estimators [O]: the mean is right on average, with mean
    square deviation Var(Re O)/N; the reported variance and the square of the reported error are on average
    (1 - 1/N) Var(O) and (1 - 1/N) Var(O)/N, divided by the number of devices per process. *)
Theorem C84_measure_partial space kappa draw call P numSamples devices c O rank :
  NoDup space -> mass draw = 1 -> draws_born space kappa draw call -> born_probabilities space kappa call P ->
  (0 < numSamples)%Z -> (0 < devices)%Z -> (rank < c)%nat ->
  exists N, (forall r, snd (gen_counts r (Z.of_nat c) numSamples devices 1) = N) /\ (numSamples <= N)%Z
    /\ let q := sample_gen draw numSamples 1 devices c in let report := measure_one O (Z.to_nat N) rank in
       let mean := expected space P (fun s => Re (O s)) in
       (forall s, outcome q s -> complete_report (report s))
       /\ E q (fun s => reported_mean (report s)) = mean
       /\ E q (fun s => (reported_mean (report s) - mean) ^ 2) = spread space P (fun s => Re (O s)) / IZR N
       /\ E q (fun s => reported_variance (report s)) = (1 - 1 / IZR N) * cspread space P O / IZR devices
       /\ E q (fun s => reported_error (report s) ^ 2) = (1 - 1 / IZR N) * cspread space P O / IZR N / IZR devices.
Proof.
  intros HN Hm HB HP Hn Hd Hr. destruct (gen_number numSamples devices c Hn Hd ltac:(lia)) as (N & Hg & HL & Hnum). exists N. split; [exact Hg|]. split; [exact HL|].
  assert (exists d, devices = Z.of_nat (S d)) as (d & ->) by (exists (Z.to_nat devices - 1)%nat; lia). rewrite Nat2Z.id in Hnum.
  cbv zeta. split; [exact (always_reported draw numSamples d c N Hg HL Hn Hnum O rank Hr)|].
  pose proof (reported_moments draw Hm numSamples d c N Hg HL Hn Hnum O rank Hr) as (M1 & M2 & M3 & M4). cbn [Re Im fst snd] in M1, M2, M3, M4.
  unfold cspread, spread. rewrite <- !(draw_expected space kappa draw call P _ HN HB HP). repeat split; assumption.
Qed.
Print Assumptions C84_measure_partial.

(** So with one device per process and a real observable the reported error is the actual one: its square is
    on average 1 - 1/N times the mean square deviation. *)
Theorem C84_error_partial space kappa draw call P numSamples c O rank :
  NoDup space -> mass draw = 1 -> draws_born space kappa draw call -> born_probabilities space kappa call P ->
  (0 < numSamples)%Z -> (rank < c)%nat -> (forall s, In s space -> Im (O s) = 0) ->
  exists N, (forall r, snd (gen_counts r (Z.of_nat c) numSamples 1 1) = N) /\ (numSamples <= N)%Z
    /\ let q := sample_gen draw numSamples 1 1 c in let report := measure_one O (Z.to_nat N) rank in
       E q (fun s => reported_error (report s) ^ 2)
       = (1 - 1 / IZR N) * E q (fun s => (reported_mean (report s) - expected space P (fun s => Re (O s))) ^ 2).
Proof.
  intros HN Hm HB HP Hn Hr HO. destruct (C84_measure_partial space kappa draw call P numSamples 1 c O rank HN Hm HB HP Hn eq_refl Hr) as (N & Hg & HL & _ & _ & M2 & _ & M4).
  exists N. split; [exact Hg|]. split; [exact HL|]. cbv zeta in *. rewrite M2, M4. unfold cspread.
  assert (Z0 : expected space P (fun s => Im (O s)) = 0). { unfold expected. rewrite (rsum_ext _ (fun _ => 0)); [apply rsum_zero|]. intros s Hs. rewrite (HO s Hs). ring. }
  assert (Z1 : spread space P (fun s => Im (O s)) = 0). { unfold spread. rewrite Z0. unfold expected. rewrite (rsum_ext _ (fun _ => 0)); [apply rsum_zero|]. intros s Hs. rewrite (HO s Hs). ring. }
  rewrite Z1. field. apply not_0_IZR. lia.
Qed.
Print Assumptions C84_error_partial.

(** For the wave function: whatever [direct_sample] draws from with a generating network, the estimates are averages
    for the probabilities |psi|^(1/kappa) of what the wave function object evaluates. *)
Theorem C84_wave_function_partial f d b rest avgFun v arg space kappa m prop s0 mu numSamples devices c :
  arg = One (Plain f (Some d)) \/ (arg = Many (Plain f (Some d) :: b :: rest) /\ real_valued space (net_eval b)) ->
  nqs_init arg None avgFun = Ok v -> mcsampler_init v prop s0 mu = Ok m ->
  NoDup space -> mass d = 1 -> draws_born space kappa d (fun s => Ok (f s)) -> (0 < numSamples)%Z -> (0 < devices)%Z -> (1 <= c)%nat ->
  exists draw N, direct_sample m = Ok (Some draw) /\ (numSamples <= N)%Z
    /\ forall P g, born_probabilities space kappa (nqs_call v) P ->
       E (sample_gen draw numSamples 1 devices c) (fun q => (estimate g q - expected space P g) ^ 2) = spread space P g / IZR N.
Proof.
  intros HA HI HM HN Hm HB Hn Hd Hc. destruct (C74_born_partial f d b rest avgFun v arg space kappa m prop s0 mu HA HI HM HB) as [HD HB'].
  destruct (gen_number numSamples devices c Hn Hd Hc) as (N & Hg & HL & Hnum). exists d, N. split; [exact HD|]. split; [exact HL|]. intros P g HP.
  destruct (C84_estimate_partial space kappa d (nqs_call v) P numSamples devices c HN Hm HB' HP Hn Hd Hc) as (N' & Hg' & _ & H). assert (N' = N) by (rewrite <- (Hg 0%Z); symmetry; apply Hg'). subst N'.
  apply H.
Qed.
Print Assumptions C84_wave_function_partial.

(** ** A case: two sites, the uniform superposition, a real observable *)
Definition c84_space : list config := [[0; 0]; [0; 1]; [1; 0]; [1; 1]]%nat.
Definition c84_draw : dist config := uniform c84_space.
Definition c84_psi (s : config) : C := (- ln 2, 0).
Lemma c84_modulus s : modulus_power (1 / (1 / 2)) (c84_psi s) = 1 / 4.
Proof.
  rewrite modulus_exp. unfold c84_psi, Re. cbn [fst]. replace (1 / (1 / 2) * - ln 2) with (- (ln 2 + ln 2)) by field. rewrite exp_Ropp, exp_plus, exp_ln by lra. field.
Qed.
Example C84_case :
  NoDup c84_space /\ mass c84_draw = 1 /\ draws_born c84_space (1 / 2) c84_draw (fun s => Ok (c84_psi s))
  /\ born_probabilities c84_space (1 / 2) (fun s => Ok (c84_psi s)) (fun _ => 1 / 4)
  /\ snd (gen_counts 0 3 10 2 1) = 12%Z
  /\ expected c84_space (fun _ => 1 / 4) sign = 0 /\ spread c84_space (fun _ => 1 / 4) sign = 1.
Proof.
  split; [repeat constructor; cbn; intuition discriminate|]. split; [apply mass_uniform; discriminate|]. split; [split|split; [|split; [reflexivity|]]].
  - intros s Hs. now apply outcome_uniform in Hs.
  - intros s Hs. exists (c84_psi s). split; [reflexivity|]. rewrite c84_modulus. unfold Pr, c84_draw. rewrite E_uniform.
    destruct Hs as [<-|[<-|[<-|[<-|[]]]]]; cbn -[config_eq_dec]; repeat (destruct (config_eq_dec _ _); try congruence); cbn; lra.
  - intros s z _ Hz. injection Hz as <-. now rewrite c84_modulus.
  - unfold spread, expected, sign, parity, ones. cbn. lra.
Qed.

(** ** Findings *)
(** multipleOf = 2: fewer samples are drawn than the weights assume, and everything comes out half as large. *)
Theorem C84_multipleOf_refuted : exists numSamples multipleOf, (0 < numSamples /\ 0 < multipleOf)%Z
  /\ forall draw f, mass draw = 1 -> E (sample_gen draw numSamples multipleOf 1 1) (estimate f) = 1 / 2 * E draw f.
Proof.
  exists 4%Z, 2%Z. split; [lia|]. intros draw f Hm. rewrite (sample_gen_blocks draw 4 2 1 1 4 _ ltac:(reflexivity)).
  change (gen_ns 4 2 1 1) with [2%nat]. change (Z.to_nat 1) with 1%nat.
  transitivity (E (blocks draw [2%nat] 1) (fun configs => gen_weight 4 * tot f configs)); [apply E_ext; intros configs _; apply estimate_blocks|].
  rewrite E_scal, (blocks_mean draw Hm). unfold number, gen_weight. cbn. lra.
Qed.
Print Assumptions C84_multipleOf_refuted.

(** Two devices per process: the error that is reported is too small by the square root of two. *)
Theorem C84_devices_refuted : exists space P draw O numSamples N, NoDup space /\ mass draw = 1 /\ (forall f, E draw f = expected space P f)
  /\ (forall s, In s space -> Im (O s) = 0) /\ (forall r, snd (gen_counts r 1 numSamples 2 1) = N)
  /\ let q := sample_gen draw numSamples 1 2 1 in let report := measure_one O (Z.to_nat N) 0 in
     0 < E q (fun s => reported_error (report s) ^ 2)
     /\ E q (fun s => reported_error (report s) ^ 2) = 1 / 2 * ((1 - 1 / IZR N) * E q (fun s => (reported_mean (report s) - expected space P (fun s => Re (O s))) ^ 2)).
Proof.
  destruct C84_case as (HN & Hm & HB & HP & _ & HE & HS).
  destruct (C84_measure_partial c84_space (1 / 2) c84_draw _ (fun _ => 1 / 4) 4 2 1 (fun s => RtoC (sign s)) 0 HN Hm HB HP ltac:(lia) ltac:(lia) ltac:(lia)) as (N & Hg & _ & _ & _ & M2 & _ & M4).
  assert (N = 4%Z) by (rewrite <- (Hg 0%Z); reflexivity). subst N.
  exists c84_space, (fun _ => 1 / 4), c84_draw, (fun s => RtoC (sign s)), 4%Z, 4%Z. split; [exact HN|]. split; [exact Hm|]. split; [intros f; exact (draw_expected _ _ _ _ _ f HN HB HP)|].
  split; [reflexivity|]. split; [exact Hg|]. cbv zeta. rewrite M2, M4. unfold cspread. cbn [RtoC Re Im fst snd] in *.
  assert (Z1 : spread c84_space (fun _ => 1 / 4) (fun _ => 0) = 0) by (unfold spread, expected; cbn; lra).
  change (fun s : config => sign s) with sign. rewrite Z1, HS. split; lra.
Qed.
Print Assumptions C84_devices_refuted.

(** With Markov chains the reported error says nothing: for the state with equal amplitudes and the default
    arguments the average of the sign is 0, and [measure] reports the mean 1, the variance 0 and the error 0,
    for every number of samples. *)
Lemma chain_shape logPsi lpf mu prop N therm steps n q : (0 < N)%Z ->
  outcome (sample_mcmc logPsi lpf mu prop N 1 1 1 therm steps (initial_states 1 1 1 n)) q ->
  exists xs, xs <> [] /\ q = ([[xs]], mcmc_weights lpf mu [[map logPsi xs]]).
Proof.
  intros HN H. unfold sample_mcmc, initial_states in H. apply outcome_bind in H as (configs & H & Hq). apply outcome_ret in Hq. subst q. cbn [repeat length seq combine] in H.
  apply outcome_mapD in H. inversion H as [|? devs ? tl Hd Htl]; subst. inversion Htl; subst. clear H Htl. cbn [fst snd] in Hd.
  assert (Hd' := Hd). apply outcome_mapD in Hd'. inversion Hd' as [|? xs ? tl' _ Htl']; subst. inversion Htl'; subst. exists xs. split; [|reflexivity].
  change (Z.of_nat 1) with 1%Z in Hd. change (Z.of_nat 0) with 0%Z in Hd. set (per := Z.to_nat (fst (distribute_sampling 0 1 N (Some 1%Z) (Z.lcm 1 1)))) in *.
  assert (Hper : (0 < per)%nat).
  { unfold per, distribute_sampling, samples_per_process, spc. cbn [fst]. change (Z.lcm 1 1) with 1%Z. change (1 * 1)%Z with 1%Z. rewrite Z.mod_1_r, Z.div_1_r. cbn. rewrite !Z.div_1_r. lia. }
  pose proof (job_length [repeat 0%nat n] (fun s => Re (logPsi s)) mu prop therm steps (fun _ => per) 1 1 (0%nat, [[repeat 0%nat n]]) [xs]) as J.
  specialize (J ltac:(split; [reflexivity|repeat constructor]) Hd). cbn [concat] in J. rewrite app_nil_r in J. intros ->. cbn in J. lia.
Qed.

Theorem C84_chain_refuted : exists n logPsi, (1 <= n)%nat
  /\ average (born (1 / 2) (fun s => Re (logPsi s))) sign (all_configs 2 n) = 0
  /\ forall numSamples M, (0 < numSamples)%Z -> (0 < M)%nat ->
     let q := sample_mcmc logPsi (1 / 2) 2 propose_spin_flip numSamples 1 1 1 10 10 (initial_states 1 1 1 n) in
     let report := measure_one (fun s => RtoC (sign s)) M 0 in
     (forall s, outcome q s -> complete_report (report s))
     /\ mass q = 1
     /\ E q (fun s => (reported_mean (report s) - 1) ^ 2) = 0
     /\ E q (fun s => reported_variance (report s)) = 0
     /\ E q (fun s => reported_error (report s) ^ 2) = 0.
Proof.
  exists 4%nat, (fun _ => C0). split; [lia|]. split.
  { unfold average. rewrite (rsum_ext _ (fun s => exp (Re C0 / (1 / 2)) * sign s)) by reflexivity. rewrite rsum_scal, sign_sum by lia. unfold Rdiv. ring. }
  intros N M HN HM q report. destruct (C83_alternating 4 ltac:(lia)) as [Ha _]. destruct (initial_ok 1 1 1 4) as [I1 I2].
  assert (A : forall y, E q (fun s => (estimate sign s - y) ^ 2) = (1 - y) ^ 2).
  { intros y. unfold q. exact (Ha (fun _ => C0) (1 / 2) 2 (2 * Re C0) true y 1%nat 1%nat 1%nat 10%nat 10%nat 1%Z N _ ltac:(reflexivity) eq_refl ltac:(lia) ltac:(lia) ltac:(lia) ltac:(lia) HN I1 I2). }
  assert (mq : mass q = 1).
  { rewrite mass_E. pose proof (A 1) as A1. pose proof (A (-1)) as A2. pose proof (A 0) as A0.
    assert (K : E q (fun s => (estimate sign s - 1) ^ 2) + E q (fun s => (estimate sign s - -1) ^ 2) = 2 * E q (fun s => (estimate sign s - 0) ^ 2) + 2 * E q (fun _ => 1)).
    { rewrite <- !E_scal, <- !E_add. apply E_ext. intros. ring. } rewrite A1, A2, A0 in K. lra. }
  assert (W : forall s, outcome q s -> exists e, report s = Ok [("O"%string, ([estimate sign s], [1 - estimate sign s ^ 2], [e]))] /\ e = standard_error (1 - estimate sign s ^ 2) (Some M) /\ 0 <= 1 - estimate sign s ^ 2).
  { intros s Hs. apply chain_shape in Hs as (xs & Hne & ->); [|exact HN].
    assert (L0 : INR (length xs) <> 0) by (apply not_0_INR; destruct xs; [congruence|discriminate]).
    destruct (C31_importance (1 / 2) 2 (fun _ => C0) [[xs]] ltac:(lra)) as (_ & _ & HW); [cbn; rewrite app_nil_r; exact Hne|]. specialize (HW ltac:(field)). cbn [map] in HW.
    set (w := / INR (length xs)). replace (/ INR (length (concat (concat [[xs]])))) with w in HW by (unfold w; cbn; now rewrite !app_nil_r).
    change [[map (fun _ : config => w) xs]] with (map (map (map (fun _ : config => w))) [[xs]]) in HW. rewrite HW. clear HW.
    assert (Wl : w * INR (length xs) = 1) by (unfold w; now apply Rinv_l).
    destruct (same_shape_const w [[xs]] ltac:(repeat constructor)) as [S1 S2].
    assert (EE : estimate sign ([[xs]], map (map (map (fun _ : config => w))) [[xs]]) = w * rsum (map sign xs)).
    { unfold estimate, pairs. cbn [fst snd map]. replace (concat (concat [[xs]])) with xs by (cbn; now rewrite !app_nil_r). replace (concat (concat [[map (fun _ : config => w) xs]])) with (map (fun _ : config => w) xs) by (cbn; now rewrite !app_nil_r). clearbody w. clear. induction xs as [|x xs IH]; [cbn; ring|]. cbn [map combine]. rewrite !rsum_cons, IH. cbn [fst snd]. ring. }
    assert (L1 : (0 < length (map (map (map (fun _ : config => w))) [[xs]]))%nat) by (cbn [map length]; lia).
    pose proof (measure_one_ok (fun s => RtoC (sign s)) M 0 [[xs]] _ L1 S1 S2 HM) as RR. unfold report. rewrite RR, EE. clear RR. rewrite pairs_const. replace (concat (concat [[xs]])) with xs by (cbn; now rewrite !app_nil_r).
    assert (SQ : w * rsum (map (fun s => (sign s - 0) ^ 2) xs) = 1).
    { rewrite (rsum_ext _ (fun _ => 1)); [|intros s _; unfold sign; destruct (parity s); ring]. rewrite rsum_const, Rmult_1_r. exact Wl. }
    assert (VV : wvar (map (fun s => (w, RtoC (sign s))) xs) = 1 - (w * rsum (map sign xs)) ^ 2).
    { rewrite (wvar_const (fun s => RtoC (sign s)) w C0 xs Wl). cbn [RtoC C0 Re Im fst snd]. rewrite SQ.
      rewrite (rsum_ext (fun s => (0 - 0) ^ 2) (fun _ => 0)) by (intros; ring). rewrite (rsum_ext (fun s => 0 - 0) (fun _ => 0)) by (intros; ring). rewrite !rsum_zero.
      rewrite (rsum_ext (fun s => sign s - 0) sign) by (intros; ring). ring. }
    rewrite VV. exists (standard_error (1 - (w * rsum (map sign xs)) ^ 2) (Some M)). split; [|split; [reflexivity|]].
    - repeat f_equal. unfold rmean. rewrite map_map, <- rsum_scal. reflexivity.
    - rewrite <- VV. unfold wvar. apply rsum_map_nonneg. intros [v z] Hv. apply in_map_iff in Hv as (s & Hv & _). injection Hv as <- <-. cbn [fst snd]. apply Rmult_le_pos; [|apply Cnorm2_ge]. unfold w. apply Rlt_le, Rinv_0_lt_compat.
      pose proof (pos_INR (length xs)). lra. }
  assert (V : E q (fun s => 1 - estimate sign s ^ 2) = 0).
  { transitivity (E q (fun s => 1 + -1 * (estimate sign s - 0) ^ 2)); [apply E_ext; intros; ring|]. rewrite E_add, E_scal, A, E_const, mq. ring. }
  split; [|split; [exact mq|split; [|split]]].
  - intros s Hs. destruct (W s Hs) as (e & -> & _). repeat eexists.
  - transitivity (E q (fun s => (estimate sign s - 1) ^ 2)); [|rewrite A; ring]. apply E_ext. intros s Hs. destruct (W s Hs) as (e & -> & _). reflexivity.
  - rewrite <- V. apply E_ext. intros s Hs. destruct (W s Hs) as (e & -> & _). reflexivity.
  - transitivity (E q (fun s => / INR M * (1 - estimate sign s ^ 2))); [|rewrite E_scal, V; ring]. apply E_ext. intros s Hs. destruct (W s Hs) as (e & -> & -> & P). cbn [reported_error standard_error].
    assert (PM : 0 < INR M) by (apply lt_0_INR; exact HM).
    rewrite <- Rsqr_pow2, Rsqr_sqrt; [unfold Rdiv; ring|]. apply Rmult_le_pos; [exact P|]. exact (Rlt_le _ _ (Rinv_0_lt_compat _ PM)).
Qed.
Print Assumptions C84_chain_refuted.
