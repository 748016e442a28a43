(** The TDVP equation from direct samples and from Markov chains. *)
From Coq Require Import ZArith List Reals Lia Lra Arith.
From Verif Require Import Base Cplx Mpi_Model Mpi_Spec Mpi_Proofs Mpi_Props Stats_Model Stats_Spec Stats_Proofs Stats_Props BranchFree_Model Tdvp_Model Dist Sampler_Model Sampler_Spec Sampler_Proofs Sampler_Props
  Ergo_Model Ergo_Spec Ergo_Proofs Ergo2_Proofs Ergo3_Proofs Ergo4_Proofs Direct_Model Direct_Spec Direct_Proofs Direct2_Proofs Conv_Model Conv_Spec Conv_Proofs.
Import ListNotations.
Local Open Scope R_scope.

(** ** the equation in terms of covariances *)
Section Equation.
  Variables (c : settings) (o : tdvp) (Eloc : config -> C) (G : config -> nat -> C) (space : list config) (q : sample).
  Hypothesis Hq : good_sample space q.
  Lemma makeReal_part b z : makeReal b z = part b z.
  Proof. destruct b, z as [x y]; unfold makeReal, imagFun, realFun, part, Re, Im; cbn; apply C_eq; cbn; lra. Qed.
  Lemma S_sample k l : fst (snd (sampled_equation c o Eloc G q)) k l = exact_S (c_imag c) (c_shift c) (ens_of q) G k l.
  Proof.
    unfold sampled_equation, get_tdvp_equation, exact_S, diagonal_factor. cbn [fst snd]. destruct (Rlt_dec (/ 10 ^ 10) (c_shift c)) as [H|H].
    - rewrite !makeReal_part, !(covar_sample space q Hq). destruct (Nat.eqb_spec k l) as [->|Hn]; [apply C_eq; cbn [Cscal Cadd Cmul RtoC fst snd]; ring|]. rewrite Cscal_RtoC. apply C_eq; cbn; ring.
    - rewrite !makeReal_part, !(covar_sample space q Hq). rewrite Cscal_RtoC. apply C_eq; cbn; ring.
  Qed.
  Lemma F_sample k : snd (snd (sampled_equation c o Eloc G q)) k = exact_F (c_imag c) (c_prefactor c) (ens_of q) Eloc G k.
  Proof. unfold sampled_equation, get_tdvp_equation, exact_F. cbn [fst snd]. now rewrite makeReal_part, (covar_sample space q Hq). Qed.
  Lemma energy_sample : energy_of (fst (sampled_equation c o Eloc G q)) <> None
    /\ mean_said (energy_of (fst (sampled_equation c o Eloc G q))) = expect (ens_of q) Eloc /\ variance_said (energy_of (fst (sampled_equation c o Eloc G q))) = cov (ens_of q) Eloc Eloc.
  Proof.
    unfold sampled_equation, get_tdvp_equation, energy_of. cbn [fst snd o_eq e_mean e_var option_map mean_said variance_said]. split; [discriminate|]. split; [now rewrite (mean_sample space q Hq)|now rewrite (var_sample space q Hq)].
  Qed.
End Equation.

(** mean square deviations of S_ij, F_i, the mean energy and the energy variance *)
Definition deviations_below (c : settings) (o : tdvp) (Eloc : config -> C) (G : config -> nat -> C) (space : list config) (P : config -> R) (Q : dist sample) (i j : nat) (eps : R) : Prop :=
  let equation := sampled_equation c o Eloc G in let ens := ensemble space P in
  mean_square Q (fun q => fst (snd (equation q)) i j) (exact_S (c_imag c) (c_shift c) ens G i j) <= eps
  /\ mean_square Q (fun q => snd (snd (equation q)) i) (exact_F (c_imag c) (c_prefactor c) ens Eloc G i) <= eps
  /\ mean_square Q (fun q => mean_said (energy_of (fst (equation q)))) (expect ens Eloc) <= eps
  /\ mean_square Q (fun q => variance_said (energy_of (fst (equation q)))) (cov ens Eloc Eloc) <= eps.

(** ** linear maps of the covariances *)
Lemma part_norm b x y : Cnorm2 (part b x - part b y)%C <= Cnorm2 (x - y)%C.
Proof.
  destruct x as [a1 a2], y as [b1 b2], b; unfold part, Cnorm2, Re, Im; cbn [fst snd Csub Cadd Copp].
  - pose proof (Rle_0_sqr (a1 + - b1)) as H. unfold Rsqr in H. nra.
  - pose proof (Rle_0_sqr (a2 + - b2)) as H. unfold Rsqr in H. nra.
Qed.
Lemma Cscal_norm r x y : Cnorm2 (Cscal r x - Cscal r y)%C = r ^ 2 * Cnorm2 (x - y)%C.
Proof. destruct x, y. unfold Cnorm2, Cscal. cbn [fst snd Csub Cadd Copp]. ring. Qed.
Lemma exact_S_dev imag shift e1 e2 G k l :
  Cnorm2 (exact_S imag shift e1 G k l - exact_S imag shift e2 G k l)%C <= diagonal_factor shift k l ^ 2 * Cnorm2 (cov e1 (fun s => G s k) (fun s => G s l) - cov e2 (fun s => G s k) (fun s => G s l))%C.
Proof. unfold exact_S. rewrite Cscal_norm. apply Rmult_le_compat_l; [apply pow2_ge_0|]. apply part_norm. Qed.
Lemma exact_F_dev imag p e1 e2 Eloc G k :
  Cnorm2 (exact_F imag p e1 Eloc G k - exact_F imag p e2 Eloc G k)%C <= Cnorm2 p * Cnorm2 (cov e1 (fun s => G s k) Eloc - cov e2 (fun s => G s k) Eloc)%C.
Proof.
  unfold exact_F. eapply Rle_trans; [apply part_norm|]. rewrite <- (Cnorm2_opp p), <- Cnorm2_mul. apply Req_le. f_equal. ring.
Qed.
Lemma cmean_ext {A} (m : dist A) X Y : (forall a, outcome m a -> X a = Y a) -> cmean m X = cmean m Y.
Proof. intros H. unfold cmean. f_equal; apply E_ext; intros a Ha; now rewrite (H a Ha). Qed.
Lemma cmean_scal {A} (m : dist A) r X : cmean m (fun a => Cscal r (X a)) = Cscal r (cmean m X).
Proof. unfold cmean, Cscal, Re, Im. cbn [fst snd]. now rewrite !E_scal. Qed.
Lemma cmean_part {A} (m : dist A) b X : cmean m (fun a => part b (X a)) = part b (cmean m X).
Proof.
  unfold cmean, part. destruct b; unfold Re, Im; cbn [fst snd]; f_equal; rewrite E_const; ring.
Qed.
Lemma cmean_mul {A} (m : dist A) z X : cmean m (fun a => (z * X a)%C) = (z * cmean m X)%C.
Proof.
  unfold cmean. destruct z as [x y]. unfold Re, Im. cbn [Cmul fst snd]. apply C_eq; cbn [fst snd].
  - transitivity (E m (fun a => x * fst (X a) + - y * snd (X a))); [apply E_ext; intros; ring|]. rewrite E_add. rewrite (E_scal _ x (fun a => fst (X a))), (E_scal _ (- y) (fun a => snd (X a))). unfold Cmul. cbn [fst snd]. ring.
  - transitivity (E m (fun a => x * snd (X a) + y * fst (X a))); [apply E_ext; intros; ring|]. rewrite E_add. rewrite (E_scal _ x (fun a => snd (X a))), (E_scal _ y (fun a => fst (X a))). unfold Cmul. cbn [fst snd]. ring.
Qed.
Lemma part_scal b r z : part b (Cscal r z) = Cscal r (part b z).
Proof. destruct b; unfold part, Cscal, Re, Im; cbn; f_equal; ring. Qed.

(** ** direct samples *)
Lemma gen_outcome draw numSamples m devices c glob q : (forall r, snd (gen_counts r (Z.of_nat c) numSamples devices m) = glob) ->
  outcome (sample_gen draw numSamples m devices c) q ->
  exists configs, outcome (blocks draw (gen_ns numSamples m devices c) (Z.to_nat devices)) configs /\ q = (configs, map (map (map (fun _ => gen_weight glob))) configs).
Proof.
  intros Hg Ho. unfold sample_gen in Ho. apply outcome_bind in Ho as (r & Hr & Ho). apply outcome_ret in Ho. subst q. unfold gen_ns. apply outcome_mapD in Hr. exists (map fst r). unfold blocks.
  revert Hr. generalize (seq 0 c). intros l Hr. split.
  - clear Hg. induction Hr as [|rk x l r H _ IH]; [cbn; now apply outcome_ret|]. cbn [map mapD]. apply outcome_bind in H as (configs & Hc & H). apply outcome_ret in H. subst x. apply outcome_bind. exists configs. split; [exact Hc|].
    apply outcome_bind. exists (map fst r). split; [exact IH|]. now apply outcome_ret.
  - f_equal. induction Hr as [|rk x l r H _ IH]; [reflexivity|]. cbn [map]. rewrite IH. f_equal. apply outcome_bind in H as (configs & Hc & H). apply outcome_ret in H. subst x. cbn [fst snd]. now rewrite Hg.
Qed.
Lemma shape_map {A B} (f : A -> B) (x : layout A) : shape_eq x (map (map (map f)) x).
Proof.
  unfold shape_eq. induction x as [|r x IH]; constructor; [|exact IH]. induction r as [|a r IHr]; constructor; [now rewrite map_length|exact IHr].
Qed.
Lemma gen_good draw space numSamples devices c glob q : (forall s, outcome draw s -> In s space) -> (forall r, snd (gen_counts r (Z.of_nat c) numSamples devices 1) = glob) -> (0 < glob)%Z ->
  number (gen_ns numSamples 1 devices c) (Z.to_nat devices) = IZR glob ->
  outcome (sample_gen draw numSamples 1 devices c) q -> good_sample space q.
Proof.
  intros Hin Hg Hp Hnum Ho. destruct (gen_outcome _ _ _ _ _ _ _ Hg Ho) as (configs & Hc & ->). pose proof (blocks_length draw _ _ _ Hc) as HL. pose proof (blocks_in draw _ _ _ (fun s => In s space) Hin Hc) as HI.
  unfold good_sample. cbn [fst snd]. split; [apply shape_map|]. split; [split|].
  - intros p H. change (map (map (map (fun _ : config => gen_weight glob))) configs) with (lmap (fun _ : config => gen_weight glob) configs) in H. rewrite flat_lmap in H. apply in_map_iff in H as (s & <- & _). unfold gen_weight. apply Rlt_le, Rdiv_lt_0_compat; [lra|apply IZR_lt; lia].
  - change (map (map (map (fun _ : config => gen_weight glob))) configs) with (lmap (fun _ : config => gen_weight glob) configs). rewrite flat_lmap, rsum_const. unfold flat. rewrite HL, Hnum. unfold gen_weight. field. apply not_0_IZR. lia.
  - unfold flat. clear -HI. induction HI as [|devs configs H _ IH]; [constructor|]. cbn [concat]. rewrite concat_app. apply Forall_app. split; [|exact IH]. clear IH. induction H; [constructor|]. cbn [concat]. apply Forall_app. now split.
Qed.
Lemma gen_nonneg draw numSamples m devices c : nonneg draw -> nonneg (sample_gen draw numSamples m devices c).
Proof.
  intros H. unfold sample_gen. apply nonneg_bind; [|intros; apply nonneg_ret]. apply nonneg_mapD. intros r _. apply nonneg_bind; [|intros; apply nonneg_ret]. apply nonneg_mapD. intros. apply nonneg_mapD. intros. exact H.
Qed.

(** ** Markov chains *)
Section Chains.
  Variables (space : list config) (logPsi : config -> C) (mu lpf : R) (prop : config -> dist config).
  Hypothesis HG : good_proposal space prop.
  Hypothesis Hnn : forall s, In s space -> nonneg (prop s).
  Let net s := Re (logPsi s).
  Let w s := exp ((1 / lpf - mu) * Re (logPsi s)).
  Variables (numSamples m : Z) (c d k therm steps : nat) (states : list (list (list config))).
  Hypotheses (Hc : (1 <= c)%nat) (Hd : (1 <= d)%nat) (Hk : (1 <= k)%nat) (Hm : (0 < m)%Z) (HN : (0 < numSamples)%Z) (Hch : chains_in space c d k states).
  Let per_chain := fun rd : nat * list (list config) => Z.to_nat (fst (distribute_sampling (Z.of_nat (fst rd)) (Z.of_nat (length states)) numSamples (Some (Z.of_nat d)) (Z.lcm (Z.of_nat k) m))).
  Let l := combine (seq 0 (length states)) states.
  Let Q := sample_mcmc logPsi lpf mu prop numSamples m (Z.of_nat d) (Z.of_nat k) therm steps states.
  Lemma chain_fit : Forall (fits_job space d k) l.
  Proof. destruct Hch as [Hlen Hst]. apply Forall_forall. intros [r devs] Hin. apply in_combine_r in Hin. rewrite Forall_forall in Hst. exact (Hst devs Hin). Qed.
  Lemma chain_total : 0 < total per_chain l.
  Proof.
    destruct Hch as [Hlen Hst].
    assert (ET : total per_chain l = rsum (map (fun r => INR (Z.to_nat (fst (distribute_sampling (Z.of_nat r) (Z.of_nat c) numSamples (Some (Z.of_nat d)) (Z.lcm (Z.of_nat k) m))))) (seq 0 c))).
    { unfold total, per_chain, l. rewrite Hlen. rewrite <- (map_map fst (fun r => INR (Z.to_nat (fst (distribute_sampling (Z.of_nat r) (Z.of_nat c) numSamples (Some (Z.of_nat d)) (Z.lcm (Z.of_nat k) m)))))). f_equal. f_equal.
      apply map_fst_combine. now rewrite seq_length. }
    pose proof (total_per_chain c (Z.of_nat d) (Z.of_nat k) m numSamples Hc ltac:(lia) ltac:(lia) Hm ltac:(lia)) as HP. rewrite <- ET in HP. apply IZR_lt in HN.
    assert (HL : 0 <= IZR (Z.of_nat d * Z.lcm (Z.of_nat k) m)) by (apply IZR_le; pose proof (Z.lcm_nonneg (Z.of_nat k) m); nia).
    assert (0 <= total per_chain l) by (unfold total; apply rsum_map_nonneg; intros; apply pos_INR). nra.
  Qed.
  Lemma chain_outcome q : outcome Q q -> exists confs, q = (confs, mcmc_weights lpf mu (map (map (map logPsi)) confs)) /\ Forall (fun s => In s space) (flat confs) /\ flat confs <> [].
  Proof.
    intros Ho. change (outcome (confs <~ mapD (job net mu prop therm steps per_chain) l;; ret (confs, mcmc_weights lpf mu (map (map (map logPsi)) confs))) q) in Ho.
    apply outcome_bind in Ho as (confs & Ho & Hr). apply outcome_ret in Hr. subst q. exists confs. split; [reflexivity|]. apply outcome_mapD in Ho. pose proof chain_fit as Hfit. pose proof chain_total as HT.
    assert (Hall : INR (length (flat confs)) = total per_chain l * (INR d * INR k) /\ Forall (fun s => In s space) (flat confs)).
    { unfold total, flat. clear -Hfit Ho HG. induction Ho as [|rd devs l confs Ho _ IH]; [cbn; split; [lra|constructor]|]. apply Forall_cons_iff in Hfit as [F1 F2]. destruct (IH F2) as [I1 I2].
      cbn [concat map]. rewrite concat_app, app_length, plus_INR, rsum_cons, I1. rewrite (job_length space net mu prop therm steps per_chain d k rd devs F1 Ho). split.
      - rewrite !mult_INR. ring.
      - apply Forall_app. split; [|assumption]. apply (job_in space net mu prop HG therm steps per_chain rd devs); [|assumption]. destruct F1 as [_ F1]. eapply Forall_impl; [|exact F1]. intros ss [_ H]; exact H. }
    destruct Hall as [Hcnt Hin]. split; [exact Hin|]. intros E0. rewrite E0 in Hcnt. cbn [length INR] in Hcnt.
    assert (H1 : 0 < INR d) by (apply lt_0_INR; lia). assert (H2 : 0 < INR k) by (apply lt_0_INR; lia). pose proof (Rmult_lt_0_compat _ _ HT (Rmult_lt_0_compat _ _ H1 H2)). lra.
  Qed.
  Lemma chain_good q : outcome Q q -> good_sample space q.
  Proof.
    intros Ho. destruct (chain_outcome q Ho) as (confs & -> & Hin & Hne). set (Z := rsum (map w (flat confs))).
    assert (ZP : 0 < Z) by (apply rsum_map_pos; [assumption|]; intros; apply exp_pos).
    assert (W : mcmc_weights lpf mu (map (map (map logPsi)) confs) = map (map (map (fun s => w s / Z))) confs).
    { assert (Ep : map (map (map (fun l => exp ((1 / lpf - mu) * Re l)))) (map (map (map logPsi)) confs) = map (map (map w)) confs).
      { rewrite map_map. apply map_ext. intros l0. rewrite map_map. apply map_ext. intros l'. rewrite map_map. reflexivity. }
      unfold mcmc_weights. cbv zeta. rewrite Ep. rewrite <- !concat_map. change (concat (concat confs)) with (flat confs). fold Z. rewrite map_map. apply map_ext. intros l0. rewrite map_map. apply map_ext. intros l'. now rewrite map_map. }
    rewrite W. unfold good_sample. cbn [fst snd]. split; [apply shape_map|]. change (map (map (map (fun s => w s / Z))) confs) with (lmap (fun s => w s / Z) confs). rewrite flat_lmap. split; [split|exact Hin].
    - intros p H. apply in_map_iff in H as (s & <- & _). apply Rlt_le, Rdiv_lt_0_compat; [apply exp_pos|exact ZP].
    - unfold Rdiv. rewrite rsum_scal_r. fold Z. apply Rinv_r. lra.
  Qed.
  Lemma chain_nonneg : nonneg Q.
  Proof.
    change (nonneg (confs <~ mapD (job net mu prop therm steps per_chain) l;; ret (confs, mcmc_weights lpf mu (map (map (map logPsi)) confs)))). apply nonneg_bind; [|intros; apply nonneg_ret].
    apply nonneg_mapD. intros rd Hr. pose proof chain_fit as Hfit. rewrite Forall_forall in Hfit. apply (job_nonneg space net mu prop HG Hnn therm steps per_chain d k). now apply Hfit.
  Qed.
End Chains.
