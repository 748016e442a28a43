(** From connected proposals to convergence of chains and estimates. *)
From Coq Require Import ZArith List Reals Bool Arith Lia Lra.
From Verif Require Import Base Cplx Mpi_Model Mpi_Spec Mpi_Proofs Mpi_Props Stats_Model BranchFree_Model Dist Sampler_Model Sampler_Spec Sampler_Proofs Ergo_Model Ergo_Spec Ergo_Proofs Ergo2_Proofs Ergo3_Proofs.
Import ListNotations.
Local Open Scope R_scope.

Lemma pos_outcome m t : 0 < Pr m t -> outcome m t.
Proof.
  intros H. destruct (in_dec config_eq_dec t (map snd m)) as [Hi|Hi]; [exact Hi|]. exfalso. unfold Pr in H. rewrite (E_ext m _ (fun _ => 0)) in H; [rewrite E_const in H; lra|].
  intros a Ha. destruct (config_eq_dec a t) as [->|]; [contradiction|reflexivity].
Qed.
Lemma outcome_pos m t : nonneg m -> (forall w, In (w, t) m -> 0 < w) -> outcome m t -> 0 < Pr m t.
Proof.
  unfold Pr, outcome. induction m as [|[w a] m IH]; intros Hn Hw Ho; [destruct Ho|]. apply Forall_cons_iff in Hn as [Hn1 Hn2]. cbn [fst] in Hn1. rewrite E_cons. cbn [map snd] in Ho.
  assert (P : 0 <= E m (fun s => if config_eq_dec s t then 1 else 0)) by (apply E_pos; [assumption|]; intros s _; destruct (config_eq_dec s t); lra).
  destruct (config_eq_dec a t) as [->|Ha]; [specialize (Hw w ltac:(now left)); lra|]. destruct Ho as [Ho|Ho]; [congruence|].
  specialize (IH Hn2 (fun v Hv => Hw v (or_intror Hv)) Ho). lra.
Qed.

(** walks along proposals *)
Inductive walk (prop : config -> dist config) : nat -> config -> config -> Prop :=
| walk_0 s : walk prop 0 s s
| walk_S n s t u : 0 < Pr (prop s) t -> walk prop n t u -> walk prop (S n) s u.

Lemma walk_app prop n m s t u : walk prop n s t -> walk prop m t u -> walk prop (n + m) s u.
Proof. induction 1; intros H1; [exact H1|]. cbn [Nat.add]. econstructor; [eassumption|]. auto. Qed.
Lemma walk_1 prop s t : 0 < Pr (prop s) t -> walk prop 1 s t.
Proof. intros H. econstructor; [exact H|]. constructor. Qed.

Section Main.
Variable space : list config.
Variable net : config -> R.
Variable mu : R.
Variable prop : config -> dist config.
Hypothesis HG : good_proposal space prop.
Hypothesis Hnn : forall s, In s space -> nonneg (prop s).
Notation K := (chainK net mu prop).
Notation Kok := (chain_kernel space net mu prop HG Hnn).

Lemma walk_in n s t : In s space -> walk prop n s t -> In t space.
Proof.
  intros Hs H. induction H as [|n s t u H _ IH]; [assumption|]. apply IH. destruct HG as (_ & Hcl & _). apply (proj2 (Hcl s Hs)). now apply pos_outcome.
Qed.
Lemma walk_reach n s t : In s space -> walk prop n s t -> reach K n s t.
Proof.
  intros Hs H. induction H as [s|n s t u H Hw IH]; [apply reach_0|].
  assert (Ht : In t space) by (destruct HG as (_ & Hcl & _); apply (proj2 (Hcl s Hs)); now apply pos_outcome).
  apply (reach_add space K Kok 1 n s t u); try assumption; [|now apply IH]. apply reach_1. now apply (chain_move space net mu prop Hnn).
Qed.

Lemma loop_aperiodic z : In z space -> reach K 1 z z -> aperiodic_at K z.
Proof.
  intros Hz H. exists O. intros l _. induction l as [|l IH]; [apply reach_0|]. apply (reach_add space K Kok 1 l z z z); assumption.
Qed.
Lemma odd_aperiodic z q : In z space -> reach K 2 z z -> reach K (2 * q + 1) z z -> aperiodic_at K z.
Proof.
  intros Hz H2 Hq. exists (2 * q + 1)%nat. intros l Hl.
  assert (Ev : forall j, reach K (2 * j) z z).
  { induction j as [|j IH]; [apply reach_0|]. replace (2 * S j)%nat with (2 + 2 * j)%nat by lia. apply (reach_add space K Kok 2 (2 * j) z z z); assumption. }
  destruct (Nat.Even_or_Odd l) as [[j ->]|[j ->]]; [apply Ev|]. replace (2 * j + 1)%nat with (2 * q + 1 + 2 * (j - q))%nat by lia.
  apply (reach_add space K Kok _ _ z z z); auto.
Qed.

Hypothesis Hconn : forall s t, In s space -> In t space -> exists n, walk prop n s t.
Definition regular : Prop := varies space (fun s => mu * net s) \/ exists z q, In z space /\ walk prop 2 z z /\ walk prop (2 * q + 1) z z.

Lemma regular_aperiodic : regular -> exists z, In z space /\ aperiodic_at K z.
Proof.
  intros [(s & t & Hs & Ht & Hne)|(z & q & Hz & H2 & Hq)].
  - destruct (Hconn s t Hs Ht) as (n & Hw).
    assert (exists a b, In a space /\ In b space /\ 0 < Pr (prop a) b /\ mu * net a <> mu * net b) as (a & b & Ha & Hb & Hp & Hab).
    { clear Ht. induction Hw as [s|n s u t Hp Hw IH]; [congruence|].
      assert (Hu : In u space) by (destruct HG as (_ & Hcl & _); apply (proj2 (Hcl s Hs)); now apply pos_outcome).
      destruct (Req_dec (mu * net s) (mu * net u)) as [E1|E1]; [|now exists s, u]. apply IH; [assumption|]. congruence. }
    destruct (Rtotal_order (mu * net a) (mu * net b)) as [L|[L|L]]; [|congruence|].
    + exists b. split; [assumption|]. apply loop_aperiodic; [assumption|]. apply reach_1. apply (chain_loop space net mu prop Hnn b a); try assumption.
      destruct HG as (_ & _ & Hsym). now rewrite Hsym.
    + exists a. split; [assumption|]. apply loop_aperiodic; [assumption|]. apply reach_1. now apply (chain_loop space net mu prop Hnn a b).
  - exists z. split; [assumption|]. apply (odd_aperiodic z q); try assumption; now apply walk_reach.
Qed.

Hypothesis Hne : space <> [].
Definition pi (s : config) : R := exp (mu * net s) / rsum (map (fun s => exp (mu * net s)) space).
Lemma Z_pos : 0 < rsum (map (fun s => exp (mu * net s)) space).
Proof. apply rsum_map_pos; [assumption|]. intros; apply exp_pos. Qed.

Lemma pi_average f : rsum (map (fun s => pi s * f s) space) = average (fun s => exp (mu * net s)) f space.
Proof.
  unfold pi, average. unfold Rdiv. rewrite <- rsum_scal_r. apply rsum_ext. intros; ring.
Qed.

Theorem chain_converges f eps : regular -> 0 < eps ->
  exists n0, forall n s, (n0 <= n)%nat -> In s space -> Rabs (E (iterD n K s) f - average (fun s => exp (mu * net s)) f space) <= eps.
Proof.
  intros Hr He. destruct (regular_aperiodic Hr) as (z & Hz & Ha). pose proof Z_pos as HZ.
  destruct (ergodic space K Kok pi) with (z := z) (f := f) (eps := eps) as (n0 & H0); try assumption.
  - intros s _. unfold pi. apply Rlt_le, Rdiv_lt_0_compat; [apply exp_pos|assumption].
  - unfold pi, Rdiv. rewrite rsum_scal_r. apply Rinv_r. lra.
  - intros h. pose proof (chainK_invariant space net mu prop HG h) as H. unfold pi, Rdiv.
    rewrite (rsum_ext _ (fun s => (exp (mu * net s) * E (K s) h) * / rsum (map (fun s0 => exp (mu * net s0)) space))) by (intros; ring).
    rewrite (rsum_ext (fun s => exp (mu * net s) * / _ * h s) (fun s => (exp (mu * net s) * h s) * / rsum (map (fun s0 => exp (mu * net s0)) space))) by (intros; ring).
    rewrite !rsum_scal_r. f_equal. exact H.
  - intros x y Hx Hy. destruct (Hconn x y Hx Hy) as (n & Hw). exists n. now apply walk_reach.
  - exists n0. intros n s Hn Hs. rewrite <- pi_average. now apply H0.
Qed.
End Main.

(** ** estimates *)
Lemma total_per_chain c d k m n : (1 <= c)%nat -> (0 < d)%Z -> (0 < k)%Z -> (0 < m)%Z -> (0 <= n)%Z ->
  IZR n <= IZR (d * Z.lcm k m) * rsum (map (fun r => INR (Z.to_nat (fst (distribute_sampling (Z.of_nat r) (Z.of_nat c) n (Some d) (Z.lcm k m))))) (seq 0 c)).
Proof.
  intros Hc Hd Hk Hm Hn. assert (HL : (0 < Z.lcm k m)%Z).
  { pose proof (Z.lcm_nonneg k m). assert (Z.lcm k m <> 0)%Z by (intros E; apply Z.lcm_eq_0 in E; lia). lia. }
  destruct (C01_distribute_sampling_exact n (Z.of_nat c) d (Z.lcm k m) Hn ltac:(lia) Hd HL) as (glob & G1 & G2 & G3 & _).
  assert (Hg : (n <= glob)%Z) by lia. apply IZR_le in Hg. eapply Rle_trans; [exact Hg|]. rewrite <- G2. unfold over_ranks. rewrite Nat2Z.id.
  assert (P : forall r, (0 <= fst (distribute_sampling r (Z.of_nat c) n (Some d) (Z.lcm k m)))%Z).
  { intros r. unfold distribute_sampling, spc, samples_per_process. cbn [fst]. assert (0 < d * Z.lcm k m)%Z by nia. apply Z.div_pos; [|assumption].
    assert (0 <= n / Z.of_nat c)%Z by (apply Z.div_pos; lia). destruct (r <? n mod Z.of_nat c)%Z; lia. }
  generalize (seq 0 c). intros l. clear -P. induction l as [|r l IH]; [cbn; lra|]. cbn [map]. rewrite rsum_cons. unfold zsum, big in *. cbn [fold_right]. rewrite plus_IZR, (mult_IZR (fst _)).
  rewrite INR_IZR_INZ, Z2Nat.id by apply P. rewrite Rmult_plus_distr_l. apply Rplus_le_compat; [apply Req_le; ring|exact IH].
Qed.

Lemma map_fst_combine {A B} (a : list A) (b : list B) : length a = length b -> map fst (combine a b) = a.
Proof. revert b. induction a as [|x a IH]; intros [|y b] H; cbn in *; try lia; [reflexivity|]. rewrite IH by lia. reflexivity. Qed.
Lemma bounded_on (f : config -> R) l : exists B, 0 <= B /\ forall y, In y l -> Rabs (f y) <= B.
Proof.
  induction l as [|a l (B & H0 & H)]; [exists 0; split; [lra|intros y []]|]. exists (B + Rabs (f a)). pose proof (Rabs_pos (f a)). split; [lra|].
  intros y [<-|Hy]; [lra|specialize (H y Hy); lra].
Qed.

Section Estimates.
Variable space : list config.
Variable logPsi : config -> C.
Variable mu : R.
Variable prop : config -> dist config.
Hypothesis HG : good_proposal space prop.
Hypothesis Hnn : forall s, In s space -> nonneg (prop s).
Hypothesis Hconn : forall s t, In s space -> In t space -> exists n, walk prop n s t.
Hypothesis Hne : space <> [].
Notation net := (fun s => Re (logPsi s)).
Hypothesis Hreg : regular space net mu prop.

Theorem estimates_ok lpf f c d k therm steps m eps : lpf <> 0 -> (1 <= c)%nat -> (1 <= d)%nat -> (1 <= k)%nat -> (1 <= steps)%nat -> (0 < m)%Z -> 0 < eps ->
  exists N0, forall numSamples states, (N0 <= numSamples)%Z -> chains_in space c d k states ->
    E (sample_mcmc logPsi lpf mu prop numSamples m (Z.of_nat d) (Z.of_nat k) therm steps states)
      (fun r => (estimate f r - average (born lpf net) f space) ^ 2) <= eps.
Proof.
  intros Hl Hc Hd Hk Hs Hm He.
  set (A := average (born lpf net) f space). set (w := fun s => exp ((1 / lpf - mu) * Re (logPsi s))). set (g := fun s => w s * (f s - A)).
  assert (Wpos : forall s, 0 < w s) by (intros; apply exp_pos).
  destruct (positive_min w space (fun s _ => Wpos s)) as (wm & Hwm & Hw).
  destruct (bounded_on g space) as (B & HB0 & HB).
  (* the mean of g vanishes *)
  assert (Hmean : average (fun s => exp (mu * net s)) g space = 0).
  { unfold average. assert (N0 : rsum (map (fun s => exp (mu * net s) * g s) space) = 0); [|unfold Rdiv; rewrite N0; ring].
    rewrite (rsum_ext _ (fun s => born lpf net s * f s - A * born lpf net s)).
    - rewrite rsum_sub, rsum_scal. unfold A, average. field. apply Rgt_not_eq. apply rsum_map_pos; [assumption|]. intros; apply exp_pos.
    - intros s _. unfold g. rewrite <- Rmult_assoc. assert (Eb : exp (mu * net s) * w s = born lpf net s) by (unfold w, born; rewrite <- exp_plus; f_equal; field; assumption).
      rewrite Eb. ring. }
  set (eta := eps * wm ^ 2 / (4 * INR c * (B + 1))).
  assert (Hc0 : 1 <= INR c) by (change 1 with (INR 1); now apply le_INR). assert (Hd0 : 1 <= INR d) by (change 1 with (INR 1); now apply le_INR). assert (Hk0 : 1 <= INR k) by (change 1 with (INR 1); now apply le_INR).
  assert (Hw2 : 0 < wm ^ 2) by (apply pow_lt; assumption).
  assert (Heta : 0 < eta) by (unfold eta; apply Rdiv_lt_0_compat; [now apply Rmult_lt_0_compat|apply Rmult_lt_0_compat; lra]).
  destruct (chain_converges space net mu prop HG Hnn Hconn Hne g eta Hreg Heta) as (n0 & Hn0).
  assert (Hmix : forall n s, (n0 <= n)%nat -> In s space -> Rabs (E (iterD n (chainK net mu prop) s) g) <= eta).
  { intros n s Hn Hs'. specialize (Hn0 n s Hn Hs'). rewrite Hmean, Rminus_0_r in Hn0. exact Hn0. }
  set (c1 := B ^ 2 + 2 * B * (INR n0 * B)).
  assert (Hc1 : 0 <= c1) by (unfold c1; pose proof (pos_INR n0); pose proof (Rmult_le_pos _ _ H HB0); nra).
  set (L := (Z.of_nat d * Z.lcm (Z.of_nat k) m)%Z).
  set (T0 := 2 * INR c * c1 / (eps * wm ^ 2) + 1).
  exists (Z.max 0 (up (IZR L * T0))). intros N states HN [Hlen Hst].
  set (per_chain := fun rd : nat * list (list config) => Z.to_nat (fst (distribute_sampling (Z.of_nat (fst rd)) (Z.of_nat (length states)) N (Some (Z.of_nat d)) (Z.lcm (Z.of_nat k) m)))).
  set (l := combine (seq 0 (length states)) states).
  assert (Hll : length l = c) by (unfold l; rewrite combine_length, seq_length; lia).
  assert (Hfit : Forall (fits_job space d k) l).
  { apply Forall_forall. intros [r devs] Hin. apply in_combine_r in Hin. rewrite Forall_forall in Hst. exact (Hst devs Hin). }
  set (T := total per_chain l).
  assert (HT : T0 <= T).
  { assert (HLp : 0 < IZR L). { apply IZR_lt. unfold L. assert (0 < Z.lcm (Z.of_nat k) m)%Z; [|nia]. pose proof (Z.lcm_nonneg (Z.of_nat k) m). assert (Z.lcm (Z.of_nat k) m <> 0)%Z by (intros E1; apply Z.lcm_eq_0 in E1; lia). lia. }
    assert (ET : T = rsum (map (fun r => INR (Z.to_nat (fst (distribute_sampling (Z.of_nat r) (Z.of_nat c) N (Some (Z.of_nat d)) (Z.lcm (Z.of_nat k) m))))) (seq 0 c))).
    { unfold T, total, per_chain, l. rewrite Hlen. rewrite <- (map_map fst (fun r => INR (Z.to_nat (fst (distribute_sampling (Z.of_nat r) (Z.of_nat c) N (Some (Z.of_nat d)) (Z.lcm (Z.of_nat k) m)))))). f_equal. f_equal.
      apply map_fst_combine. now rewrite seq_length. }
    pose proof (total_per_chain c (Z.of_nat d) (Z.of_nat k) m N Hc ltac:(lia) ltac:(lia) Hm ltac:(lia)) as HP. rewrite <- ET in HP. fold L in HP.
    apply Rmult_le_reg_l with (IZR L); [assumption|]. eapply Rle_trans; [|exact HP]. apply Rle_trans with (IZR (up (IZR L * T0))); [pose proof (archimed (IZR L * T0)); lra|]. apply IZR_le. lia. }
  assert (HT1 : 1 <= T). { eapply Rle_trans; [|exact HT]. unfold T0. assert (0 <= 2 * INR c * c1 / (eps * wm ^ 2)); [|lra]. apply Rmult_le_pos; [nra|]. left. apply Rinv_0_lt_compat. now apply Rmult_lt_0_compat. }
  unfold sample_mcmc. cbv zeta. rewrite E_bind.
  change (E (mapD (job net mu prop therm steps per_chain) l) (fun confs => E (ret (confs, mcmc_weights lpf mu (map (map (map logPsi)) confs))) (fun r => (estimate f r - A) ^ 2)) <= eps).
  assert (Hnonneg : nonneg (mapD (job net mu prop therm steps per_chain) l)).
  { apply nonneg_mapD. intros rd Hr. rewrite Forall_forall in Hfit. apply (job_nonneg space net mu prop HG Hnn therm steps per_chain d k). now apply Hfit. }
  set (U := T * (INR d * INR k) * wm). 
  assert (HU : 0 < U) by (unfold U; repeat apply Rmult_lt_0_compat; lra).
  apply Rle_trans with (E (mapD (job net mu prop therm steps per_chain) l) (fun confs => / (U ^ 2) * rsum (map g (concat (concat confs))) ^ 2)).
  - apply E_le; [exact Hnonneg|]. intros confs Ho. rewrite E_ret.
    apply outcome_mapD in Ho.
    assert (Hall : INR (length (concat (concat confs))) = T * (INR d * INR k) /\ Forall (fun s => In s space) (concat (concat confs))).
    { unfold T, total. clear -Hfit Ho HG. induction Ho as [|rd devs l confs Ho _ IH]; [cbn; split; [lra|constructor]|]. apply Forall_cons_iff in Hfit as [F1 F2]. destruct (IH F2) as [I1 I2].
      cbn [concat map]. rewrite concat_app, app_length, plus_INR, rsum_cons, I1. rewrite (job_length space net mu prop therm steps per_chain d k rd devs F1 Ho). split.
      - rewrite !mult_INR. ring.
      - apply Forall_app. split; [|assumption]. apply (job_in space net mu prop HG therm steps per_chain rd devs); [|assumption]. destruct F1 as [_ F1]. eapply Forall_impl; [|exact F1]. intros ss [_ H]; exact H. }
    destruct Hall as [Hcnt Hin]. pose proof (estimate_ratio logPsi lpf mu f confs : estimate f (confs, mcmc_weights lpf mu (map (map (map logPsi)) confs)) = rsum (map (fun s => w s * f s) (concat (concat confs))) / rsum (map w (concat (concat confs)))) as ER. rewrite ER. clear ER.
    set (S := concat (concat confs)) in *. set (W := rsum (map w S)).
    assert (HW : U <= W).
    { unfold W, U. rewrite <- Hcnt. rewrite <- (rsum_const wm S). apply rsum_map_le. intros s Hsin. apply Hw. rewrite Forall_forall in Hin. now apply Hin. }
    assert (EG : rsum (map (fun s => w s * f s) S) / W - A = rsum (map g S) / W).
    { rewrite (rsum_ext g (fun s => w s * f s - A * w s) S) by (intros; unfold g; ring). rewrite rsum_sub, rsum_scal. fold W. field. lra. }
    rewrite EG. unfold Rdiv. rewrite Rpow_mult_distr, Rmult_comm. apply Rmult_le_compat_r; [apply pow2_ge_0|]. rewrite pow_inv. apply Rinv_le_contravar; [now apply pow_lt|]. apply pow_incr. lra.
  - rewrite E_scal. apply Rle_trans with (/ U ^ 2 * (INR (length l) * ((INR d * INR k) ^ 2 * (total per_chain l * (B ^ 2 + 2 * B * (INR n0 * B + total per_chain l * eta)))))).
    + apply Rmult_le_compat_l; [left; apply Rinv_0_lt_compat; now apply pow_lt|]. apply (all_square space net mu prop HG Hnn therm steps Hs per_chain g B eta n0 HB HB0 ltac:(lra) Hmix d k l Hfit).
    + rewrite Hll. fold T.
      replace (/ U ^ 2 * (INR c * ((INR d * INR k) ^ 2 * (T * (B ^ 2 + 2 * B * (INR n0 * B + T * eta)))))) with (INR c * (c1 / T + 2 * B * eta) / wm ^ 2) by (unfold U, c1; field; repeat split; lra).
      apply Rmult_le_reg_r with (wm ^ 2); [assumption|]. unfold Rdiv at 1. rewrite Rmult_assoc, Rinv_l, Rmult_1_r by lra.
      assert (INR c * (c1 / T) <= eps * wm ^ 2 / 2).
      { apply Rmult_le_reg_r with T; [lra|]. replace (INR c * (c1 / T) * T) with (INR c * c1) by (field; lra).
        assert (2 * INR c * c1 / (eps * wm ^ 2) <= T) as HT2 by (unfold T0 in HT; lra).
        apply Rmult_le_compat_l with (r := eps * wm ^ 2 / 2) in HT2; [|apply Rlt_le, Rdiv_lt_0_compat; [now apply Rmult_lt_0_compat|lra]].
        replace (eps * wm ^ 2 / 2 * (2 * INR c * c1 / (eps * wm ^ 2))) with (INR c * c1) in HT2 by (field; split; lra). exact HT2. }
      assert (INR c * (2 * B * eta) <= eps * wm ^ 2 / 2).
      { unfold eta. replace (INR c * (2 * B * (eps * wm ^ 2 / (4 * INR c * (B + 1))))) with (eps * wm ^ 2 / 2 * (B / (B + 1))) by (field; split; lra).
        rewrite <- (Rmult_1_r (eps * wm ^ 2 / 2)) at 2. apply Rmult_le_compat_l; [apply Rlt_le, Rdiv_lt_0_compat; [now apply Rmult_lt_0_compat|lra]|].
        apply Rmult_le_reg_r with (B + 1); [lra|]. unfold Rdiv. rewrite Rmult_assoc, Rinv_l by lra. lra. }
      lra.
Qed.
End Estimates.
