(** Mean square error of estimates from all chains. *)
From Coq Require Import ZArith List Reals Bool Arith Lia Lra.
From Verif Require Import Base Cplx Mpi_Model Mpi_Spec Mpi_Proofs Mpi_Props Stats_Model BranchFree_Model Dist Sampler_Model Sampler_Spec Sampler_Proofs Ergo_Model Ergo_Spec Ergo_Proofs Ergo2_Proofs.
Import ListNotations.
Local Open Scope R_scope.

Lemma rsum_map_concat {A} (g : A -> R) ll : rsum (map g (concat ll)) = rsum (map (fun l => rsum (map g l)) ll).
Proof. induction ll as [|l ll IH]; [reflexivity|]. cbn [concat map]. now rewrite map_app, rsum_app, rsum_cons, IH. Qed.

Lemma estimate_ratio logPsi lpf mu (f : config -> R) confs :
  let w s := exp ((1 / lpf - mu) * Re (logPsi s)) in
  estimate f (confs, mcmc_weights lpf mu (map (map (map logPsi)) confs))
  = rsum (map (fun s => w s * f s) (concat (concat confs))) / rsum (map w (concat (concat confs))).
Proof.
  intros w. set (Z := rsum (map w (concat (concat confs)))).
  assert (W : mcmc_weights lpf mu (map (map (map logPsi)) confs) = map (map (map (fun s => w s / Z))) confs).
  { assert (Ep : map (map (map (fun l => exp ((1 / lpf - mu) * Re l)))) (map (map (map logPsi)) confs) = map (map (map w)) confs).
    { rewrite map_map. apply map_ext. intros l. rewrite map_map. apply map_ext. intros l'. rewrite map_map. reflexivity. }
    unfold mcmc_weights. cbv zeta. rewrite Ep. rewrite <- !concat_map. fold Z. rewrite map_map. apply map_ext. intros l. rewrite map_map. apply map_ext. intros l'. now rewrite map_map. }
  rewrite W. unfold estimate, pairs. cbn [fst snd]. rewrite <- !concat_map. generalize (concat (concat confs)) as l. clearbody Z. clear W. intros l.
  unfold Rdiv. rewrite <- rsum_scal_r. induction l as [|s l IH]; [reflexivity|]. cbn [map combine]. rewrite !rsum_cons, IH. cbn [fst snd]. ring.
Qed.

(** ** all devices of all ranks *)
Section All.
Variable space : list config.
Variable net : config -> R.
Variable mu : R.
Variable prop : config -> dist config.
Hypothesis HG : good_proposal space prop.
Hypothesis Hnn : forall s, In s space -> nonneg (prop s).
Variables (therm steps : nat).
Hypothesis Hst : (1 <= steps)%nat.
Variable per_chain : nat * list (list config) -> nat.

Definition job (rd : nat * list (list config)) : dist (list (list config)) :=
  mapD (fun ss => r <~ sample_device net mu prop (per_chain rd) therm steps ss;; ret (snd r)) (snd rd).

Definition fits_job (d k : nat) (rd : nat * list (list config)) : Prop :=
  length (snd rd) = d /\ Forall (fun ss => length ss = k /\ Forall (fun s => In s space) ss) (snd rd).

Lemma job_mass d k rd : fits_job d k rd -> mass (job rd) = 1.
Proof.
  intros [_ F]. unfold job. apply mass_mapD. eapply Forall_impl; [|exact F]. intros ss [_ Fs]. rewrite mass_bind; [|intros; apply mass_ret]. now apply (device_mass space).
Qed.
Lemma job_nonneg d k rd : fits_job d k rd -> nonneg (job rd).
Proof.
  intros [_ F]. unfold job. apply nonneg_mapD. rewrite Forall_forall in F. intros ss Hs. apply nonneg_bind; [|intros; apply nonneg_ret]. apply (device_nonneg space); try assumption. now apply F.
Qed.

(** how many configurations are returned *)
Lemma job_length d k rd devs : fits_job d k rd -> outcome (job rd) devs -> length (concat devs) = (per_chain rd * (d * k))%nat.
Proof.
  clear Hst. intros [Hd F] H. unfold job in H. apply outcome_mapD in H. subst d.
  assert (G : Forall2 (fun ss r => length r = (per_chain rd * length ss)%nat) (snd rd) devs).
  { clear F. induction H as [|ss r l l' H _ IH]; constructor; [|exact IH]. apply outcome_bind in H as ((c & confs) & H & Hr). apply outcome_ret in Hr. subst r. cbn [snd].
    unfold sample_device, get_samples in H. apply outcome_bind in H as (c1 & H1 & H). apply outcome_bind in H as (q & Hq & H). apply outcome_ret in H.
    assert (confs = concat (snd q)) by congruence. subst confs.
    apply sweep_outcome in H1 as (Hc & L & _); [|reflexivity]. apply collect_outcome in Hq as (_ & _ & _ & _ & L1 & L2); [|assumption]. cbn [mc_init c_states] in L.
    rewrite <- L, <- L1. clear -L2. induction L2 as [|x l Hx _ IH]; [reflexivity|]. cbn [concat length]. rewrite app_length, IH, Hx. lia. }
  clear H. induction G as [|ss r l l' H _ IH]; [cbn; lia|]. apply Forall_cons_iff in F as [[F1 _] F2]. cbn [concat length]. rewrite app_length, H, F1, IH by assumption. lia.
Qed.
Lemma job_in rd devs : Forall (Forall (fun s => In s space)) (snd rd) -> outcome (job rd) devs -> Forall (fun s => In s space) (concat devs).
Proof.
  intros F H. unfold job in H. apply outcome_mapD in H. revert F. induction H as [|ss r l l' H _ IH]; intros F; [constructor|]. apply Forall_cons_iff in F as [F1 F2]. cbn [concat]. apply Forall_app. split; [|now apply IH].
  apply outcome_bind in H as ((c & confs) & H & Hr). apply outcome_ret in Hr. subst r. cbn [snd].
  assert (HP : forall s s', In s space -> outcome (prop s) s' -> In s' space) by (intros s s' Hs Ho; destruct HG as (_ & Hcl & _); exact (proj2 (Hcl s Hs) s' Ho)).
  unfold sample_device, get_samples in H. apply outcome_bind in H as (c1 & H1 & H). apply outcome_bind in H as (q & Hq & H). apply outcome_ret in H.
  assert (confs = concat (snd q)) by congruence. subst confs.
  pose proof (sweep_states net mu prop (fun s => In s space) _ (mc_init net mu ss) c1 eq_refl HP F1 H1) as Hs1.
  apply sweep_outcome in H1 as (Hc & _); [|reflexivity].
  pose proof (collect_states net mu prop (fun s => In s space) _ _ c1 q Hc HP Hs1 Hq) as Hs2. clear -Hs2. induction Hs2; [constructor|]. cbn [concat]. apply Forall_app. now split.
Qed.

Variable g : config -> R.
Variables (B eps : R) (n0 : nat).
Hypothesis HB : forall s, In s space -> Rabs (g s) <= B.
Hypothesis HB0 : 0 <= B.
Hypothesis Heps : 0 <= eps.
Hypothesis Hmix : forall n s, (n0 <= n)%nat -> In s space -> Rabs (E (iterD n (chainK net mu prop) s) g) <= eps.

Lemma job_square d k rd : fits_job d k rd ->
  E (job rd) (fun devs => rsum (map g (concat devs)) ^ 2)
  <= (INR d * INR k) ^ 2 * (INR (per_chain rd) * (B ^ 2 + 2 * B * (INR n0 * B + INR (per_chain rd) * eps))).
Proof.
  intros Hf. pose proof (job_mass d k rd Hf) as _. pose proof (job_nonneg d k rd Hf) as Hn. destruct Hf as [Hd F]. rewrite Forall_forall in F.
  set (W := INR (per_chain rd) * (B ^ 2 + 2 * B * (INR n0 * B + INR (per_chain rd) * eps))).
  apply Rle_trans with (E (job rd) (fun devs => INR d * rsum (map (fun r => rsum (map g r) ^ 2) devs))).
  - apply E_le; [assumption|]. intros devs Ho. rewrite rsum_map_concat. unfold job in Ho. apply outcome_mapD in Ho. apply Forall2_length in Ho. rewrite <- Hd, Ho. apply (sumsq_le (fun r => rsum (map g r))).
  - rewrite E_scal. unfold job. rewrite mapD_sum.
    + replace ((INR d * INR k) ^ 2 * W) with (INR d * (INR d * (INR k ^ 2 * W))) by ring. apply Rmult_le_compat_l; [apply pos_INR|].
      rewrite <- Hd at 1. rewrite <- rsum_const. apply rsum_map_le. intros ss Hs. destruct (F ss Hs) as [Lk Fs]. rewrite E_bind.
      erewrite E_ext; [|intros r _; rewrite E_ret; reflexivity]. eapply Rle_trans; [apply (device_square space net mu prop HG Hnn g B eps n0 HB HB0 Heps Hmix steps); assumption|].
      rewrite Lk. unfold W. apply Req_le. ring.
    + intros ss Hs. rewrite mass_bind; [|intros; apply mass_ret]. apply (device_mass space); try assumption. now apply F.
Qed.

Definition total (l : list (nat * list (list config))) : R := rsum (map (fun rd => INR (per_chain rd)) l).

Lemma all_square d k l : Forall (fits_job d k) l ->
  E (mapD job l) (fun confs => rsum (map g (concat (concat confs))) ^ 2)
  <= INR (length l) * ((INR d * INR k) ^ 2 * (total l * (B ^ 2 + 2 * B * (INR n0 * B + total l * eps)))).
Proof.
  intros F. pose proof F as F'. rewrite Forall_forall in F.
  apply Rle_trans with (E (mapD job l) (fun confs => INR (length l) * rsum (map (fun devs => rsum (map g (concat devs)) ^ 2) confs))).
  - apply E_le; [apply nonneg_mapD; intros rd Hr; apply (job_nonneg d k); now apply F|]. intros confs Ho. apply outcome_mapD, Forall2_length in Ho.
    assert (Ec : rsum (map g (concat (concat confs))) = rsum (map (fun devs => rsum (map g (concat devs))) confs)).
    { clear. induction confs as [|x confs IH]; [reflexivity|]. cbn [concat map]. rewrite concat_app, map_app, rsum_app, rsum_cons, IH. reflexivity. }
    rewrite Ec, Ho. apply (sumsq_le (fun devs => rsum (map g (concat devs)))).
  - rewrite E_scal, mapD_sum by (intros rd Hr; apply (job_mass d k); now apply F). apply Rmult_le_compat_l; [apply pos_INR|].
    assert (Hp : forall rd, In rd l -> INR (per_chain rd) <= total l).
    { unfold total. clear. induction l as [|a l IH]; intros rd Hr; [destruct Hr|]. cbn [map]. rewrite rsum_cons. pose proof (pos_INR (per_chain a)).
      assert (0 <= rsum (map (fun rd => INR (per_chain rd)) l)) by (apply rsum_map_nonneg; intros; apply pos_INR). destruct Hr as [->|Hr]; [lra|]. specialize (IH rd Hr). lra. }
    set (c := B ^ 2 + 2 * B * (INR n0 * B + total l * eps)).
    apply Rle_trans with (rsum (map (fun rd => (INR d * INR k) ^ 2 * c * INR (per_chain rd)) l)).
    + apply rsum_map_le. intros rd Hr. eapply Rle_trans; [apply (job_square d k); now apply F|]. rewrite (Rmult_assoc ((INR d * INR k) ^ 2) c). apply Rmult_le_compat_l; [apply pow2_ge_0|]. rewrite (Rmult_comm c).
      apply Rmult_le_compat_l; [apply pos_INR|]. unfold c. apply Rplus_le_compat_l, Rmult_le_compat_l; [lra|]. apply Rplus_le_compat_l, Rmult_le_compat_r; [assumption|]. now apply Hp.
    + rewrite rsum_scal. fold (total l). apply Req_le. ring.
Qed.
End All.
