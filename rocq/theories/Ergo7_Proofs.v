(** Constant probabilities: every flip is accepted and the parity of a chain alternates. *)
From Coq Require Import ZArith List Reals Bool Arith Lia Lra.
From Verif Require Import Base Cplx Mpi_Model Mpi_Spec Stats_Model BranchFree_Model BranchFree_Spec BranchFree_Proofs Dist Sampler_Model Sampler_Spec Sampler_Proofs Sampler2_Proofs Ergo_Model Ergo_Spec Ergo_Proofs Ergo2_Proofs Ergo3_Proofs Ergo4_Proofs Ergo5_Proofs.
Import ListNotations.

(** ** with probability one *)
Definition surely {A} (m : dist A) (P : A -> Prop) : Prop := Forall (fun wa => fst wa = 0%R \/ P (snd wa)) m.
Lemma surely_ret {A} (a : A) (P : A -> Prop) : P a -> surely (ret a) P.
Proof. intros H. constructor; [now right|constructor]. Qed.
Lemma surely_outcome {A} (m : dist A) (P : A -> Prop) : (forall a, outcome m a -> P a) -> surely m P.
Proof. intros H. apply Forall_forall. intros [w a] Hin. right. apply H. apply (in_map snd) in Hin. exact Hin. Qed.
Lemma surely_and {A} (m : dist A) (P Q : A -> Prop) : surely m P -> surely m Q -> surely m (fun a => P a /\ Q a).
Proof.
  unfold surely. rewrite !Forall_forall. intros H1 H2 x Hx. specialize (H1 x Hx). specialize (H2 x Hx). tauto.
Qed.
Lemma surely_weaken {A} (m : dist A) (P Q : A -> Prop) : (forall a, P a -> Q a) -> surely m P -> surely m Q.
Proof. intros H. unfold surely. rewrite !Forall_forall. intros H1 x Hx. destruct (H1 x Hx); auto. Qed.
Lemma surely_bind {A B} (m : dist A) (g : A -> dist B) (P : A -> Prop) (Q : B -> Prop) : surely m P -> (forall a, outcome m a -> P a -> surely (g a) Q) -> surely (dbind m g) Q.
Proof.
  intros Hm Hg. unfold dbind. apply Forall_forall. intros vb H. apply in_flat_map in H as ([w a] & Hin & H). apply in_map_iff in H as ([v b] & <- & Hb). cbn [fst snd] in *.
  unfold surely in Hm. rewrite Forall_forall in Hm. destruct (Hm _ Hin) as [H1|H1]; cbn [fst snd] in H1; [left; rewrite H1; ring|].
  assert (Ho : outcome m a) by (apply (in_map snd) in Hin; exact Hin). pose proof (Hg a Ho H1) as H2. unfold surely in H2. rewrite Forall_forall in H2.
  destruct (H2 _ Hb) as [H3|H3]; cbn [fst snd] in H3; [left; rewrite H3; ring|now right].
Qed.
Lemma surely_mapD {A B} (g : A -> dist B) (Q : A -> B -> Prop) l : (forall a, In a l -> surely (g a) (Q a)) -> surely (mapD g l) (Forall2 Q l).
Proof.
  induction l as [|a l IH]; intros H; cbn [mapD]; [apply surely_ret; constructor|].
  apply surely_bind with (P := Q a); [apply H; now left|]. intros b _ Hb. apply surely_bind with (P := Forall2 Q l); [apply IH; intros; apply H; now right|]. intros bs _ Hbs. apply surely_ret. now constructor.
Qed.
Lemma E_surely {A} (m : dist A) (P : A -> Prop) f g : surely m P -> (forall a, P a -> f a = g a) -> E m f = E m g.
Proof.
  intros Hs H. unfold E. apply rsum_ext. intros [w a] Hin. cbn [fst snd]. unfold surely in Hs. rewrite Forall_forall in Hs. destruct (Hs _ Hin) as [H1|H1]; cbn [fst snd] in H1; [rewrite H1; ring|now rewrite H].
Qed.

Section Frozen.
Variable space : list config.
Variable net : config -> R.
Variable mu r : R.
Variable prop : config -> dist config.
Hypothesis HG : good_proposal space prop.
Hypothesis Hconst : forall s, In s space -> (mu * net s)%R = r.
Hypothesis Hflip : forall s t, In s space -> outcome (prop s) t -> parity t = negb (parity s).

Lemma surely_perform c : in_space space net mu c ->
  surely (perform_mc_update net mu prop c) (fun c' => in_space space net mu c' /\ map parity (c_states c') = map (fun s => negb (parity s)) (c_states c)).
Proof.
  intros Hc. apply surely_and.
  { apply surely_outcome. intros c' Ho. apply (in_space_sweep space net mu prop HG 1 c c' Hc). unfold sweep. cbn [iterD]. apply outcome_bind. exists c'. split; [assumption|now apply outcome_ret]. }
  destruct Hc as [Hc F]. unfold perform_mc_update.
  apply surely_bind with (P := Forall2 (fun s t => outcome (prop s) t) (c_states c)).
  { apply surely_outcome. intros a Ha. now apply outcome_mapD. }
  intros new _ Hnew.
  assert (Hn : Forall (fun t => In t space) new /\ map parity new = map (fun s => negb (parity s)) (c_states c)).
  { destruct HG as (_ & Hcl & _). clear Hc. revert F. induction Hnew as [|s t ss new H _ IH]; intros F; [split; [constructor|reflexivity]|]. apply Forall_cons_iff in F as [F1 F2]. destruct (IH F2) as [I1 I2]. split.
    - constructor; [exact (proj2 (Hcl s F1) t H)|assumption].
    - cbn [map]. rewrite I2. now rewrite (Hflip s t F1 H). }
  destruct Hn as [Fn Pn'].
  apply surely_bind with (P := fun acc => acc = map (fun _ => true) new).
  - set (P := map2 (fun n o => exp (n - o)) (map (logAcc net mu) new) (c_logAcc c)).
    assert (HP : P = map (fun _ => 1%R) new).
    { unfold P. rewrite Hc. clear -Hnew F Fn Hconst. revert F Fn. induction Hnew as [|s t ss new _ _ IH]; intros F Fn; [reflexivity|]. apply Forall_cons_iff in F as [F1 F2]. apply Forall_cons_iff in Fn as [G1 G2]. cbn [map]. rewrite map2_cons, IH by assumption. f_equal.
      unfold logAcc. rewrite (Hconst s F1), (Hconst t G1). rewrite Rminus_eq_0. apply exp_0. }
    rewrite HP. eapply surely_weaken; [|apply (surely_mapD bernoulli (fun _ b => b = true))].
    + intros acc H. clear -H. revert acc H. induction new as [|t new IH]; intros acc H; [inversion H; reflexivity|]. cbn [map] in H. inversion H as [|x b l l' Hb Hr]; subst. cbn [map]. f_equal. now apply IH.
    + intros p Hp. apply in_map_iff in Hp as (t & <- & _). unfold bernoulli. rewrite Rmin_left by lra. constructor; [now right|]. constructor; [left; cbn; ring|constructor].
  - intros acc _ ->. apply surely_ret. cbn [c_states]. rewrite <- Pn'. clear -Hnew. f_equal. induction Hnew as [|s t ss new _ _ IH]; [reflexivity|]. cbn [map combine]. rewrite map2_cons. cbn [snd]. now rewrite IH.
Qed.

Definition even_moves (n : nat) (b : bool) : bool := if Nat.even n then b else negb b.
Lemma surely_sweep n c : in_space space net mu c ->
  surely (sweep net mu prop n c) (fun c' => in_space space net mu c' /\ map parity (c_states c') = map (fun s => even_moves n (parity s)) (c_states c)).
Proof.
  unfold sweep. revert c. induction n as [|n IH]; intros c Hc; cbn [iterD]; [apply surely_ret; split; [assumption|reflexivity]|].
  eapply surely_bind; [now apply surely_perform|]. intros c' _ [Hc' E1]. eapply surely_weaken; [|apply IH; exact Hc'].
  intros c2 [H2 E2]. split; [assumption|]. rewrite E2. transitivity (map (even_moves n) (map parity (c_states c'))); [now rewrite map_map|]. rewrite E1, map_map. apply map_ext. intros s.
  unfold even_moves. rewrite Nat.even_succ, <- Nat.negb_even. destruct (Nat.even n), (parity s); reflexivity.
Qed.

Variable p0 : bool.
Lemma even_keeps n c c' : Nat.even n = true -> map parity (c_states c') = map (fun s => even_moves n (parity s)) (c_states c) ->
  Forall (fun s => parity s = p0) (c_states c) -> Forall (fun s => parity s = p0) (c_states c').
Proof.
  intros He Em F. unfold even_moves in Em. rewrite He in Em. generalize dependent (c_states c'). induction F as [|s ss Hs F IH]; intros [|t ts] Em; try discriminate Em; [constructor|]. cbn [map] in Em.
  assert (parity t = parity s /\ map parity ts = map (fun s => parity s) ss) as [E1 E2] by (split; congruence). constructor; [congruence|]. now apply IH.
Qed.

Lemma surely_collect N steps c : Nat.even steps = true -> in_space space net mu c -> Forall (fun s => parity s = p0) (c_states c) ->
  surely (collect net mu prop N steps c) (fun q => Forall (fun s => parity s = p0) (concat (snd q))).
Proof.
  intros He. revert c. induction N as [|N IH]; intros c Hc F; cbn [collect]; [apply surely_ret; constructor|].
  eapply surely_bind; [now apply surely_sweep|]. intros c' _ [Hc' E1]. pose proof (even_keeps steps c c' He E1 F) as F'.
  eapply surely_bind; [now apply IH|]. intros q _ Hq. apply surely_ret. cbn [snd concat]. apply Forall_app. now split.
Qed.
Lemma surely_device N therm steps ss : Nat.even steps = true -> Forall (fun s => In s space) ss -> Forall (fun s => parity s = p0) ss ->
  surely (sample_device net mu prop N therm steps ss) (fun q => Forall (fun s => parity s = p0) (snd q)).
Proof.
  intros He F Fp. assert (Hi : in_space space net mu (mc_init net mu ss)) by (split; [reflexivity|exact F]). unfold sample_device, get_samples.
  eapply surely_bind; [now apply surely_sweep|]. intros c _ [Hc E1].
  assert (Ht : Nat.even (therm * steps) = true) by (rewrite Nat.even_mul, He; apply orb_true_r).
  pose proof (even_keeps _ _ c Ht E1 Fp) as F'. eapply surely_bind; [now apply surely_collect|]. intros q _ Hq. apply surely_ret. exact Hq.
Qed.
End Frozen.

(** ** the sum over all configurations of the sign of the parity *)
Lemma sign_cons x s : x < 2 -> sign (x :: s) = (if x =? 1 then - sign s else sign s)%R.
Proof.
  intros Hx. unfold sign, parity. rewrite ones_cons. destruct x as [|[|x]]; [reflexivity| |lia]. cbn [Nat.eqb Nat.add]. rewrite Nat.even_succ, <- Nat.negb_even. destruct (Nat.even (ones s)); cbn; lra.
Qed.
Lemma sign_sum n : 1 <= n -> rsum (map sign (all_configs 2 n)) = 0%R.
Proof.
  intros Hn. destruct n as [|n]; [lia|]. cbn [all_configs seq flat_map]. rewrite app_nil_r, map_app, rsum_app, !map_map.
  rewrite (rsum_ext (fun x => sign (0 :: x)) sign) by (intros; now rewrite sign_cons by lia).
  rewrite (rsum_ext (fun x => sign (1 :: x)) (fun x => - sign x)%R) by (intros; now rewrite sign_cons by lia). rewrite rsum_opp. ring.
Qed.
Lemma parity_flip1 s i : binary s -> i < length s -> parity (flip1 i s) = negb (parity s).
Proof.
  intros Hb Hi. unfold parity, flip1. rewrite gather1_nth by assumption. pose proof (binary_nth s i Hb). rewrite mod2 by assumption.
  pose proof (ones_scatter s i (1 - nth i s 0) Hi ltac:(lia)) as H1. destruct (Nat.eqb_spec (nth i s 0) 1) as [E|E].
  - rewrite E in *. cbn [Nat.sub] in *. replace (ones s) with (S (ones (scatter1 s i 0))) by lia. rewrite Nat.even_succ, <- Nat.negb_even, negb_involutive. reflexivity.
  - assert (nth i s 0 = 0) as E0 by lia. rewrite E0 in *. cbn [Nat.sub] in *. replace (ones (scatter1 s i 1)) with (S (ones s)) by lia. rewrite Nat.even_succ, <- Nat.negb_even. reflexivity.
Qed.
Lemma parity_flip_all s : binary s -> Nat.even (length s) = true -> parity (flip_all s) = parity s.
Proof.
  intros Hb He. unfold parity. rewrite ones_flip by assumption. pose proof (ones_le s). rewrite Nat.even_sub by assumption. rewrite He. now destruct (Nat.even (ones s)).
Qed.

Lemma frozen_estimate n prop logPsi lpf mu x p0 y c d k therm steps m numSamples states :
  good_proposal (all_configs 2 n) prop -> (forall s t, In s (all_configs 2 n) -> outcome (prop s) t -> parity t = negb (parity s)) ->
  (forall s, In s (all_configs 2 n) -> (mu * Re (logPsi s))%R = x) -> Nat.even steps = true -> 1 <= c -> 1 <= d -> 1 <= k -> (0 < m)%Z -> (0 < numSamples)%Z ->
  chains_in (all_configs 2 n) c d k states -> Forall (Forall (Forall (fun s => parity s = p0))) states ->
  E (sample_mcmc logPsi lpf mu prop numSamples m (Z.of_nat d) (Z.of_nat k) therm steps states)
    (fun q => (estimate sign q - y) ^ 2)%R = (((if p0 then 1 else -1) - y) ^ 2%nat)%R.
Proof.
  intros HG Hflip Hconst He Hc Hd Hk Hm HN [Hlen Hst] Hpar. set (space := all_configs 2 n) in *.
  set (net := fun s => Re (logPsi s)) in *.
  set (per_chain := fun rd : nat * list (list config) => Z.to_nat (fst (distribute_sampling (Z.of_nat (fst rd)) (Z.of_nat (length states)) numSamples (Some (Z.of_nat d)) (Z.lcm (Z.of_nat k) m)))).
  set (l := combine (seq 0 (length states)) states).
  assert (Hfit : Forall (fits_job space d k) l).
  { apply Forall_forall. intros [q devs] Hin. apply in_combine_r in Hin. rewrite Forall_forall in Hst. exact (Hst devs Hin). }
  assert (Hpl : Forall (fun rd => Forall (Forall (fun s => parity s = p0)) (snd rd)) l).
  { apply Forall_forall. intros [q devs] Hin. apply in_combine_r in Hin. rewrite Forall_forall in Hpar. exact (Hpar devs Hin). }
  assert (HT : (0 < total per_chain l)%R).
  { assert (ET : total per_chain l = rsum (map (fun r => INR (Z.to_nat (fst (distribute_sampling (Z.of_nat r) (Z.of_nat c) numSamples (Some (Z.of_nat d)) (Z.lcm (Z.of_nat k) m))))) (seq 0 c))).
    { unfold total, per_chain, l. rewrite Hlen. rewrite <- (map_map fst (fun r => INR (Z.to_nat (fst (distribute_sampling (Z.of_nat r) (Z.of_nat c) numSamples (Some (Z.of_nat d)) (Z.lcm (Z.of_nat k) m)))))). f_equal. f_equal.
      apply map_fst_combine. now rewrite seq_length. }
    pose proof (total_per_chain c (Z.of_nat d) (Z.of_nat k) m numSamples Hc ltac:(lia) ltac:(lia) Hm ltac:(lia)) as HP. rewrite <- ET in HP. apply IZR_lt in HN.
    assert (HL : (0 <= IZR (Z.of_nat d * Z.lcm (Z.of_nat k) m))%R) by (apply IZR_le; pose proof (Z.lcm_nonneg (Z.of_nat k) m); nia).
    assert (0 <= total per_chain l)%R by (unfold total; apply rsum_map_nonneg; intros; apply pos_INR). nra. }
  change (E (confs <~ mapD (job net mu prop therm steps per_chain) l;; ret (confs, mcmc_weights lpf mu (map (map (map logPsi)) confs))) (fun q => (estimate sign q - y) ^ 2)%R = (((if p0 then 1 else -1) - y) ^ 2)%R).
  rewrite E_bind. rewrite (E_surely _ (fun confs => Forall (fun s => parity s = p0) (concat (concat confs)) /\ (concat (concat confs) <> [])) _ (fun _ => (((if p0 then 1 else -1) - y) ^ 2)%R)).
  - rewrite E_const, mass_mapD; [ring|]. eapply Forall_impl; [|exact Hfit]. intros rd Hf. exact (job_mass space net mu prop HG therm steps per_chain d k rd Hf).
  - apply surely_and.
    + eapply surely_weaken; [|apply (surely_mapD _ (fun _ devs => Forall (fun s => parity s = p0) (concat devs)))].
      * intros confs H. clear -H. induction H as [|rd devs l confs H _ IH]; [constructor|]. cbn [concat]. rewrite concat_app. apply Forall_app. now split.
      * intros rd Hr. rewrite Forall_forall in Hfit, Hpl. destruct (Hfit rd Hr) as [_ Hf]. pose proof (Hpl rd Hr) as Hp. unfold job.
        eapply surely_weaken; [|apply (surely_mapD _ (fun _ q => Forall (fun s => parity s = p0) q))].
        -- intros devs H. clear -H. induction H; [constructor|]. cbn [concat]. apply Forall_app. now split.
        -- intros ss Hss. rewrite Forall_forall in Hf, Hp. destruct (Hf ss Hss) as [_ Fs]. eapply surely_bind; [apply (surely_device space net mu x prop HG Hconst Hflip p0 _ therm steps ss He Fs (Hp ss Hss))|].
           intros q _ Hq. apply surely_ret. exact Hq.
    + apply surely_outcome. intros confs Ho. apply outcome_mapD in Ho. intros E0.
      assert (INR (length (concat (concat confs))) = total per_chain l * (INR d * INR k))%R as Hcnt.
      { unfold total. clear -Hfit Ho. induction Ho as [|rd devs l confs Ho _ IH]; [cbn; lra|]. apply Forall_cons_iff in Hfit as [F1 F2]. cbn [concat map]. rewrite concat_app, app_length, plus_INR, rsum_cons, IH by assumption.
        rewrite (job_length space net mu prop therm steps per_chain d k rd devs F1 Ho). rewrite !mult_INR. ring. }
      rewrite E0 in Hcnt. cbn [length INR] in Hcnt. assert (0 < INR d)%R by (apply lt_0_INR; lia). assert (0 < INR k)%R by (apply lt_0_INR; lia).
      pose proof (Rmult_lt_0_compat _ _ HT (Rmult_lt_0_compat _ _ H H0)). lra.
  - intros confs [Hp Hnil]. rewrite E_ret. pose proof (estimate_ratio logPsi lpf mu sign confs) as ER. cbv zeta in ER. rewrite ER. clear ER.
    set (S := concat (concat confs)) in *. set (w := fun s => exp ((1 / lpf - mu) * Re (logPsi s))).
    assert (HW : (0 < rsum (map w S))%R) by (apply rsum_map_pos; [assumption|]; intros; apply exp_pos).
    set (sg := (if p0 then 1 else -1)%R).
    rewrite (rsum_ext _ (fun s => w s * sg)%R) by (intros s Hs; rewrite Forall_forall in Hp; unfold sign, sg; now rewrite (Hp s Hs)).
    rewrite rsum_scal_r. change (fun s => exp ((1 / lpf - mu) * Re (logPsi s))) with w. replace (rsum (map w S) * sg / rsum (map w S) - y)%R with (sg - y)%R by (field; lra). reflexivity.
Qed.
