(** C83: the Markov chains forget where they started; estimates converge. *)
From Coq Require Import ZArith List Reals Bool Arith Lia Lra.
From Verif Require Import Base Cplx Mpi_Model Mpi_Spec Stats_Model BranchFree_Model BranchFree_Spec BranchFree_Proofs Dist Sampler_Model Sampler_Spec Sampler_Proofs Sampler2_Proofs Sampler_Props Ergo_Model Ergo_Spec Ergo_Proofs Ergo2_Proofs Ergo3_Proofs Ergo4_Proofs Ergo5_Proofs Ergo6_Proofs Ergo7_Proofs.
Import ListNotations.

(** the state of one chain that started in [s], after [n] updates *)
Definition chain_after (re : config -> R) (mu : R) (prop : config -> dist config) (n : nat) (s : config) : dist config :=
  c <~ sweep re mu prop n (mc_init re mu [s]);; ret (hd [] (c_states c)).

(** Its distribution approaches |psi|^mu / Z, from every state of the space. *)
Definition settles (space : list config) (re : config -> R) (mu : R) (prop : config -> dist config) : Prop :=
  forall eps, (0 < eps)%R -> exists n0, forall n s t, n0 <= n -> In s space -> In t space ->
    (Rabs (Pr (chain_after re mu prop n s) t - exp (mu * re t) / rsum (map (fun u => exp (mu * re u)) space)) <= eps)%R.

(** The mean square error of the estimate of any average vanishes when more samples are requested,
    for every number of ranks, devices and chains, every thermalisation and every initial states. *)
Definition estimates_converge (space : list config) (logPsi : config -> C) (mu : R) (prop : config -> dist config) : Prop :=
  forall lpf f c d k therm steps multipleOf eps, lpf <> 0%R -> 1 <= c -> 1 <= d -> 1 <= k -> 1 <= steps -> (0 < multipleOf)%Z -> (0 < eps)%R ->
  exists N0, forall numSamples states, (N0 <= numSamples)%Z -> chains_in space c d k states ->
    (E (sample_mcmc logPsi lpf mu prop numSamples multipleOf (Z.of_nat d) (Z.of_nat k) therm steps states)
       (fun sample => (estimate f sample - average (born lpf (fun s => Re (logPsi s))) f space) ^ 2) <= eps)%R.

Lemma chain_after_K re mu prop n s f : E (chain_after re mu prop n s) f = E (iterD n (chainK re mu prop) s) f.
Proof.
  unfold chain_after. rewrite E_bind.
  transitivity (E (sweep re mu prop n (mc_init re mu [s])) (fun c => f (hd [] (c_states c)))); [apply E_ext; intros c _; now rewrite E_ret|].
  rewrite (iterD_K re mu prop n (mc_init re mu [s]) (fun ss => f (hd [] ss)) eq_refl). cbn [mc_init c_states]. clear. revert s. induction n as [|n IH]; intros s; cbn [iterD]; [now rewrite !E_ret|].
  rewrite !E_bind. cbn [mapD]. rewrite E_bind. apply E_ext. intros t _. rewrite E_bind, !E_ret. apply IH.
Qed.

Lemma settles_ok space re mu prop : good_proposal space prop -> (forall s, In s space -> nonneg (prop s)) -> (forall s t, In s space -> In t space -> exists n, walk prop n s t) ->
  (space <> [] -> regular space re mu prop) -> settles space re mu prop.
Proof.
  intros HG Hnn Hconn Hreg eps He. destruct space as [|z l] eqn:Es; [exists 0; intros n s t _ []|]. rewrite <- Es in *. assert (Hne : space <> []) by (rewrite Es; discriminate). specialize (Hreg Hne).
  assert (G : forall l, (forall t, In t l -> In t space) -> exists n0, forall n s t, n0 <= n -> In s space -> In t l ->
    (Rabs (Pr (chain_after re mu prop n s) t - exp (mu * re t) / rsum (map (fun u => exp (mu * re u)) space)) <= eps)%R).
  { clear l Es z. induction l as [|t l IH]; intros Hl; [exists 0; intros n s t _ _ []|]. destruct IH as (n1 & H1); [intros; apply Hl; now right|].
    destruct (chain_converges space re mu prop HG Hnn Hconn Hne (fun s => if config_eq_dec s t then 1 else 0)%R eps Hreg He) as (n2 & H2).
    exists (Nat.max n1 n2). intros n s u Hn Hs [<-|Hu]; [|apply H1; try assumption; lia]. unfold Pr. rewrite chain_after_K. specialize (H2 n s ltac:(lia) Hs). 
    replace (exp (mu * re t) / rsum (map (fun u => exp (mu * re u)) space))%R with (average (fun s0 => exp (mu * re s0)) (fun s0 => if config_eq_dec s0 t then 1 else 0) space)%R; [exact H2|].
    unfold average. f_equal. destruct HG as (Hnd & _). pose proof (Hl t ltac:(now left)) as Ht. clear -Hnd Ht. induction Hnd as [|a space Ha _ IH]; [destruct Ht|]. cbn [map]. rewrite rsum_cons.
    destruct (config_eq_dec a t) as [->|Hne].
    - rewrite (rsum_ext _ (fun _ => 0)%R); [rewrite rsum_zero; ring|]. intros s Hs. destruct (config_eq_dec s t) as [->|]; [contradiction|ring].
    - destruct Ht as [->|Ht]; [congruence|]. rewrite IH by assumption. ring. }
  apply G. auto.
Qed.

Lemma estimates_converge_ok space logPsi mu prop : good_proposal space prop -> (forall s, In s space -> nonneg (prop s)) -> (forall s t, In s space -> In t space -> exists n, walk prop n s t) ->
  (space <> [] -> regular space (fun s => Re (logPsi s)) mu prop) -> estimates_converge space logPsi mu prop.
Proof.
  intros HG Hnn Hconn Hreg lpf f c d k therm steps m eps Hl Hc Hd Hk Hs Hm He. destruct space as [|z l] eqn:Es.
  - exists 0%Z. intros N states _ [Hlen F]. exfalso. destruct states as [|devs states]; cbn [length] in Hlen; [lia|]. apply Forall_cons_iff in F as [[Ld F] _]. destruct devs as [|ss devs]; cbn [length] in Ld; [lia|].
    apply Forall_cons_iff in F as [[Lk F] _]. destruct ss as [|s ss]; cbn [length] in Lk; [lia|]. apply Forall_cons_iff in F as [[] _].
  - rewrite <- Es in *. assert (Hne : space <> []) by (rewrite Es; discriminate). exact (estimates_ok space logPsi mu prop HG Hnn Hconn Hne (Hreg Hne) lpf f c d k therm steps m eps Hl Hc Hd Hk Hs Hm He).
Qed.

(** ** Single flips: if |psi|^mu is not the same for all configurations. *)
Theorem C83_spin_flip_partial n logPsi mu : 1 <= n -> varies (all_configs 2 n) (fun s => mu * Re (logPsi s))%R ->
  settles (all_configs 2 n) (fun s => Re (logPsi s)) mu propose_spin_flip /\ estimates_converge (all_configs 2 n) logPsi mu propose_spin_flip.
Proof.
  intros Hn Hv. pose proof (spin_flip_good n Hn) as HG. pose proof (flip_connected propose_spin_flip n (spin_flip_moves n)) as Hc.
  assert (Hnn : forall s, In s (all_configs 2 n) -> nonneg (propose_spin_flip s)) by (intros; apply strict_nonneg, strict_spin_flip).
  split; [apply settles_ok|apply estimates_converge_ok]; auto; intros _; now left.
Qed.
Print Assumptions C83_spin_flip_partial.

(** Single flips with a global flip: also for constant |psi|^mu if the number of sites is odd. *)
Theorem C83_spin_flip_Z2_partial n logPsi mu : 1 <= n -> varies (all_configs 2 n) (fun s => mu * Re (logPsi s))%R \/ Nat.odd n = true ->
  settles (all_configs 2 n) (fun s => Re (logPsi s)) mu propose_spin_flip_Z2 /\ estimates_converge (all_configs 2 n) logPsi mu propose_spin_flip_Z2.
Proof.
  intros Hn Hv. pose proof (Z2_good n Hn) as HG. pose proof (flip_connected propose_spin_flip_Z2 n (Z2_moves n)) as Hc.
  assert (Hnn : forall s, In s (all_configs 2 n) -> nonneg (propose_spin_flip_Z2 s)) by (intros; apply strict_nonneg, strict_Z2).
  assert (Hreg : regular (all_configs 2 n) (fun s => Re (logPsi s)) mu propose_spin_flip_Z2).
  { destruct Hv as [Hv|Hv]; [now left|]. right. apply Nat.odd_spec in Hv as (q & ->). set (z := repeat 0 (2 * q + 1)).
    assert (Hz : In z (all_configs 2 (2 * q + 1))). { apply in_all_configs. unfold z. rewrite repeat_length. split; [reflexivity|]. apply Forall_forall. intros x Hx. apply repeat_spec in Hx. lia. }
    exists z, q. split; [assumption|]. split; [apply (flip_back _ (2 * q + 1) (Z2_moves _)); [lia|assumption]|now apply Z2_odd]. }
  split; [apply settles_ok|apply estimates_converge_ok]; auto.
Qed.
Print Assumptions C83_spin_flip_Z2_partial.

(** Zero magnetisation: without any condition on psi. *)
Theorem C83_zeroMag a b prop logPsi mu : 1 <= a * b -> (forall s, length s = a * b -> propose_spin_flip_zeroMag [a; b] s = Ok (prop s)) ->
  settles (zm_space a b) (fun s => Re (logPsi s)) mu prop /\ estimates_converge (zm_space a b) logPsi mu prop.
Proof.
  intros Hn Hp. pose proof (zeroMag_good a b prop Hn Hp) as HG.
  assert (Hnn : forall s, In s (zm_configs (a * b)) -> nonneg (prop s)) by (intros s Hs; apply strict_nonneg, (strict_zeroMag a b s); apply Hp; now apply in_zm_configs in Hs as [L _]).
  pose proof (zm_connected a b prop Hp) as Hc. pose proof (zm_regular a b prop Hp (fun s => Re (logPsi s)) mu Hn) as Hr.
  split; [apply settles_ok|apply estimates_converge_ok]; auto.
Qed.
Print Assumptions C83_zeroMag.

(** ** What fails.  If |psi|^mu is the same for all configurations - a state with constant modulus, or
    mu = 0 - every flip is accepted and the number of ones alternates between even and odd.  After an
    even number of updates per sweep (the default is 10) all configurations have the parity the chains
    started with, so the estimate of the sign of the parity is 1 or -1 however many samples are drawn. *)
Definition alternating (prop : config -> dist config) (n : nat) : Prop :=
  forall logPsi lpf mu x p0 y c d k therm steps multipleOf numSamples states,
  (forall s, In s (all_configs 2 n) -> (mu * Re (logPsi s))%R = x) -> Nat.even steps = true -> 1 <= c -> 1 <= d -> 1 <= k -> (0 < multipleOf)%Z -> (0 < numSamples)%Z ->
  chains_in (all_configs 2 n) c d k states -> Forall (Forall (Forall (fun s => parity s = p0))) states ->
  E (sample_mcmc logPsi lpf mu prop numSamples multipleOf (Z.of_nat d) (Z.of_nat k) therm steps states) (fun q => (estimate sign q - y) ^ 2)%R = (((if p0 then 1 else -1) - y) ^ 2)%R.

Lemma spin_flip_alternates n s t : In s (all_configs 2 n) -> outcome (propose_spin_flip s) t -> parity t = negb (parity s).
Proof.
  intros Hs Ho. apply in_all_configs in Hs as [L B]. unfold propose_spin_flip in Ho. apply outcome_bind in Ho as (i & Hi & Ho). apply outcome_uniform, in_seq in Hi. apply outcome_ret in Ho. subst t.
  apply (parity_flip1 s i B). lia.
Qed.
Lemma Z2_alternates n s t : Nat.even n = true -> In s (all_configs 2 n) -> outcome (propose_spin_flip_Z2 s) t -> parity t = negb (parity s).
Proof.
  intros He Hs Ho. apply in_all_configs in Hs as [L B]. unfold propose_spin_flip_Z2 in Ho. apply outcome_bind in Ho as (i & Hi & Ho). apply outcome_uniform, in_seq in Hi. apply outcome_bind in Ho as (k & _ & Ho). apply outcome_ret in Ho. subst t.
  change (scatter1 s i ((gather1 0 s i + 1) mod 2)) with (flip1 i s). assert (P : parity (flip1 i s) = negb (parity s)) by (apply (parity_flip1 s i B); lia).
  destruct (k =? 0); [|exact P]. rewrite parity_flip_all; [exact P|apply flip1_binary; [exact B|lia]|]. now rewrite flip1_length, L.
Qed.

Theorem C83_alternating n : 1 <= n -> alternating propose_spin_flip n /\ (Nat.even n = true -> alternating propose_spin_flip_Z2 n).
Proof.
  intros Hn. split.
  - intros logPsi lpf mu x p0 y c d k therm steps m N states Hx He Hc Hd Hk Hm HN Hch Hp. apply (frozen_estimate n _ logPsi lpf mu x p0 y c d k); try assumption; [now apply spin_flip_good|apply spin_flip_alternates].
  - intros Hev logPsi lpf mu x p0 y c d k therm steps m N states Hx He Hc Hd Hk Hm HN Hch Hp. apply (frozen_estimate n _ logPsi lpf mu x p0 y c d k); try assumption; [now apply Z2_good|intros s t; now apply Z2_alternates].
Qed.
Print Assumptions C83_alternating.

Lemma initial_ok c d k n : chains_in (all_configs 2 n) c d k (initial_states c d k n) /\ Forall (Forall (Forall (fun s => parity s = true))) (initial_states c d k n).
Proof.
  assert (Hz : In (repeat 0 n) (all_configs 2 n)). { apply in_all_configs. rewrite repeat_length. split; [reflexivity|]. apply Forall_forall. intros x Hx. apply repeat_spec in Hx. lia. }
  assert (Pz : parity (repeat 0 n) = true). { unfold parity, ones. replace (filter (fun x => x =? 1) (repeat 0 n)) with (@nil nat); [reflexivity|]. clear. induction n; [reflexivity|]. cbn. assumption. }
  unfold initial_states. split.
  - split; [apply repeat_length|]. apply Forall_forall. intros devs H. apply repeat_spec in H. subst. split; [apply repeat_length|]. apply Forall_forall. intros ss H. apply repeat_spec in H. subst. split; [apply repeat_length|].
    apply Forall_forall. intros s H. apply repeat_spec in H. now subst.
  - apply Forall_forall. intros devs H. apply repeat_spec in H. subst. apply Forall_forall. intros ss H. apply repeat_spec in H. subst. apply Forall_forall. intros s H. apply repeat_spec in H. now subst.
Qed.

(** With the default arguments of the sampler (mu = 2, logProbFactor = 0.5, 10 sweeps of 10 steps, chains that start
    in the state of zeros), for the product state with equal amplitudes: the average of the sign is 0, its estimate is
    1 with certainty, for every number of samples. *)
Theorem C83_spin_flip_refuted : exists n logPsi, 1 <= n /\ ~ estimates_converge (all_configs 2 n) logPsi 2 propose_spin_flip
  /\ average (born (1 / 2) (fun s => Re (logPsi s))) sign (all_configs 2 n) = 0%R
  /\ forall c d k numSamples, 1 <= c -> 1 <= d -> 1 <= k -> (0 < numSamples)%Z ->
     E (sample_mcmc logPsi (1 / 2) 2 propose_spin_flip numSamples 1 (Z.of_nat d) (Z.of_nat k) 10 10 (initial_states c d k n)) (fun q => (estimate sign q - 1) ^ 2)%R = 0%R.
Proof.
  exists 4, (fun _ => C0). assert (HA : average (born (1 / 2) (fun s : config => Re C0)) sign (all_configs 2 4) = 0%R).
  { unfold average. rewrite (rsum_ext _ (fun s => exp (Re C0 / (1 / 2)) * sign s)%R) by reflexivity. rewrite rsum_scal, sign_sum by lia. unfold Rdiv. ring. }
  destruct (C83_alternating 4 ltac:(lia)) as [Ha _]. destruct (initial_ok 1 1 1 4) as [I1 I2].
  split; [lia|]. split; [|split; [exact HA|]].
  - intros H. destruct (H (1 / 2)%R sign 1 1 1 10 10 1%Z (1 / 2)%R) as (N0 & HN); try lra; try lia. specialize (HN (Z.max 1 N0) (initial_states 1 1 1 4) ltac:(lia) I1). rewrite HA in HN.
    rewrite (Ha (fun _ => C0) (1 / 2)%R 2%R (2 * Re C0)%R true 0%R 1 1 1 10 10 1%Z) in HN; try reflexivity; try lia; try assumption. lra.
  - intros c d k N Hc Hd Hk HN. destruct (initial_ok c d k 4) as [J1 J2].
    rewrite (Ha (fun _ => C0) (1 / 2)%R 2%R (2 * Re C0)%R true 1%R c d k 10 10 1%Z); try reflexivity; try lia; try assumption. ring.
Qed.
Print Assumptions C83_spin_flip_refuted.

(** Exactly when single flips settle. *)
Lemma varies_or_constant q (l : list config) : varies l q \/ exists x, forall s, In s l -> q s = x.
Proof.
  destruct l as [|a l]; [right; exists 0%R; intros s []|].
  destruct (Forall_Exists_dec (fun s => q s = q a) (fun s => Req_EM_T (q s) (q a)) l) as [H|H].
  - right. exists (q a). intros s [<-|Hs]; [reflexivity|]. rewrite Forall_forall in H. now apply H.
  - left. apply Exists_exists in H as (s & Hs & Hne). exists s, a. split; [now right|]. split; [now left|exact Hne].
Qed.
Lemma alternating_unsettled space re mu x prop z : good_proposal space prop -> (forall s, In s space -> (mu * re s)%R = x) ->
  (forall s t, In s space -> outcome (prop s) t -> parity t = negb (parity s)) -> In z space -> ~ settles space re mu prop.
Proof.
  intros HG Hc Hf Hz H. set (Z := rsum (map (fun u => exp (mu * re u)) space)).
  assert (HZ : (0 < Z)%R). { apply rsum_map_pos; [intros E0; rewrite E0 in Hz; destruct Hz|]. intros; apply exp_pos. }
  set (p := (exp (mu * re z) / Z)%R). assert (Hp : (0 < p)%R) by (apply Rdiv_lt_0_compat; [apply exp_pos|assumption]).
  destruct (H (p / 2)%R ltac:(lra)) as (n0 & Hn). specialize (Hn (2 * n0 + 1) z z ltac:(lia) Hz Hz). fold Z in Hn. fold p in Hn.
  assert (P0 : Pr (chain_after re mu prop (2 * n0 + 1) z) z = 0%R).
  { unfold Pr, chain_after. rewrite E_bind. rewrite (E_surely _ (fun c => parity (hd [] (c_states c)) <> parity z) _ (fun _ => 0%R)).
    - rewrite E_const. ring.
    - eapply surely_weaken; [|apply (surely_sweep space re mu x prop HG Hc Hf (2 * n0 + 1) (mc_init re mu [z]))].
      + intros c [_ Em]. cbn [mc_init c_states map] in Em. destruct (c_states c) as [|s [|s' ss]]; try discriminate Em. cbn [map hd] in *. assert (Es : parity s = even_moves (2 * n0 + 1) (parity z)) by congruence.
        rewrite Es. unfold even_moves. replace (Nat.even (2 * n0 + 1)) with false by (symmetry; rewrite Nat.add_1_r, Nat.even_succ, <- Nat.negb_even, Nat.even_mul; reflexivity). destruct (parity z); discriminate.
      + split; [reflexivity|]. constructor; [assumption|constructor].
    - intros c Hne. rewrite E_ret. destruct (config_eq_dec _ z) as [E0|]; [rewrite E0 in Hne; congruence|reflexivity]. }
  rewrite P0, Rminus_0_l, Rabs_Ropp, Rabs_right in Hn by lra. lra.
Qed.
Theorem C83_spin_flip_iff n logPsi mu : 1 <= n ->
  (settles (all_configs 2 n) (fun s => Re (logPsi s)) mu propose_spin_flip <-> varies (all_configs 2 n) (fun s => mu * Re (logPsi s))%R)
  /\ (settles (all_configs 2 n) (fun s => Re (logPsi s)) mu propose_spin_flip_Z2 <-> varies (all_configs 2 n) (fun s => mu * Re (logPsi s))%R \/ Nat.odd n = true).
Proof.
  intros Hn. assert (Hz : In (repeat 0 n) (all_configs 2 n)). { apply in_all_configs. rewrite repeat_length. split; [reflexivity|]. apply Forall_forall. intros x Hx. apply repeat_spec in Hx. lia. }
  split; split.
  - intros H. destruct (varies_or_constant (fun s => mu * Re (logPsi s))%R (all_configs 2 n)) as [Hv|(x & Hx)]; [exact Hv|]. exfalso.
    exact (alternating_unsettled _ _ mu x _ _ (spin_flip_good n Hn) Hx (spin_flip_alternates n) Hz H).
  - intros H. exact (proj1 (C83_spin_flip_partial n logPsi mu Hn H)).
  - intros H. destruct (varies_or_constant (fun s => mu * Re (logPsi s))%R (all_configs 2 n)) as [Hv|(x & Hx)]; [now left|]. right. rewrite <- Nat.negb_even. destruct (Nat.even n) eqn:E; [|reflexivity]. exfalso.
    exact (alternating_unsettled _ _ mu x _ _ (Z2_good n Hn) Hx (fun s t => Z2_alternates n s t E) Hz H).
  - intros H. exact (proj1 (C83_spin_flip_Z2_partial n logPsi mu Hn H)).
Qed.
Print Assumptions C83_spin_flip_iff.

(** A state of three spins that varies, chains of two ranks with one device and two chains each; the four by one lattice. *)
Example C83_example : varies (all_configs 2 3) (fun s => 2 * Re (RtoC (INR (ones s))))%R
  /\ chains_in (all_configs 2 3) 2 1 2 [[[[0; 1; 1]; [0; 0; 0]]]; [[[1; 1; 1]; [0; 1; 0]]]]
  /\ chains_in (zm_space 4 1) 1 1 1 [[[[0; 1; 1; 0]]]]
  /\ (exists prop, forall s, length s = 4 * 1 -> propose_spin_flip_zeroMag [4; 1] s = Ok (prop s))
  /\ sign [0; 1; 1] = 1%R /\ sign [1; 1; 1] = (-1)%R.
Proof.
  split; [|split; [|split; [|split; [|split; reflexivity]]]].
  - exists [0; 0; 0], [0; 0; 1]. split; [cbn; tauto|]. split; [cbn; tauto|]. cbn. lra.
  - split; [reflexivity|]. repeat (constructor; try (split; [reflexivity|])); cbn; tauto.
  - split; [reflexivity|]. repeat (constructor; try (split; [reflexivity|])); cbn; tauto.
  - eexists. intros s _. reflexivity.
Qed.
