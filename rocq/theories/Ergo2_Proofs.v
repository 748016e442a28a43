(** Mean square of sums over the configurations of many chains. *)
From Coq Require Import ZArith List Reals Bool Arith Lia Lra.
From Verif Require Import Base Cplx Stats_Model BranchFree_Model Dist Sampler_Model Sampler_Spec Sampler_Proofs Ergo_Proofs.
Import ListNotations.
Local Open Scope R_scope.

Lemma sumsq_le {A} (f : A -> R) l : (rsum (map f l)) ^ 2 <= INR (length l) * rsum (map (fun a => f a ^ 2) l).
Proof.
  induction l as [|a l IH]; [cbn; lra|]. cbn [map length]. rewrite !rsum_cons, S_INR. set (x := f a) in *. set (s := rsum (map f l)) in *. set (q := rsum (map (fun a => f a ^ 2) l)) in *. set (n := INR (length l)) in *.
  assert (H0 : 0 <= n) by apply pos_INR.
  assert (Hq : 0 <= q) by (apply rsum_map_nonneg; intros; apply pow2_ge_0).
  assert (2 * x * s <= n * x ^ 2 + q); [|nra].
  destruct (Req_dec n 0) as [E|E].
  - assert (l = []) as -> by (destruct l; [reflexivity|]; unfold n in E; cbn [length] in E; rewrite S_INR in E; pose proof (pos_INR (length l)); lra).
    unfold s, q. cbn. lra.
  - assert (0 < n) by lra. apply Rmult_le_reg_l with n; [assumption|]. pose proof (pow2_ge_0 (n * x - s)). nra.
Qed.

Lemma mapD_sum {A B} (F : A -> dist B) (phi : B -> R) l : (forall a, In a l -> mass (F a) = 1) ->
  E (mapD F l) (fun rs => rsum (map phi rs)) = rsum (map (fun a => E (F a) phi) l).
Proof.
  induction l as [|a l IH]; intros Hm; cbn [mapD map]; [now rewrite E_ret|]. rewrite E_bind, rsum_cons.
  assert (Hl : forall a, In a l -> mass (F a) = 1) by (intros; apply Hm; now right). specialize (IH Hl).
  rewrite <- IH. transitivity (E (F a) (fun b => phi b + E (mapD F l) (fun rs => rsum (map phi rs)))).
  - apply E_ext. intros b _. rewrite E_bind. transitivity (E (mapD F l) (fun rs => phi b + rsum (map phi rs))).
    + apply E_ext. intros rs _. rewrite E_ret. cbn [map]. now rewrite rsum_cons.
    + rewrite E_add, E_const, mass_mapD; [ring|]. now apply Forall_forall.
  - rewrite E_add, E_const, Hm by (now left). ring.
Qed.

Lemma iter_mapD_sum (space : list config) K n g ss : kernel_on space K -> Forall (fun s => In s space) ss ->
  E (iterD n (fun ss => mapD K ss) ss) (fun r => rsum (map g r)) = rsum (map (fun s => E (iterD n K s) g) ss).
Proof.
  intros HK. revert ss. induction n as [|n IH]; intros ss F.
  - cbn [iterD]. rewrite E_ret. apply rsum_ext. intros s _. now rewrite E_ret.
  - cbn [iterD]. rewrite E_bind. transitivity (E (mapD K ss) (fun r => rsum (map (fun s => E (iterD n K s) g) r))).
    + apply E_ext. intros r Hr. apply IH. apply outcome_mapD in Hr. clear IH. induction Hr as [|s t ss r H _ IHr]; [constructor|]. apply Forall_cons_iff in F as [F1 F2].
      constructor; [|now apply IHr]. exact (proj2 (proj2 (proj2 HK s F1)) t H).
    + rewrite Forall_forall in F. rewrite mapD_sum by (intros s Hs; exact (proj1 (proj2 (proj2 HK s (F s Hs))))).
      apply rsum_ext. intros s _. now rewrite E_bind.
Qed.

Section Sums.
Variable space : list config.
Variable net : config -> R.
Variable mu : R.
Variable prop : config -> dist config.
Hypothesis HG : good_proposal space prop.
Hypothesis Hnn : forall s, In s space -> nonneg (prop s).

Notation K := (chainK net mu prop).

Lemma chain_kernel : kernel_on space K.
Proof.
  destruct HG as (Hnd & Hcl & _). split; [assumption|]. intros s Hs. destruct (Hcl s Hs) as [Hm Ho]. split; [|split].
  - apply nonneg_bind; [now apply Hnn|]. intros t _. apply nonneg_bind; [apply nonneg_bernoulli; left; apply exp_pos|]. intros; apply nonneg_ret.
  - now apply chainK_mass.
  - intros t H. apply outcome_bind in H as (u & Hu & H). apply outcome_bind in H as (b & _ & H). apply outcome_ret in H. subst t. destruct b; [now apply Ho|assumption].
Qed.

Lemma chain_prob s t : In s space -> Pr (prop s) t * Rmin 1 (exp (mu * net t - mu * net s)) <= Pr (K s) t.
Proof.
  intros Hs. unfold Pr, chainK. rewrite E_bind, Rmult_comm, <- E_scal. apply E_le; [now apply Hnn|]. intros u _. rewrite E_bind, E_bernoulli, !E_ret. unfold logAcc.
  pose proof (Rmin_l 1 (exp (mu * net u - mu * net s))) as H1.
  assert (0 <= Rmin 1 (exp (mu * net u - mu * net s))) as H2 by (apply Rmin_glb; [lra|left; apply exp_pos]).
  destruct (config_eq_dec u t) as [->|H]; destruct (config_eq_dec s t); lra.
Qed.
Lemma chain_move s t : In s space -> 0 < Pr (prop s) t -> 0 < Pr (K s) t.
Proof.
  intros Hs H. eapply Rlt_le_trans; [|now apply chain_prob]. apply Rmult_lt_0_compat; [assumption|]. apply Rmin_pos; [lra|apply exp_pos].
Qed.
Lemma chain_loop s t : In s space -> 0 < Pr (prop s) t -> mu * net t < mu * net s -> 0 < Pr (K s) s.
Proof.
  intros Hs H L. set (a := Rmin 1 (exp (mu * net t - mu * net s))).
  assert (a < 1) by (unfold a; apply Rle_lt_trans with (exp (mu * net t - mu * net s)); [apply Rmin_r|]; rewrite <- exp_0; apply exp_increasing; lra).
  apply Rlt_le_trans with ((1 - a) * Pr (prop s) t); [apply Rmult_lt_0_compat; lra|]. unfold Pr, chainK. rewrite <- E_scal, E_bind. apply E_le; [now apply Hnn|].
  intros u _. rewrite E_bind, E_bernoulli, !E_ret. unfold logAcc. pose proof (Rmin_l 1 (exp (mu * net u - mu * net s))) as H1.
  assert (0 <= Rmin 1 (exp (mu * net u - mu * net s))) as H2 by (apply Rmin_glb; [lra|left; apply exp_pos]).
  destruct (config_eq_dec s s); [|congruence]. destruct (config_eq_dec u t) as [->|Ht]; [fold a in H1, H2 |- *|]; destruct (config_eq_dec _ s); lra.
Qed.

Lemma nonneg_perform c : in_space space net mu c -> nonneg (perform_mc_update net mu prop c).
Proof.
  intros [_ F]. unfold perform_mc_update. apply nonneg_bind.
  - apply nonneg_mapD. intros s Hs. apply Hnn. rewrite Forall_forall in F. now apply F.
  - intros new _. apply nonneg_bind; [|intros; apply nonneg_ret]. apply nonneg_mapD. intros p Hp. apply nonneg_bernoulli.
    unfold map2 in Hp. apply in_map_iff in Hp as (x & <- & _). left. apply exp_pos.
Qed.
Lemma nonneg_sweep n c : in_space space net mu c -> nonneg (sweep net mu prop n c).
Proof.
  unfold sweep. revert c. induction n as [|n IH]; intros c H; cbn [iterD]; [apply nonneg_ret|]. apply nonneg_bind; [now apply nonneg_perform|].
  intros c' Ho. apply IH. apply (in_space_sweep space net mu prop HG 1 c); [assumption|]. unfold sweep. cbn [iterD]. apply outcome_bind. exists c'. split; [assumption|now apply outcome_ret].
Qed.
Lemma nonneg_collect m steps c : in_space space net mu c -> nonneg (collect net mu prop m steps c).
Proof.
  revert c. induction m as [|m IH]; intros c H; cbn [collect]; [apply nonneg_ret|]. apply nonneg_bind; [now apply nonneg_sweep|]. intros c' Ho.
  apply nonneg_bind; [|intros; apply nonneg_ret]. apply IH. exact (in_space_sweep space net mu prop HG steps c c' H Ho).
Qed.

Variable g : config -> R.
Variables (B eps : R) (n0 : nat).
Hypothesis HB : forall s, In s space -> Rabs (g s) <= B.
Hypothesis HB0 : 0 <= B.
Hypothesis Heps : 0 <= eps.
Hypothesis Hmix : forall n s, (n0 <= n)%nat -> In s space -> Rabs (E (iterD n K s) g) <= eps.

Lemma small n s : In s space -> Rabs (E (iterD n K s) g) <= (if (n <? n0)%nat then B else eps).
Proof.
  intros Hs. destruct (Nat.ltb_spec n n0); [|now apply Hmix]. apply Rabs_le. apply (it_between space K chain_kernel); [assumption|].
  intros y Hy. pose proof (HB y Hy) as Hy'. pose proof (Rle_abs (g y)). pose proof (Rle_abs (- g y)). rewrite Rabs_Ropp in *. lra.
Qed.

Lemma abs_rsum {A} (f : A -> R) l b : (forall a, In a l -> Rabs (f a) <= b) -> Rabs (rsum (map f l)) <= INR (length l) * b.
Proof.
  induction l as [|a l IH]; intros H; [cbn; rewrite Rabs_R0; lra|]. cbn [map length]. rewrite rsum_cons, S_INR. eapply Rle_trans; [apply Rabs_triang|].
  pose proof (H a ltac:(now left)). specialize (IH (fun x Hx => H x (or_intror Hx))). lra.
Qed.

(** the mean of the sum over all configurations of the chains *)
Definition partial (steps N : nat) : R := rsum (map (fun j => if (S j * steps <? n0)%nat then B else eps) (seq 0 N)).
Lemma concat_nth_sum (rs : list (list config)) : rsum (map g (concat rs)) = rsum (map (fun j => rsum (map g (nth j rs []))) (seq 0 (length rs))).
Proof.
  induction rs as [|r rs IH]; [reflexivity|]. cbn [concat length seq map]. rewrite map_app, rsum_app, rsum_cons, IH. cbn [nth]. f_equal. rewrite <- seq_shift, map_map. reflexivity.
Qed.
Lemma mean_bound N steps c : in_space space net mu c ->
  Rabs (E (collect net mu prop N steps c) (fun r => rsum (map g (concat (snd r))))) <= INR (length (c_states c)) * partial steps N.
Proof.
  intros Hc. rewrite (E_ext _ _ (fun r => rsum (map (fun j => rsum (map g (nth j (snd r) []))) (seq 0 N)))).
  2: { intros r Hr. apply collect_outcome in Hr as (_ & _ & _ & _ & L & _); [|apply Hc]. now rewrite concat_nth_sum, L. }
  rewrite E_rsum. rewrite (rsum_ext _ (fun j => rsum (map (fun s => E (iterD (S j * steps) K s) g) (c_states c)))).
  2: { intros j Hj. apply in_seq in Hj. rewrite (collect_K space net mu prop HG N steps j c (fun l => rsum (map g l)) Hc) by lia. apply (iter_mapD_sum space); [apply chain_kernel|apply Hc]. }
  unfold partial. rewrite <- rsum_scal. eapply Rle_trans.
  { instantiate (1 := rsum (map (fun j => Rabs (rsum (map (fun s => E (iterD (S j * steps) K s) g) (c_states c)))) (seq 0 N))).
    generalize (seq 0 N). intros l. induction l as [|j l IH]; [cbn; rewrite Rabs_R0; apply Rle_refl|]. cbn [map]. rewrite !rsum_cons. eapply Rle_trans; [apply Rabs_triang|]. lra. }
  apply rsum_map_le. intros j _. apply abs_rsum. intros s Hs. apply small. destruct Hc as [_ F]. rewrite Forall_forall in F. now apply F.
Qed.

Lemma partial_le steps N : (1 <= steps)%nat -> partial steps N <= INR n0 * B + INR N * eps.
Proof.
  intros Hs. unfold partial.
  assert (G : forall N, rsum (map (fun j => if (S j * steps <? n0)%nat then B else eps) (seq 0 N)) <= INR (Nat.min N n0) * B + INR N * eps).
  { clear N. induction N as [|N IH]; [cbn; lra|]. rewrite seq_S, map_app, rsum_app. cbn [Nat.add map]. rewrite rsum_cons, rsum_nil, S_INR.
    destruct (Nat.ltb_spec (S N * steps) n0) as [L|L].
    - replace (Nat.min (S N) n0) with (S (Nat.min N n0)) by nia. rewrite S_INR. lra.
    - assert (INR (Nat.min N n0) <= INR (Nat.min (S N) n0)) by (apply le_INR; lia). pose proof (Rmult_le_compat_r B _ _ HB0 H). lra. }
  eapply Rle_trans; [apply G|]. apply Rplus_le_compat_r, Rmult_le_compat_r; [assumption|]. apply le_INR. lia.
Qed.

Lemma square_bound X steps N c : in_space space net mu c -> (forall N', (N' < N)%nat -> partial steps N' <= X) -> 0 <= X ->
  let k := INR (length (c_states c)) in
  E (collect net mu prop N steps c) (fun r => rsum (map g (concat (snd r))) ^ 2) <= INR N * (k ^ 2 * (B ^ 2 + 2 * B * X)).
Proof.
  intros Hc HX HX0 k. revert c k Hc. induction N as [|N IH]; intros c k Hc.
  - cbn [collect]. rewrite E_ret. cbn. lra.
  - cbn [collect]. rewrite E_bind. rewrite S_INR.
    assert (Hk : 0 <= k) by apply pos_INR.

    assert (G : forall c', outcome (sweep net mu prop steps c) c' ->
      E (r <~ collect net mu prop N steps c';; ret (fst r, c_states c' :: snd r)) (fun r => rsum (map g (concat (snd r))) ^ 2) <= (INR N + 1) * (k ^ 2 * (B ^ 2 + 2 * B * X))).
    { intros c' Ho. pose proof (in_space_sweep space net mu prop HG steps c c' Hc Ho) as Hc'.
      assert (Lk : INR (length (c_states c')) = k) by (unfold k; f_equal; apply (sweep_outcome net mu prop steps c c' (proj1 Hc) Ho)).
      set (G := rsum (map g (c_states c'))). set (m := collect net mu prop N steps c').
      rewrite E_bind. rewrite (E_ext _ _ (fun r => G ^ 2 + ((2 * G) * rsum (map g (concat (snd r))) + rsum (map g (concat (snd r))) ^ 2))).
      2: { intros r _. rewrite E_ret. cbn [snd concat]. rewrite map_app, rsum_app. fold G. ring. }
      rewrite !E_add, E_const, E_scal. unfold m. rewrite (mass_collect space net mu prop HG N steps c' Hc').
      assert (HGb : Rabs G <= k * B).
      { unfold G. rewrite <- Lk. apply abs_rsum. intros s Hs. apply HB. destruct Hc' as [_ F]. rewrite Forall_forall in F. now apply F. }
      pose proof (mean_bound N steps c' Hc') as HM. rewrite Lk in HM. fold m in HM |- *. set (M := E m (fun r => rsum (map g (concat (snd r))))) in *.
      specialize (IH (fun N' H => HX N' (Nat.lt_lt_succ_r _ _ H)) c' Hc'). cbv zeta in IH. rewrite Lk in IH. fold m in IH. set (V := E m (fun r => rsum (map g (concat (snd r))) ^ 2)) in *.
      pose proof (HX N ltac:(lia)) as HXN.
      assert (HM' : Rabs M <= k * X) by (eapply Rle_trans; [exact HM|]; apply Rmult_le_compat_l; assumption).
      assert (G ^ 2 <= (k * B) ^ 2) by (rewrite <- (pow2_abs G); apply pow_incr; split; [apply Rabs_pos|assumption]).
      assert (G * M <= (k * B) * (k * X)).
      { eapply Rle_trans; [apply Rle_abs|]. rewrite Rabs_mult. apply Rmult_le_compat; try apply Rabs_pos; assumption. }
      nra. }
    replace ((INR N + 1) * (k ^ 2 * (B ^ 2 + 2 * B * X))) with (E (sweep net mu prop steps c) (fun _ => (INR N + 1) * (k ^ 2 * (B ^ 2 + 2 * B * X)))) by (rewrite E_const, (mass_sweep space net mu prop HG steps c Hc); ring).
    apply E_le; [now apply nonneg_sweep|exact G].
Qed.

(** one device *)
Lemma device_square steps N therm ss : (1 <= steps)%nat -> Forall (fun s => In s space) ss ->
  E (sample_device net mu prop N therm steps ss) (fun r => rsum (map g (snd r)) ^ 2)
  <= INR N * (INR (length ss) ^ 2 * (B ^ 2 + 2 * B * (INR n0 * B + INR N * eps))).
Proof.
  intros Hs F. unfold sample_device, get_samples. rewrite E_bind.
  assert (Hi : in_space space net mu (mc_init net mu ss)) by (split; [reflexivity|exact F]).
  set (W := INR N * (INR (length ss) ^ 2 * (B ^ 2 + 2 * B * (INR n0 * B + INR N * eps)))).
  replace W with (E (sweep net mu prop (therm * steps) (mc_init net mu ss)) (fun _ => W)) by (rewrite E_const, (mass_sweep space net mu prop HG _ _ Hi); ring).
  apply E_le; [now apply nonneg_sweep|]. intros c Ho. pose proof (in_space_sweep space net mu prop HG _ _ c Hi Ho) as Hc.
  rewrite E_bind. erewrite E_ext; [|intros r _; rewrite E_ret; cbn [snd]; reflexivity].
  assert (L : length (c_states c) = length ss) by (apply (sweep_outcome net mu prop _ _ c (proj1 Hi) Ho)).
  unfold W. rewrite <- L. apply square_bound; [assumption| |].
  - intros N' HN. eapply Rle_trans; [now apply partial_le|]. apply Rplus_le_compat_l, Rmult_le_compat_r; [assumption|]. apply le_INR. lia.
  - pose proof (pos_INR n0). pose proof (pos_INR N). pose proof (Rmult_le_pos _ _ H HB0). pose proof (Rmult_le_pos _ _ H0 Heps). lra.
Qed.
Lemma device_mass steps N therm ss : Forall (fun s => In s space) ss -> mass (sample_device net mu prop N therm steps ss) = 1.
Proof.
  intros F. assert (Hi : in_space space net mu (mc_init net mu ss)) by (split; [reflexivity|exact F]).
  unfold sample_device, get_samples. rewrite mass_bind; [now apply mass_sweep with (space := space)|]. intros c Ho. rewrite mass_bind; [|intros; apply mass_ret].
  apply mass_collect with (space := space); [assumption|]. exact (in_space_sweep space net mu prop HG _ _ c Hi Ho).
Qed.
Lemma device_nonneg steps N therm ss : Forall (fun s => In s space) ss -> nonneg (sample_device net mu prop N therm steps ss).
Proof.
  intros F. assert (Hi : in_space space net mu (mc_init net mu ss)) by (split; [reflexivity|exact F]).
  unfold sample_device, get_samples. apply nonneg_bind; [now apply nonneg_sweep|]. intros c Ho. apply nonneg_bind; [|intros; apply nonneg_ret].
  apply nonneg_collect. exact (in_space_sweep space net mu prop HG _ _ c Hi Ho).
Qed.
End Sums.
