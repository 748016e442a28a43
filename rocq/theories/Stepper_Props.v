(** Properties of the integrators: C49 - C51. *)
From Coq Require Import List Reals Lra Lia Bool.
From Verif Require Import Base Stats_Model Vqs_Proofs Stepper_Model Stepper_Spec Stepper_Proofs.
Import ListNotations.
Local Open Scope R_scope.

(** ** C49: orders of Euler and Heun *)
Theorem C49_euler F f ys t dt M :
  (forall y t k, f y t k = F y t) -> 0 <= dt -> solves F ys t (t + dt) -> smooth2 ys t (t + dt) M ->
  snd (euler_step dt f t (at_time ys t)) = dt /\
  close (M / 2 * dt ^ 2) (fst (euler_step dt f t (at_time ys t))) (at_time ys (t + dt)).
Proof.
  intros Hf Hd HS HM. split; [reflexivity|]. unfold euler_step. cbn [fst]. rewrite Hf. replace (M / 2 * dt ^ 2) with (M * dt ^ 2 / 2) by field.
  apply euler_local_vec; [exact Hd|apply HS; lra|exact HM].
Qed.
Print Assumptions C49_euler.

Theorem C49_heun F f ys self_dt arg_dt t dt K M2 M3 :
  (forall y t k, f y t k = F y t) -> dt = match arg_dt with Some d => d | None => self_dt end -> 0 <= dt -> 0 <= M2 ->
  solves F ys t (t + dt) -> smooth3 ys t (t + dt) M2 M3 -> lipschitz F K ->
  snd (heun_step self_dt arg_dt f t (at_time ys t)) = dt /\
  close ((M3 / 12 + K * M2 / 4) * dt ^ 3) (fst (heun_step self_dt arg_dt f t (at_time ys t))) (at_time ys (t + dt)).
Proof.
  intros Hf Edt Hd H2 HS HM HK. unfold heun_step. rewrite <- Edt. split; [reflexivity|]. cbn [fst]. rewrite !Hf.
  replace ((M3 / 12 + K * M2 / 4) * dt ^ 3) with (M3 * dt ^ 3 / 12 + dt / 2 * (K * (M2 * dt ^ 2 / 2))) by (cbn; field).
  apply (heun_local_vec ys _ (F (at_time ys (t + dt)) (t + dt)) _ _ t dt M2 M3 Hd); [apply HS; lra|apply HS; lra| |exact HM].
  apply HK; [nra|]. apply euler_local_vec; [exact Hd|apply HS; lra|now apply smooth3_2 with M3].
Qed.
Print Assumptions C49_heun.

(** hence the methods converge with order one and two on every interval *)
Theorem C49_euler_global F f ys t dt n K M :
  (forall y t k, f y t k = F y t) -> 0 <= dt -> 0 <= K -> 0 <= M -> lipschitz F K ->
  solves F ys t (t + INR n * dt) -> smooth2 ys t (t + INR n * dt) M ->
  let T := INR n * dt in
  snd (fixed_run (euler_step dt f) n t (at_time ys t)) = t + T /\
  close (exp (K * T) * T * (M / 2) * dt) (fst (fixed_run (euler_step dt f) n t (at_time ys t))) (at_time ys (t + T)).
Proof.
  intros Hf Hd HK0 HM0 HK HS HM T.
  destruct (run_error (euler_step dt f) ys K dt (M / 2 * dt ^ 2) n t (at_time ys t) 0 HK0 Hd ltac:(cbn; nra) ltac:(lra)) as [E1 E2].
  - reflexivity.
  - intros s x y e He HC. unfold euler_step. cbn [fst]. rewrite !Hf. eapply close_le; [|apply close_vadd; [exact HC|apply close_vscal; [exact Hd|apply HK; [exact He|exact HC]]]].
    pose proof (exp_ge_1 (K * dt) ltac:(nra)). nra.
  - intros k Hk. assert (INR k * dt + dt <= INR n * dt). { apply le_INR in Hk. rewrite S_INR in Hk. nra. } pose proof (pos_INR k).
    apply (C49_euler F f ys); [exact Hf|exact Hd|intros s Hs; apply HS; nra|].
    eapply Forall_impl; [|exact HM]. intros y (y1 & y2 & HY). exists y1, y2. intros s Hs. apply HY. nra.
  - apply close_refl.
  - split; [exact E1|]. eapply close_le; [|exact E2]. unfold T. cbn [pow]. right. ring.
Qed.
Print Assumptions C49_euler_global.

Theorem C49_heun_global F f ys t dt n K M2 M3 :
  (forall y t k, f y t k = F y t) -> 0 <= dt -> 0 <= K -> 0 <= M2 -> 0 <= M3 -> lipschitz F K ->
  solves F ys t (t + INR n * dt) -> smooth3 ys t (t + INR n * dt) M2 M3 ->
  let T := INR n * dt in
  snd (fixed_run (heun_step dt None f) n t (at_time ys t)) = t + T /\
  close (exp (K * T) * T * (M3 / 12 + K * M2 / 4) * dt ^ 2) (fst (fixed_run (heun_step dt None f) n t (at_time ys t))) (at_time ys (t + T)).
Proof.
  intros Hf Hd HK0 HM0 HM1 HK HS HM T.
  assert (0 <= (M3 / 12 + K * M2 / 4) * dt ^ 3). { apply Rmult_le_pos; [nra|apply pow_le; lra]. }
  destruct (run_error (heun_step dt None f) ys K dt ((M3 / 12 + K * M2 / 4) * dt ^ 3) n t (at_time ys t) 0 HK0 Hd ltac:(assumption) ltac:(lra)) as [E1 E2].
  - reflexivity.
  - intros s x y e He HC. unfold heun_step. cbn [fst]. rewrite !Hf.
    assert (C0 : close (K * e) (F x s) (F y s)) by (apply HK; assumption).
    assert (CM : close (e + dt * (K * e)) (vadd x (vscal dt (F x s))) (vadd y (vscal dt (F y s)))) by (apply close_vadd; [exact HC|apply close_vscal; [exact Hd|exact C0]]).
    assert (C1 : close (K * (e + dt * (K * e))) (F (vadd x (vscal dt (F x s))) (s + dt)) (F (vadd y (vscal dt (F y s))) (s + dt))).
    { apply HK; [|exact CM]. assert (0 <= K * e) by nra. nra. }
    eapply close_le; [|apply close_vadd; [exact HC|apply close_vscal; [lra|apply close_vadd; [exact C0|exact C1]]]].
    pose proof (exp_ge_2 (K * dt) ltac:(nra)) as X. apply Rle_trans with ((1 + K * dt + (K * dt) ^ 2 / 2) * e); [right; field|]. apply Rmult_le_compat_r; assumption.
  - intros k Hk. assert (INR k * dt + dt <= INR n * dt). { apply le_INR in Hk. rewrite S_INR in Hk. nra. } pose proof (pos_INR k).
    apply (C49_heun F f ys dt None); [exact Hf|reflexivity|exact Hd|exact HM0|intros s Hs; apply HS; nra| |exact HK].
    eapply Forall_impl; [|exact HM]. intros y (y1 & y2 & y3 & HY). exists y1, y2, y3. intros s Hs. apply HY. nra.
  - apply close_refl.
  - split; [exact E1|]. eapply close_le; [|exact E2]. unfold T. cbn [pow]. right. ring.
Qed.
Print Assumptions C49_heun_global.

(** dy/dt = y, dz/dt = cos t - y + e^t (a coupled system) meets the hypotheses *)
Definition sample_F (y : list R) (t : R) : list R :=
  match y with [a; b] => [a; cos t - a + exp t] | _ => map (fun _ => 0) y end.
Lemma bounded_exp t : 0 <= t <= 1 -> Rabs (exp t) <= 3.
Proof. intros H. rewrite Rabs_right by (apply Rle_ge, Rlt_le, exp_pos). apply Rle_trans with (exp 1); [|exact exp_le_3]. destruct (Req_dec t 1) as [->|]; [lra|]. left. apply exp_increasing. lra. Qed.
Example C49_example : solves sample_F [exp; sin] 0 1 /\ smooth3 [exp; sin] 0 1 3 3 /\ lipschitz sample_F 1.
Proof.
  split; [|split].
  - intros t Ht. cbn. repeat constructor; [apply derivable_pt_lim_exp|]. replace (cos t - exp t + exp t) with (cos t) by ring. apply derivable_pt_lim_sin.
  - repeat constructor.
    + exists exp, exp, exp. intros t Ht. repeat split; try apply derivable_pt_lim_exp; now apply bounded_exp.
    + exists cos, (fun t => - sin t), (fun t => - cos t). intros t Ht. split; [apply derivable_pt_lim_sin|]. split; [apply derivable_pt_lim_cos|].
      split; [apply derivable_pt_lim_opp, derivable_pt_lim_sin|]. pose proof (COS_bound t). pose proof (SIN_bound t). split; apply Rabs_le; lra.
  - intros x y e t He H. rewrite Rmult_1_l. unfold sample_F.
    destruct H as [|a b x y Hab H]; [constructor|]. destruct H as [|a' b' x y Hab' H]; [constructor; [rewrite Rminus_0_r, Rabs_R0; lra|constructor]|].
    destruct H as [|a'' b'' x y Hab'' H].
    + constructor; [exact Hab|]. constructor; [|constructor]. replace (cos t - a + exp t - (cos t - b + exp t)) with (- (a - b)) by ring. now rewrite Rabs_Ropp.
    + assert (Z : Rabs (0 - 0) <= e) by (rewrite Rminus_0_r, Rabs_R0; lra). cbn [map]. constructor; [exact Z|]. constructor; [exact Z|]. constructor; [exact Z|]. clear -H Z. induction H; constructor; assumption.
Qed.

(** ** C50: what an adaptive step returns *)
Theorem C50_step_partial F f norm tol maxStep fuel dt0 t y y' dt next :
  (forall y t k, f y t k = F y t) -> (forall y t, length (F y t) = length y) -> 0 < tol -> 0 < maxStep -> 0 < dt0 ->
  (forall x, norm x = PInf \/ exists e, norm x = Fin e /\ 0 <= e) ->
  adaptive_step f norm tol maxStep fuel (Fin dt0) t y = Ok ((y', dt), next) ->
  (* the state after two half steps *)
  y' = heun_twice F t dt y /\
  (* the deviation from one full step is within the tolerance *)
  (exists e, norm (sub (heun_twice F t dt y) (heun F t dt y)) = Fin e /\ 0 <= e <= tol /\
    (* the controller *)
    next = Fin (Rmin maxStep (dt * (if Req_EM_T e 0 then 2 else Rmin 2 (9/10 * Rpower (tol / e) (33333/100000)))))) /\
  (* the step is the proposed one, or smaller if that one was not accurate enough *)
  0 < dt /\ dt <= Rmax dt0 maxStep /\ (dt0 <= maxStep -> dt <= maxStep) /\
  (dt = dt0 \/ dt < 9/10 * dt0 /\
     (norm (sub (heun_twice F t dt0 y) (heun F t dt0 y)) = PInf \/ exists e0, norm (sub (heun_twice F t dt0 y) (heun F t dt0 y)) = Fin e0 /\ tol < e0)) /\
  (* bounds on the next step *)
  exists d, next = Fin d /\ 0 < d <= maxStep /\ d <= 2 * dt /\ Rmin maxStep (9/10 * dt) <= d.
Proof.
  intros Hf HL Ht Hm Hd HN H. cbn [adaptive_step] in H. destruct (adaptive_loop f norm tol maxStep fuel t y dt0) as [[[p q] d]|] eqn:E; [|discriminate].
  cbn in H. injection H as <- <- <-. apply (loop_ok F) in E; try assumption. destruct E as (E1 & (e & Ee & He & Ed) & E3 & E4).
  split; [exact E1|]. split; [eauto|]. split; [exact E3|].
  assert (G : q <= dt0 \/ q <= maxStep) by (destruct E4 as [->|]; [left; lra|right; tauto]).
  split; [destruct G; [eapply Rle_trans; [|apply Rmax_l]|eapply Rle_trans; [|apply Rmax_r]]; assumption|].
  split; [intros; destruct G; lra|]. split.
  { destruct E4 as [->|(E4 & _ & E5)]; [now left|right]. split; [exact E4|]. destruct (HN (sub (heun_twice F t dt0 y) (heun F t dt0 y))) as [N|(e0 & N & N0)]; [now left|right].
    exists e0. split; [exact N|]. rewrite N in E5. cbn [xdiv] in E5. destruct (Req_EM_T e0 0); [destruct (Rlt_dec 0 tol); [discriminate|lra]|].
    apply xlt_fin in E5. apply Rmult_lt_reg_r with (/ e0); [apply Rinv_0_lt_compat; lra|]. rewrite Rinv_r by assumption. exact E5. }
  assert (K : exists c, 9/10 <= c <= 2 /\ (if Req_EM_T e 0 then 2 else Rmin 2 (9/10 * Rpower (tol / e) (33333/100000))) = c).
  { eexists. split; [|reflexivity]. destruct (Req_EM_T e 0); [lra|]. split; [|apply Rmin_l]. apply Rmin_glb; [lra|].
    assert (1 <= tol / e). { apply Rmult_le_reg_r with e; [lra|]. unfold Rdiv. rewrite Rmult_assoc, Rinv_l by assumption. lra. }
    pose proof (Rpower_ge1 (tol / e) (33333/100000) ltac:(assumption) ltac:(lra)). lra. }
  destruct K as (c & Hc & Ec). rewrite Ec in Ed. exists (Rmin maxStep (q * c)). split; [exact Ed|]. split; [split; [apply Rmin_glb_lt; nra|apply Rmin_l]|].
  split; [eapply Rle_trans; [apply Rmin_r|nra]|]. apply Rmin_glb; [apply Rmin_l|]. eapply Rle_trans; [apply Rmin_r|nra].
Qed.
Print Assumptions C50_step_partial.

(** all steps of a run: positive, not above [maxStep], and the times add up *)
Theorem C50_run_partial F f norm tol maxStep fuel n dt0 t y y' t' ds last :
  (forall y t k, f y t k = F y t) -> (forall y t, length (F y t) = length y) -> 0 < tol -> 0 < maxStep -> 0 < dt0 <= maxStep ->
  (forall x, norm x = PInf \/ exists e, norm x = Fin e /\ 0 <= e) ->
  adaptive_run f norm tol maxStep fuel n (Fin dt0) t y = Ok (y', t', ds, last) ->
  length ds = n /\ Forall (fun d => 0 < d <= maxStep) ds /\ t' = t + fold_right Rplus 0 ds /\
  y' = snd (fold_left (fun s d => (fst s + d, heun_twice F (fst s) d (snd s))) ds (t, y)) /\
  exists d, last = Fin d /\ 0 < d <= maxStep.
Proof.
  intros Hf HL Ht Hm Hd HN. revert dt0 t y y' t' ds last Hd. induction n as [|n IH]; intros dt0 t y y' t' ds last Hd H; cbn [adaptive_run] in H.
  - injection H as <- <- <- <-. split; [reflexivity|]. split; [constructor|]. split; [cbn; lra|]. split; [reflexivity|eauto].
  - destruct (adaptive_step f norm tol maxStep fuel (Fin dt0) t y) as [[[y1 d1] nx]|] eqn:E; [|discriminate]. cbn [bind fst snd] in H.
    destruct (adaptive_run f norm tol maxStep fuel n nx (t + d1) y1) as [[[[y2 t2] ds2] l2]|] eqn:E2; [|discriminate]. cbn [bind] in H. injection H as <- <- <- <-.
    apply (C50_step_partial F) in E; try assumption; try tauto. destruct E as (E1 & _ & E3 & _ & E5 & _ & d & Ed & Hdd & _). subst nx.
    apply IH in E2; [|exact Hdd]. destruct E2 as (G1 & G2 & G3 & G4 & G5). split; [cbn; congruence|]. split; [constructor; [split; [exact E3|apply E5; tauto]|exact G2]|].
    split; [cbn [fold_right]; rewrite G3; ring|]. split; [|exact G5]. cbn [fold_left fst snd]. rewrite <- E1. exact G4.
Qed.
Print Assumptions C50_run_partial.

(** the first step may exceed [maxStep] *)
Theorem C50_maxstep_refuted : exists f norm tol maxStep dt0 t y y' dt next,
  0 < tol /\ 0 < maxStep /\ 0 < dt0 /\ (forall x, exists e, norm x = Fin e /\ 0 <= e) /\
  (forall y t k, length (f y t k) = length y) /\
  adaptive_step f norm tol maxStep 1 (Fin dt0) t y = Ok ((y', dt), next) /\ maxStep < dt.
Proof.
  exists (fun y _ _ => map (fun _ => 1) y), (fun x => Fin (fold_right (fun a m => Rmax (Rabs a) m) 0 x)), 1, 1, 2, 0, [0].
  eexists _, _, _. split; [lra|]. split; [lra|]. split; [lra|]. split.
  { intros x. eexists. split; [reflexivity|]. induction x; cbn; [lra|]. eapply Rle_trans; [exact IHx|apply Rmax_r]. }
  split; [intros; apply map_length|]. split.
  - cbn [adaptive_step adaptive_loop trial]. cbn [map vadd vscal vsub map2 combine fst snd fold_right].
    match goal with |- context [Rmax (Rabs ?x) 0] => replace x with 0 by field end. rewrite Rabs_R0, Rmax_left by lra. cbn [xdiv].
    destruct (Req_EM_T 0 0); [|lra]. destruct (Rlt_dec 0 1); [|lra]. cbn [xlt bind]. reflexivity.
  - lra.
Qed.
Print Assumptions C50_maxstep_refuted.

(** an error estimate that is not a number counts as accepted, and destroys the step size *)
Theorem C50_nan_refuted : exists f norm tol maxStep dt0 t y y' dt next,
  0 < tol /\ 0 < maxStep /\ 0 < dt0 <= maxStep /\
  adaptive_step f norm tol maxStep 1 (Fin dt0) t y = Ok ((y', dt), next) /\ norm (vsub y' y) = NaN /\ next = NaN.
Proof.
  exists (fun y _ _ => y), (fun _ => NaN), 1, 1, 1, 0, [1]. eexists _, _, _. split; [lra|]. split; [lra|]. split; [lra|].
  split; [reflexivity|]. split; reflexivity.
Qed.
Print Assumptions C50_nan_refuted.

(** ** C51: termination *)
Theorem C51_terminates F f norm tol maxStep C dt0 t y n :
  (forall y t k, f y t k = F y t) -> (forall y t, length (F y t) = length y) -> 0 < tol -> 0 < maxStep -> 0 < dt0 -> 0 <= C ->
  (forall x, norm x = PInf \/ exists e, norm x = Fin e /\ 0 <= e) ->
  (forall d, 0 < d <= dt0 -> exists e, norm (sub (heun_twice F t d y) (heun F t d y)) = Fin e /\ e <= C * d) ->
  C * dt0 * (9/10) ^ n <= tol ->
  exists r, adaptive_step f norm tol maxStep (S n) (Fin dt0) t y = Ok r.
Proof.
  intros Hf HL Ht Hm Hd HC HN HB Hn. destruct (loop_terminates F f norm tol maxStep Hf HL Ht Hm HN C t y n dt0 HC Hd) as ([[p q] d] & E); [|exact Hn|].
  - intros d Hdd. destruct (HB d Hdd) as (e & E & He). exists e. split; [exact E|]. split; [|exact He]. destruct (HN (sub (heun_twice F t d y) (heun F t d y))) as [N|(e' & N & N0)]; rewrite E in N; inversion N; now subst.
  - cbn [adaptive_step]. rewrite E. cbn. eauto.
Qed.
Print Assumptions C51_terminates.

(** an explicit number of rejections after which the loop has stopped *)
Theorem C51_bound tol C dt0 : 0 < tol -> 0 <= C -> 0 < dt0 ->
  let n := Z.to_nat (up (9 * C * dt0 / tol)) in C * dt0 * (9/10) ^ n <= tol.
Proof.
  intros Ht HC Hd n. set (q := C * dt0 / tol). assert (Hq : 0 <= q) by (unfold q; apply Rmult_le_pos; [nra|left; apply Rinv_0_lt_compat; lra]).
  assert (Hn : 9 * q <= INR n).
  { unfold n. replace (9 * C * dt0 / tol) with (9 * q) by (unfold q; field; lra). destruct (archimed (9 * q)) as [A _].
    rewrite INR_IZR_INZ, Z2Nat.id; [lra|]. apply le_IZR. lra. }
  pose proof (poly n (1/9) ltac:(lra)) as B. assert (E : (9/10) ^ n * (1 + 1/9) ^ n = 1) by (rewrite <- Rpow_mult_distr; replace (9/10 * (1 + 1/9)) with 1 by field; apply pow1).
  assert (P : 0 < (9/10) ^ n) by (apply pow_lt; lra). assert (q * (9/10) ^ n <= 1).
  { rewrite <- E. rewrite Rmult_comm. apply Rmult_le_compat_l; lra. }
  replace (C * dt0) with (tol * q) by (unfold q; field; lra). nra.
Qed.
Print Assumptions C51_bound.

(** for every bounded right hand side and every norm dominated by the maximum norm *)
Definition size_le (b : R) (x : list R) : Prop := Forall (fun a => Rabs a <= b) x.
Lemma size_add a b x : forall y, size_le a x -> size_le b y -> size_le (a + b) (add x y).
Proof.
  unfold size_le. induction x as [|p x IH]; intros [|q y] Hx Hy; try constructor; inversion Hx; subst; inversion Hy; subst.
  - eapply Rle_trans; [apply Rabs_triang|]. lra.
  - now apply IH.
Qed.
Lemma size_scale c b x : size_le b x -> size_le (Rabs c * b) (scale c x).
Proof. unfold size_le, scale. induction 1; cbn [map]; constructor; [|assumption]. rewrite Rabs_mult. apply Rmult_le_compat_l; [apply Rabs_pos|assumption]. Qed.
Theorem C51_bounded F f norm tol maxStep B c dt0 t y :
  (forall y t k, f y t k = F y t) -> (forall y t, length (F y t) = length y) -> 0 < tol -> 0 < maxStep -> 0 < dt0 -> 0 <= B -> 0 <= c ->
  (forall y t, size_le B (F y t)) -> (forall x b, 0 <= b -> size_le b x -> exists e, norm x = Fin e /\ 0 <= e <= c * b) ->
  let n := Z.to_nat (up (9 * (2 * c * B) * dt0 / tol)) in
  exists r, adaptive_step f norm tol maxStep (S n) (Fin dt0) t y = Ok r.
Proof.
  intros Hf HL Ht Hm Hd HB Hc HF HN n.
  assert (BND : forall x, exists b, 0 <= b /\ size_le b x).
  { induction x as [|a x (b & H0 & Hb)]; [exists 0; split; [lra|constructor]|]. exists (Rmax (Rabs a) b). split; [eapply Rle_trans; [exact H0|apply Rmax_r]|]. constructor; [apply Rmax_l|]. eapply Forall_impl; [|exact Hb]. intros z Hz. eapply Rle_trans; [exact Hz|apply Rmax_r]. }
  apply (C51_terminates F f norm tol maxStep (2 * c * B)); try assumption.
  - nra.
  - intros x. right. destruct (BND x) as (b & H0 & Hb). destruct (HN x b H0 Hb) as (e & E & He & _). eauto.
  - intros d Hdd. destruct (HN (sub (heun_twice F t d y) (heun F t d y)) (2 * (B * d))) as (e & E & He).
    + nra.
    + assert (S1 : size_le (d / 2 * (B + B)) (scale (d / 2) (add (F y t) (F (add y (scale d (F y t))) (t + d))))).
      { replace (d / 2) with (Rabs (d / 2)) at 1 by (apply Rabs_right; lra). apply size_scale, size_add; apply HF. }
      assert (S2 : forall s z, size_le (d / 4 * (B + B)) (scale (d / 2 / 2) (add (F z s) (F (add z (scale (d / 2) (F z s))) (s + d / 2))))).
      { intros s z. replace (d / 4) with (Rabs (d / 2 / 2)) by (rewrite Rabs_right; lra). apply size_scale, size_add; apply HF. }
      unfold heun_twice. set (h1 := heun F t (d / 2) y). unfold heun at 1. unfold h1 at 1. unfold heun at 1 2. rewrite <- add_assoc.
      rewrite sub_cancel.
      * unfold sub. replace (2 * (B * d)) with ((d / 4 * (B + B) + d / 4 * (B + B)) + Rabs (-1) * (d / 2 * (B + B))) by (rewrite Rabs_left by lra; field).
        apply size_add; [apply size_add; apply S2|apply size_scale, S1].
      * unfold h1, heun. len.
      * len.
    + exists e. split; [exact E|lra].
  - apply (C51_bound tol (2 * c * B) dt0 Ht ltac:(nra) Hd).
Qed.
Print Assumptions C51_bounded.

(** a bounded right hand side and the maximum norm: a step that is actually taken *)
Definition osc (y : list R) (t : R) : list R := map (fun a => cos (t + a)) y.
Definition max_norm (x : list R) : R := fold_right (fun a m => Rmax (Rabs a) m) 0 x.
Lemma max_norm_ok x b : 0 <= b -> size_le b x -> exists e, Fin (max_norm x) = Fin e /\ 0 <= e <= 1 * b.
Proof.
  intros H0 H. exists (max_norm x). split; [reflexivity|]. unfold max_norm. rewrite Rmult_1_l. induction H as [|a x Ha H IH]; cbn [fold_right]; [lra|].
  split; [apply Rle_trans with (2 := Rmax_r _ _), IH|]. apply Rmax_lub; [exact Ha|apply IH].
Qed.
Example C51_example : exists r, adaptive_step (fun y t _ => osc y t) (fun x => Fin (max_norm x)) (1/100) 1
    (S (Z.to_nat (up (9 * (2 * 1 * 1) * (1/2) / (1/100))))) (Fin (1/2)) 0 [1; 2] = Ok r.
Proof.
  apply (C51_bounded osc); try lra.
  - reflexivity.
  - intros. apply map_length.
  - intros y t. unfold size_le, osc. apply Forall_forall. intros v Hv. apply in_map_iff in Hv as (a & <- & _). pose proof (COS_bound (t + a)). apply Rabs_le. lra.
  - exact max_norm_ok.
Qed.
(** the same case meets the hypotheses of C50 *)
Example C50_example : (forall y t, length (osc y t) = length y) /\ (forall x, exists e, Fin (max_norm x) = Fin e /\ 0 <= e).
Proof.
  split; [intros; apply map_length|]. intros x. exists (max_norm x). split; [reflexivity|]. unfold max_norm. induction x; cbn [fold_right]; [lra|]. apply Rle_trans with (2 := Rmax_r _ _), IHx.
Qed.
