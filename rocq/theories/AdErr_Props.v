(** Runs of the adaptive integrator: C91. *)
From Coq Require Import List Reals Lra Lia Bool ZArith.
From Verif Require Import Base Stats_Model Stats_Proofs Vqs_Proofs Stepper_Model Stepper_Spec Stepper_Proofs Stepper_Props AdErr_Model AdErr_Proofs.
Import ListNotations.
Local Open Scope R_scope.

(** the evolution reaches the final time and overshoots it by less than one step; its error is of second order in [maxStep].  Steps
    are at least as large as the first one or a bound determined by tolerance and right hand side *)
Theorem C91_evolve F f norm tol maxStep B c dt0 passed t tmax y :
  (forall y t k, f y t k = F y t) -> (forall y t, length (F y t) = length y) -> 0 < tol -> 0 < dt0 <= maxStep -> 0 < B -> 0 < c ->
  (forall y t, size_le B (F y t)) -> (forall x b, 0 <= b -> size_le b x -> exists e, norm x = Fin e /\ 0 <= e <= c * b) ->
  (* the time is handed over, or not needed *)
  (forall t, passed t = t) \/ (forall y s t, F y s = F y t) ->
  t <= tmax ->
  exists fuel passes y' t', evolve f norm tol maxStep fuel passed tmax passes (Fin dt0) t y = Ok (y', t')
    /\ tmax <= t' < tmax + maxStep
    /\ INR passes <= 2 + (tmax - t) / Rmin dt0 (tol / (10 * c * B))
    /\ forall ys K M2 M3, 0 <= K -> 0 <= M2 -> 0 <= M3 -> lipschitz F K ->
         solves F ys t (tmax + maxStep) -> smooth3 ys t (tmax + maxStep) M2 M3 -> y = at_time ys t ->
         close (exp (K * (t' - t)) * (t' - t) * (M3 / 12 + K * M2 / 4) * (maxStep / 2) ^ 2) y' (at_time ys t').
Proof.
  intros Hf HL Ht Hd HB Hc HF HN HP Htm. set (C := 2 * c * B). assert (HC : 0 < C) by (unfold C; assert (0 < c * B) by (apply Rmult_lt_0_compat; assumption); lra).
  set (m := Rmin dt0 (tol / (10 * c * B))).
  assert (Em : tol / (10 * c * B) = tol / (5 * C)) by (unfold C; field; lra).
  assert (Hm0 : 0 < m). { unfold m. apply Rmin_glb_lt; [lra|]. rewrite Em. apply Rdiv_lt_0_compat; lra. }
  assert (Hm1 : m <= tol / (5 * C)) by (unfold m; rewrite <- Em; apply Rmin_r).
  assert (Hm2 : m <= dt0) by apply Rmin_l.
  set (fuel := Z.to_nat (up (9 * C * maxStep / tol))). set (k := Z.to_nat (up ((tmax - t) / m))).
  assert (Q : 0 <= (tmax - t) / m) by (apply Rmult_le_pos; [lra|left; apply Rinv_0_lt_compat; exact Hm0]).
  destruct (archimed ((tmax - t) / m)) as [A1 A2].
  assert (Ek : INR k = IZR (up ((tmax - t) / m))). { unfold k. rewrite INR_IZR_INZ, Z2Nat.id; [reflexivity|]. apply le_IZR. lra. }
  assert (Hk : tmax - t <= INR k * m). { rewrite Ek. apply Rlt_le. apply Rle_lt_trans with ((tmax - t) / m * m); [right; field; lra|]. apply Rmult_lt_compat_r; lra. }
  assert (HN' : forall x, norm x = PInf \/ exists e, norm x = Fin e /\ 0 <= e).
  { intros x. right. assert (S : exists b, 0 <= b /\ size_le b x).
    { induction x as [|a x (b & H0 & Hb)]; [exists 0; split; [lra|constructor]|]. exists (Rmax (Rabs a) b). split; [eapply Rle_trans; [exact H0|apply Rmax_r]|]. constructor; [apply Rmax_l|]. eapply Forall_impl; [|exact Hb]. intros z Hz. eapply Rle_trans; [exact Hz|apply Rmax_r]. }
    destruct S as (b & H0 & Hb). destruct (HN x b H0 Hb) as (e & E & He & _). eauto. }
  destruct (evolve_ok F f norm tol maxStep C m Hf HL Ht ltac:(lra) HC
              (fun t y d H => deviation_bounded F norm B c HL ltac:(lra) HF HN t y d (proj1 H)) HN' Hm0 Hm1 ltac:(lra) passed HP fuel tmax k dt0 t y)
    as (ds & N1 & N2 & N3 & N4 & N5); [lra|apply (C51_bound tol C maxStep); lra|exact Hk|].
  exists (S fuel), (S k). do 2 eexists. split; [exact N2|]. split; [split; [exact N4|destruct N5 as [->|N5]; [cbn [fold_right] in *; lra|exact N5]]|].
  split; [rewrite S_INR, Ek; fold m; lra|].
  intros ys K M2 M3 HK0 H2 H3 HK HS HM ->. set (S := fold_right Rplus 0 ds) in *.
  assert (TT : t + S < tmax + maxStep) by (destruct N5 as [->|N5]; [unfold S in *; cbn [fold_right] in *; lra|exact N5]).
  assert (POS : Forall (fun d => 0 < d) ds) by (eapply Forall_impl; [|exact N3]; cbn; intros; lra).
  replace (t + S - t) with S by ring.
  eapply close_le; [|apply (fold_error F ys K M2 M3 HK0 H2 H3 HK ds t (at_time ys t) 0 POS ltac:(lra))].
  - fold S. assert (CB := cubes_bound maxStep ds). pose proof (A_pos K M2 M3 HK0 H2 H3) as HA. rewrite Rplus_0_l.
    set (A := M3 / 12 + K * M2 / 4) in *. set (s3 := fold_right Rplus 0 (map (fun d => d ^ 3) ds)) in *. fold S in CB.
    assert (X : s3 <= maxStep ^ 2 * S). { apply CB. eapply Forall_impl; [|exact N3]. cbn. intros; lra. }
    rewrite !Rmult_assoc. apply Rmult_le_compat_l; [left; apply exp_pos|]. replace (S * (A * (maxStep / 2) ^ 2)) with (A / 4 * (maxStep ^ 2 * S)) by field.
    apply Rmult_le_compat_l; [lra|exact X].
  - eapply solves_sub; [| |exact HS]; [lra|]. fold S. lra.
  - eapply smooth3_sub; [| |exact HM]; [lra|]. fold S. lra.
  - apply close_refl.
Qed.
Print Assumptions C91_evolve.

(** a rotor: angle t and its sine *)
Definition rotor (y : list R) (t : R) : list R := match y with [a; b] => [1; cos a] | _ => map (fun _ => 0) y end.
Example C91_evolve_case : exists fuel passes y' t',
  evolve (fun y t _ => rotor y t) (fun x => Fin (max_norm x)) (1/1000) (1/10) fuel (fun _ => 0) 1 passes (Fin (1/100)) 0 [0; 0] = Ok (y', t')
  /\ 1 <= t' < 11/10 /\ close (1/100) y' [t'; sin t'].
Proof.
  destruct (C91_evolve rotor (fun y t _ => rotor y t) (fun x => Fin (max_norm x)) (1/1000) (1/10) 1 1 (1/100) (fun _ => 0) 0 1 [0; 0]) as (fuel & k & y' & t' & E & T & _ & H); try lra.
  - reflexivity.
  - intros [|a [|b [|d y]]] t; cbn; now rewrite ?map_length.
  - intros [|a [|b [|d y]]] t; unfold size_le, rotor; try (apply Forall_forall; intros v Hv; apply in_map_iff in Hv as (? & <- & _); rewrite Rabs_R0; lra).
    constructor; [rewrite Rabs_R1; lra|]. constructor; [|constructor]. pose proof (COS_bound a). apply Rabs_le. lra.
  - exact max_norm_ok.
  - right. intros [|a [|b [|d y]]] s t; reflexivity.
  - exists fuel, k, y', t'. split; [exact E|]. split; [lra|].
    eapply close_le; [|apply (H [fun t => t; sin] 1 1 1)]; try lra.
    + assert (X1 : exp (1 * (t' - 0)) <= 3.5). { rewrite Rmult_1_l, Rminus_0_r. apply Rle_trans with (exp 1 * exp (1/10)).
        - rewrite <- exp_plus. destruct (Rle_lt_or_eq_dec t' (1 + 1/10)) as [L| ->]; [lra| |lra]. left. now apply exp_increasing.
        - assert (Y : exp (1/10) <= 7/6). { assert (Z : exp (1/10) <= / (1 - 1/10)). { rewrite <- (Rinv_inv (exp (1/10))). apply Rinv_le_contravar; [lra|]. rewrite <- exp_Ropp. pose proof (exp_ineq1_le (- (1/10))). lra. } lra. }
          pose proof exp_le_3. pose proof (exp_pos 1). pose proof (exp_pos (1/10)). nra. }
      pose proof (exp_pos (1 * (t' - 0))) as X0. set (x := exp (1 * (t' - 0))) in *.
      apply Rle_trans with (3.5 * 1.1 * (1 / 12 + 1 * 1 / 4) * (1 / 10 / 2) ^ 2); [|lra]. apply Rmult_le_compat_r; [lra|]. apply Rmult_le_compat_r; [lra|]. apply Rmult_le_compat; lra.
    + intros x y e s He HC. rewrite Rmult_1_l. unfold rotor.
      destruct HC as [|a b x y Hab HC]; [constructor|]. assert (Z : Rabs (0 - 0) <= e) by (rewrite Rminus_0_r, Rabs_R0; lra).
      destruct HC as [|a' b' x y Hab' HC]; [constructor; [exact Z|constructor]|]. destruct HC as [|a'' b'' x y Hab'' HC].
      * constructor; [replace (1 - 1) with 0 by ring; rewrite Rabs_R0; lra|]. constructor; [|constructor].
        destruct (MVT_abs cos (fun z => - sin z) b a) as (z & Ez & _); [intros; apply derivable_pt_lim_cos|]. rewrite Ez. pose proof (SIN_bound z).
        assert (Rabs (- sin z) <= 1) by (apply Rabs_le; lra). pose proof (Rabs_pos (a - b)). nra.
      * cbn [map]. constructor; [exact Z|]. constructor; [exact Z|]. constructor; [exact Z|]. clear -HC Z. induction HC; constructor; assumption.
    + intros s Hs. cbn. repeat constructor; [apply derivable_pt_lim_id|]. apply derivable_pt_lim_sin.
    + repeat constructor.
      * exists (fun _ => 1), (fun _ => 0), (fun _ => 0). intros s Hs. split; [apply derivable_pt_lim_id|]. split; [apply derivable_pt_lim_const|]. split; [apply derivable_pt_lim_const|]. rewrite Rabs_R0. lra.
      * exists cos, (fun t => - sin t), (fun t => - cos t). intros s Hs. split; [apply derivable_pt_lim_sin|]. split; [apply derivable_pt_lim_cos|].
        split; [apply derivable_pt_lim_opp, derivable_pt_lim_sin|]. pose proof (COS_bound s). pose proof (SIN_bound s). split; apply Rabs_le; lra.
    + cbn. now rewrite sin_0.
Qed.

(** the tolerance bounds the error of a step if halving the step reduces the error: by a factor of four for a method of second order and
    small steps, which makes it a third of the tolerance *)
Theorem C91_tolerance_partial F f (N : list R -> R) tol maxStep fuel dt0 t y y' dt next z theta :
  (forall y t k, f y t k = F y t) -> (forall y t, length (F y t) = length y) -> 0 < tol -> 0 < maxStep -> 0 < dt0 ->
  (forall x, 0 <= N x) -> (forall x y z, length x = length y -> length y = length z -> N (sub x z) <= N (sub x y) + N (sub y z)) -> (forall x y, N (sub x y) = N (sub y x)) ->
  adaptive_step f (fun x => Fin (N x)) tol maxStep fuel (Fin dt0) t y = Ok ((y', dt), next) -> length z = length y ->
  0 <= theta < 1 -> N (sub (heun_twice F t dt y) z) <= theta * N (sub (heun F t dt y) z) ->
  N (sub y' z) <= theta / (1 - theta) * tol.
Proof.
  intros Hf HL Ht Hm Hd HN HT HS E HZ Hth H.
  apply (C50_step_partial F) in E; try assumption; [|intros x; right; eexists; split; [reflexivity|apply HN]].
  destruct E as (-> & (e & Ee & He & _) & _). injection Ee as Ee. pose proof (heun_length F HL) as LH.
  assert (LT : length (heun_twice F t dt y) = length y) by (unfold heun_twice; now rewrite !LH).
  pose proof (HT (heun F t dt y) (heun_twice F t dt y) z ltac:(congruence) ltac:(congruence)) as Tr. rewrite (HS (heun F t dt y) (heun_twice F t dt y)), Ee in Tr.
  set (a := N (sub (heun_twice F t dt y) z)) in *. set (b := N (sub (heun F t dt y) z)) in *.
  apply Rmult_le_reg_l with (1 - theta); [lra|]. replace ((1 - theta) * (theta / (1 - theta) * tol)) with (theta * tol) by (field; lra). nra.
Qed.
Print Assumptions C91_tolerance_partial.

(** dy/dt = 3 t^2: two half steps have a quarter of the error *)
Lemma max_norm_nonneg x : 0 <= max_norm x.
Proof. induction x; cbn; [lra|]. eapply Rle_trans; [exact IHx|apply Rmax_r]. Qed.
Lemma max_norm_tri x : forall y z, length x = length y -> length y = length z -> max_norm (sub x z) <= max_norm (sub x y) + max_norm (sub y z).
Proof.
  unfold sub. induction x as [|a x IH]; intros [|b y] [|d z] L1 L2; try discriminate; cbn [add scale map max_norm fold_right]; [lra|].
  specialize (IH y z ltac:(cbn in *; lia) ltac:(cbn in *; lia)). fold (max_norm (add x (scale (-1) z))) (max_norm (add x (scale (-1) y))) (max_norm (add y (scale (-1) z))).
  unfold scale in *. fold (max_norm (add x (map (fun a => -1 * a) z))) (max_norm (add x (map (fun a => -1 * a) y))) (max_norm (add y (map (fun a => -1 * a) z))).
  apply Rmax_lub.
  - replace (a + -1 * d) with ((a + -1 * b) + (b + -1 * d)) by ring. eapply Rle_trans; [apply Rabs_triang|]. apply Rplus_le_compat; apply Rmax_l.
  - eapply Rle_trans; [exact IH|]. apply Rplus_le_compat; apply Rmax_r.
Qed.
Lemma max_norm_sym x : forall y, max_norm (sub x y) = max_norm (sub y x).
Proof.
  unfold sub. induction x as [|a x IH]; intros [|b y]; cbn [add scale map max_norm fold_right]; try reflexivity.
  unfold max_norm, scale in *. rewrite IH. f_equal. replace (b + -1 * a) with (- (a + -1 * b)) by ring. now rewrite Rabs_Ropp.
Qed.
Definition cubic (y : list R) (t : R) : list R := map (fun _ => 3 * t ^ 2) y.
Example C91_tolerance_case : exists y' dt next,
  adaptive_step (fun y t _ => cubic y t) (fun x => Fin (max_norm x)) 1 1 1 (Fin 1) 0 [0] = Ok ((y', dt), next) /\ dt = 1
  /\ max_norm (sub (heun_twice cubic 0 dt [0]) [dt ^ 3]) <= 1/4 * max_norm (sub (heun cubic 0 dt [0]) [dt ^ 3]) /\ 0 < max_norm (sub y' [dt ^ 3]) <= 1/3.
Proof.
  eexists _, _, _. split; [|split; [reflexivity|]].
  - cbn [adaptive_step adaptive_loop trial]. unfold cubic, max_norm, vadd, vscal, vsub. cbn [map vadd vscal vsub map2 combine fst snd fold_right max_norm].
    match goal with |- context [Rmax (Rabs ?x) 0] => replace x with (- (3 / 8)) by field end. rewrite Rabs_Ropp, (Rabs_right (3/8)) by lra. rewrite Rmax_left by lra. cbn [xdiv].
    destruct (Req_EM_T (3/8) 0); [lra|]. rewrite (proj2 (xlt_fin_false (1 / (3/8)) 1)) by lra. cbn [bind]. reflexivity.
  - unfold heun_twice, heun, sub, scale, cubic, vadd, vscal, max_norm. cbn [map add map2 combine fst snd max_norm fold_right].
    split.
    + match goal with |- Rmax (Rabs ?x) 0 <= 1/4 * Rmax (Rabs ?z) 0 => replace x with (1/8) by field; replace z with (1/2) by field end.
      rewrite !Rabs_right by lra. rewrite !Rmax_left by lra. lra.
    + match goal with |- 0 < Rmax (Rabs ?x) 0 <= _ => replace x with (1/8) by field end. rewrite Rabs_right by lra. rewrite Rmax_left by lra. lra.
Qed.

(** in general it does not: for every tolerance there is a smooth equation for which a step is accepted whose error is twice the tolerance *)
Lemma quintic_deriv a b c d e t : derivable_pt_lim (fun t => a * t + b * t ^ 2 + c * t ^ 3 + d * t ^ 4 + e * t ^ 5) t (a + 2 * b * t + 3 * c * t ^ 2 + 4 * d * t ^ 3 + 5 * e * t ^ 4).
Proof.
  apply (deriv_eq _ _ (a * 1 + b * (INR 2 * t ^ 1) + c * (INR 3 * t ^ 2) + d * (INR 4 * t ^ 3) + e * (INR 5 * t ^ 4))); [|cbn [INR]; ring].
  repeat apply (derivable_pt_lim_plus (fun _ => _) (fun _ => _)).
  - apply (derivable_pt_lim_scal (fun t => t)). apply derivable_pt_lim_id.
  - apply (derivable_pt_lim_scal (fun t => t ^ 2)). apply (derivable_pt_lim_pow t 2).
  - apply (derivable_pt_lim_scal (fun t => t ^ 3)). apply (derivable_pt_lim_pow t 3).
  - apply (derivable_pt_lim_scal (fun t => t ^ 4)). apply (derivable_pt_lim_pow t 4).
  - apply (derivable_pt_lim_scal (fun t => t ^ 5)). apply (derivable_pt_lim_pow t 5).
Qed.
Definition bump (tol t : R) : R := 60 * tol * (t * (1 - t) * (1 - 2 * t) ^ 2).
Definition bump_int (tol t : R) : R := 0 * t + 30 * tol * t ^ 2 + - (100 * tol) * t ^ 3 + 120 * tol * t ^ 4 + - (48 * tol) * t ^ 5.
Theorem C91_tolerance_refuted : forall tol, 0 < tol -> exists F ys K M2 M3 y' dt next,
  (forall y t, length (F y t) = length y) /\ lipschitz F K /\ solves F ys 0 1 /\ smooth3 ys 0 1 M2 M3
  /\ adaptive_step (fun y t _ => F y t) (fun x => Fin (max_norm x)) tol 1 1 (Fin 1) 0 (at_time ys 0) = Ok ((y', dt), next)
  /\ max_norm (sub y' (at_time ys dt)) = 2 * tol.
Proof.
  intros tol Ht. exists (fun y t => map (fun _ => bump tol t) y), [bump_int tol], 0, (60 * tol * 51), (60 * tol * 106).
  assert (B0 : bump tol 0 = 0) by (unfold bump; ring). assert (B1 : bump tol 1 = 0) by (unfold bump; ring). assert (B2 : bump tol (1/2) = 0) by (unfold bump; field).
  assert (D0 : forall t, derivable_pt_lim (bump_int tol) t (bump tol t)).
  { intros t. eapply deriv_eq; [apply quintic_deriv|]. unfold bump. ring. }
  eexists _, _, _. split; [intros; apply map_length|]. split.
  { intros x y e s He HC. rewrite Rmult_0_l. induction HC; constructor; [|assumption]. replace (bump tol s - bump tol s) with 0 by ring. rewrite Rabs_R0. lra. }
  split; [intros s _; cbn; constructor; [apply D0|constructor]|]. split.
  { constructor; [|constructor]. exists (bump tol), (fun t => 60 * tol * (1 - 10 * t + 24 * t ^ 2 - 16 * t ^ 3)), (fun t => 60 * tol * (- 10 + 48 * t - 48 * t ^ 2)).
    intros s Hs. split; [apply D0|]. assert (P2 : 0 <= s ^ 2 <= 1) by (cbn; nra). assert (P3 : 0 <= s ^ 3 <= 1) by (replace (s ^ 3) with (s * s ^ 2) by (cbn; ring); nra).
    split; [|split; [|split]].
    - apply (deriv_ext (fun t => 60 * tol * t + - (300 * tol) * t ^ 2 + 480 * tol * t ^ 3 + - (240 * tol) * t ^ 4 + 0 * t ^ 5)); [intros; unfold bump; ring|].
      eapply deriv_eq; [apply quintic_deriv|ring].
    - apply (deriv_ext (fun t => 60 * tol + (- (600 * tol) * t + 1440 * tol * t ^ 2 + - (960 * tol) * t ^ 3 + 0 * t ^ 4 + 0 * t ^ 5))); [intros; ring|].
      eapply deriv_eq; [apply (derivable_pt_lim_plus (fun _ => _) (fun _ => _)); [apply derivable_pt_lim_const|apply quintic_deriv]|ring].
    - rewrite Rabs_mult, (Rabs_right (60 * tol)) by lra. apply Rmult_le_compat_l; [lra|]. apply Rabs_le. lra.
    - rewrite Rabs_mult, (Rabs_right (60 * tol)) by lra. apply Rmult_le_compat_l; [lra|]. apply Rabs_le. lra. }
  split.
  - cbn [adaptive_step adaptive_loop trial]. unfold at_time, max_norm, vadd, vscal, vsub. cbn [map vadd vscal vsub map2 combine fst snd fold_right max_norm].
    replace (0 + 1) with 1 by ring. replace (0 + 1 / 2 * 1) with (1/2) by field. rewrite B0, B1, B2.
    match goal with |- context [Rmax (Rabs ?x) 0] => replace x with 0 by field end. rewrite Rabs_R0, Rmax_left by lra. cbn [xdiv].
    destruct (Req_EM_T 0 0); [|lra]. destruct (Rlt_dec 0 tol) as [_|NL]; [|exfalso; exact (NL Ht)]. cbn [xlt bind]. reflexivity.
  - unfold sub, vadd, vscal, at_time, scale, max_norm. cbn [map map2 add combine fst snd max_norm fold_right].
    match goal with |- Rmax (Rabs ?x) 0 = _ => replace x with (- (2 * tol)) by (unfold bump_int; field) end. rewrite Rabs_Ropp, Rabs_right by lra. apply Rmax_left. lra.
Qed.
Print Assumptions C91_tolerance_refuted.
