(** Lemmas about runs of the adaptive integrator. *)
From Coq Require Import List Reals Lra Lia Bool.
From Verif Require Import Base Stats_Model Vqs_Proofs Stepper_Model Stepper_Spec Stepper_Proofs Stepper_Props AdErr_Model.
Import ListNotations.
Local Open Scope R_scope.

(** ** accumulated error *)
Lemma heun_is F t h y : heun F t h y = fst (heun_step h None (fun y t _ => F y t) t y).
Proof. unfold heun, heun_step. cbn [fst]. rewrite !vadd_add. change vscal with scale. rewrite (scale_ext (1 / 2 * h) (h / 2)) by lra. reflexivity. Qed.
Lemma heun_lip F K t h x y e : 0 <= h -> 0 <= K -> lipschitz F K -> 0 <= e -> close e x y -> close (exp (K * h) * e) (heun F t h x) (heun F t h y).
Proof.
  intros Hd HK0 HK He HC. rewrite !heun_is. unfold heun_step. cbn [fst].
  assert (C0 : close (K * e) (F x t) (F y t)) by (apply HK; assumption).
  assert (CM : close (e + h * (K * e)) (vadd x (vscal h (F x t))) (vadd y (vscal h (F y t)))) by (apply close_vadd; [exact HC|apply close_vscal; [exact Hd|exact C0]]).
  assert (C1 : close (K * (e + h * (K * e))) (F (vadd x (vscal h (F x t))) (t + h)) (F (vadd y (vscal h (F y t))) (t + h))).
  { apply HK; [|exact CM]. assert (0 <= K * e) by nra. nra. }
  eapply close_le; [|apply close_vadd; [exact HC|apply close_vscal; [lra|apply close_vadd; [exact C0|exact C1]]]].
  pose proof (exp_ge_2 (K * h) ltac:(nra)) as X. apply Rle_trans with ((1 + K * h + (K * h) ^ 2 / 2) * e); [right; field|]. apply Rmult_le_compat_r; assumption.
Qed.
Lemma solves_sub F ys a b a' b' : a <= a' -> b' <= b -> solves F ys a b -> solves F ys a' b'.
Proof. intros H1 H2 H s Hs. apply H. lra. Qed.
Lemma smooth3_sub ys a b a' b' M2 M3 : a <= a' -> b' <= b -> smooth3 ys a b M2 M3 -> smooth3 ys a' b' M2 M3.
Proof. intros H1 H2 H. eapply Forall_impl; [|exact H]. intros y (y1 & y2 & y3 & HY). exists y1, y2, y3. intros s Hs. apply HY. lra. Qed.

Section Error.
Variables (F : list R -> R -> list R) (ys : list (R -> R)) (K M2 M3 : R).
Hypotheses (HK0 : 0 <= K) (H2 : 0 <= M2) (H3 : 0 <= M3) (HK : lipschitz F K).
Notation A := (M3 / 12 + K * M2 / 4).
Lemma heun_step_error t h y e : 0 <= h -> 0 <= e -> solves F ys t (t + h) -> smooth3 ys t (t + h) M2 M3 ->
  close e y (at_time ys t) -> close (exp (K * h) * e + A * h ^ 3) (heun F t h y) (at_time ys (t + h)).
Proof.
  intros Hh He HS HM HC. eapply close_trans; [apply heun_lip; [exact Hh|exact HK0|exact HK|exact He|exact HC]|].
  rewrite heun_is. apply (C49_heun F (fun y t _ => F y t) ys h None); auto.
Qed.
Lemma A_pos : 0 <= A. Proof. assert (0 <= K * M2) by nra. lra. Qed.
Lemma twice_error t h y e : 0 <= h -> 0 <= e -> solves F ys t (t + h) -> smooth3 ys t (t + h) M2 M3 ->
  close e y (at_time ys t) -> close (exp (K * h) * (e + A * h ^ 3 / 4)) (heun_twice F t h y) (at_time ys (t + h)).
Proof.
  intros Hh He HS HM HC. unfold heun_twice. set (c := A * (h / 2) ^ 3). assert (Hc : 0 <= c). { unfold c. apply Rmult_le_pos; [exact A_pos|apply pow_le; lra]. }
  assert (P1 : close (exp (K * (h / 2)) * e + c) (heun F t (h / 2) y) (at_time ys (t + h / 2))).
  { apply heun_step_error; [lra|exact He| | |exact HC]; [apply (solves_sub F ys t (t + h)); [lra|lra|exact HS]|apply (smooth3_sub ys t (t + h)); [lra|lra|exact HM]]. }
  pose proof (exp_pos (K * (h / 2))) as EP. pose proof (exp_ge_1 (K * (h / 2)) ltac:(nra)) as EG. assert (E1 : 1 <= exp (K * (h / 2))) by nra.
  assert (P2 : close (exp (K * (h / 2)) * (exp (K * (h / 2)) * e + c) + c) (heun F (t + h / 2) (h / 2) (heun F t (h / 2) y)) (at_time ys (t + h / 2 + h / 2))).
  { apply heun_step_error; [lra|nra| | |exact P1]; [apply (solves_sub F ys t (t + h)); [lra|lra|exact HS]|apply (smooth3_sub ys t (t + h)); [lra|lra|exact HM]]. }
  replace (t + h / 2 + h / 2) with (t + h) in P2 by field. eapply close_le; [|exact P2].
  replace (K * h) with (K * (h / 2) + K * (h / 2)) by field. rewrite exp_plus. replace (A * h ^ 3 / 4) with (c + c) by (unfold c; cbn; field).
  set (x := exp (K * (h / 2))) in *. assert (x * c <= x * x * c) by (apply Rmult_le_compat_r; nra). assert (c <= x * x * c) by nra. nra.
Qed.
Lemma rsum_pos l : Forall (fun d => 0 < d) l -> 0 <= fold_right Rplus 0 l.
Proof. induction 1; cbn; lra. Qed.
Lemma fold_error ds : forall t y e, Forall (fun d => 0 < d) ds -> 0 <= e ->
  solves F ys t (t + fold_right Rplus 0 ds) -> smooth3 ys t (t + fold_right Rplus 0 ds) M2 M3 -> close e y (at_time ys t) ->
  close (exp (K * fold_right Rplus 0 ds) * (e + A / 4 * fold_right Rplus 0 (map (fun d => d ^ 3) ds)))
    (snd (fold_left (fun s d => (fst s + d, heun_twice F (fst s) d (snd s))) ds (t, y))) (at_time ys (t + fold_right Rplus 0 ds)).
Proof.
  induction ds as [|d ds IH]; intros t y e HP He HS HM HC; cbn [fold_left fold_right map snd fst].
  - rewrite Rmult_0_r, exp_0, Rmult_1_l, Rmult_0_r, !Rplus_0_r. exact HC.
  - inversion HP as [|? ? Hd HP']; subst. pose proof (rsum_pos ds HP') as HSum. cbn [fold_right] in HS, HM.
    assert (HA := A_pos). assert (D3 : 0 <= d ^ 3) by (apply pow_le; lra).
    assert (P1 : close (exp (K * d) * (e + A * d ^ 3 / 4)) (heun_twice F t d y) (at_time ys (t + d))).
    { apply twice_error; [lra|exact He| | |exact HC]; [eapply solves_sub; [| |exact HS]; lra|eapply smooth3_sub; [| |exact HM]; lra]. }
    assert (Q : 0 <= e + A * d ^ 3 / 4) by nra. pose proof (exp_pos (K * d)) as EP. pose proof (exp_ge_1 (K * d) ltac:(nra)) as EG.
    apply IH in P1; [|exact HP'|nra| |].
    + replace (t + d + fold_right Rplus 0 ds) with (t + (d + fold_right Rplus 0 ds)) in P1 by ring. eapply close_le; [|exact P1].
      replace (K * (d + fold_right Rplus 0 ds)) with (K * d + K * fold_right Rplus 0 ds) by ring. rewrite exp_plus. set (s3 := fold_right Rplus 0 (map (fun d => d ^ 3) ds)).
      assert (S3 : 0 <= s3). { unfold s3. clear -HP'. induction HP' as [|a l Ha _ IHl]; cbn [map fold_right]; [lra|]. assert (0 <= a ^ 3) by (apply pow_le; lra). lra. }
      set (E2 := exp (K * fold_right Rplus 0 ds)). assert (0 < E2) by apply exp_pos.
      replace (exp (K * d) * E2 * (e + A / 4 * (d ^ 3 + s3))) with (E2 * (exp (K * d) * (e + A * d ^ 3 / 4) + exp (K * d) * (A / 4 * s3))) by field.
      apply Rmult_le_compat_l; [lra|]. assert (W : 0 <= A / 4 * s3) by nra. assert (X1 : 1 <= exp (K * d)) by nra. pose proof (Rmult_le_compat_r _ _ _ W X1). lra.
    + eapply solves_sub; [| |exact HS]; lra.
    + eapply smooth3_sub; [| |exact HM]; lra.
Qed.
End Error.
Lemma cubes_bound h ds : Forall (fun d => 0 < d <= h) ds -> fold_right Rplus 0 (map (fun d => d ^ 3) ds) <= h ^ 2 * fold_right Rplus 0 ds.
Proof.
  induction 1 as [|d ds Hd _ IH]; cbn [map fold_right]; [lra|]. replace (d ^ 3) with (d ^ 2 * d) by (cbn; ring).
  assert (d ^ 2 <= h ^ 2) by (apply pow_incr; lra). nra.
Qed.

(** ** step sizes do not collapse *)
Lemma Rpower_2 : 10 / 9 <= Rpower 2 (33333 / 100000).
Proof.
  apply Rle_trans with (Rpower 2 (/ 4)); [|apply Rle_Rpower; lra].
  assert (E : Rpower ((10 / 9) ^ 4) (/ 4) = 10 / 9).
  { rewrite <- Rpower_pow by lra. rewrite Rpower_mult. replace (INR 4 * / 4) with 1 by (cbn; field). apply Rpower_1. lra. }
  rewrite <- E at 1. apply Rle_Rpower_l; [lra|]. cbn. lra.
Qed.
Lemma factor_small e tol : 0 < tol -> 0 <= e <= tol / 2 -> 1 <= (if Req_EM_T e 0 then 2 else Rmin 2 (9/10 * Rpower (tol / e) (33333/100000))).
Proof.
  intros Ht He. destruct (Req_EM_T e 0) as [|N]; [lra|]. apply Rmin_glb; [lra|].
  assert (2 <= tol / e). { apply Rmult_le_reg_r with e; [lra|]. unfold Rdiv. rewrite Rmult_assoc, Rinv_l by assumption. lra. }
  assert (Rpower 2 (33333 / 100000) <= Rpower (tol / e) (33333 / 100000)) by (apply Rle_Rpower_l; lra). pose proof Rpower_2. lra.
Qed.
Lemma factor_large e tol : 0 < tol -> 0 <= e <= tol -> 9/10 <= (if Req_EM_T e 0 then 2 else Rmin 2 (9/10 * Rpower (tol / e) (33333/100000))).
Proof.
  intros Ht He. destruct (Req_EM_T e 0) as [|N]; [lra|]. apply Rmin_glb; [lra|].
  assert (1 <= tol / e). { apply Rmult_le_reg_r with e; [lra|]. unfold Rdiv. rewrite Rmult_assoc, Rinv_l by assumption. lra. }
  pose proof (Rpower_ge1 (tol / e) (33333/100000) ltac:(assumption) ltac:(lra)). lra.
Qed.

Section Lower.
Variables (F : list R -> R -> list R) (f : rhs) (norm : list R -> xreal) (tol maxStep C m : R).
Hypotheses (Hf : forall y t k, f y t k = F y t) (HL : forall y t, length (F y t) = length y) (Ht : 0 < tol) (Hmx : 0 < maxStep) (HC : 0 < C).
Hypothesis (HD : forall t y d, 0 < d <= maxStep -> exists e, norm (sub (heun_twice F t d y) (heun F t d y)) = Fin e /\ 0 <= e <= C * d).
Hypothesis (HN : forall x, norm x = PInf \/ exists e, norm x = Fin e /\ 0 <= e).
Hypotheses (Hm0 : 0 < m) (Hm : m <= tol / (5 * C)) (Hmm : m <= maxStep).
Lemma m_tol : 5 * (C * m) <= tol.
Proof. apply Rmult_le_compat_l with (r := 5 * C) in Hm; [|lra]. replace (5 * C * (tol / (5 * C))) with tol in Hm by (field; lra). lra. Qed.
Lemma loop_lower fuel : forall t y dt0 y' dt next, m <= dt0 <= maxStep ->
  adaptive_loop f norm tol maxStep fuel t y dt0 = Ok (y', dt, next) -> m <= dt /\ exists d, next = Fin d /\ m <= d <= maxStep.
Proof.
  induction fuel as [|fuel IH]; intros t y dt0 y' dt next Hd H; [discriminate|]. cbn [adaptive_loop] in H.
  pose proof (trial_diff F f norm tol maxStep Hf t y dt0 HL) as TD. pose proof (trial_next f norm tol maxStep t y dt0) as TN. cbv zeta in TN.
  pose proof (trial_accept f norm tol maxStep t y dt0 _ ltac:(lra) Ht Hmx (HN _) TD) as ACC.
  destruct (HD t y dt0 ltac:(lra)) as (e & Ee & He). rewrite Ee in TD.
  destruct (trial f norm tol maxStep t y dt0) as [[dy1 fe] dt'] eqn:ET. cbn [fst snd] in *. pose proof m_tol as MT.
  destruct (xlt fe (Fin 1)) eqn:EX.
  - assert (N : e <> 0). { intros ->. rewrite TD in EX. cbn [xdiv] in EX. destruct (Req_EM_T 0 0); [|lra]. destruct (Rlt_dec 0 tol); [discriminate|lra]. }
    assert (X : tol / e < 1). { rewrite TD in EX. cbn [xdiv] in EX. destruct (Req_EM_T e 0); [lra|]. now apply xlt_fin in EX. }
    assert (TE : tol < e). { apply Rmult_lt_compat_r with (r := e) in X; [|lra]. unfold Rdiv in X. rewrite Rmult_assoc, Rinv_l in X by assumption. lra. }
    rewrite TD in TN. cbn [xdiv] in TN. destruct (Req_EM_T e 0); [lra|].
    assert (X0 : 0 <= tol / e < 1). { split; [|exact X]. apply Rlt_le, Rdiv_lt_0_compat; lra. }
    destruct (factor_reject _ X0) as (c & Ec & Hc). rewrite Ec in TN. cbn [xscal] in TN. rewrite clamp_min in TN. subst dt'.
    apply IH in H; [exact H|]. split; [|apply Rmin_l]. apply Rmin_glb; [exact Hmm|]. assert (tol < C * dt0) by lra. assert (5 * m <= dt0) by nra. nra.
  - injection H as <- <- <-. split; [lra|]. destruct (ACC eq_refl) as (e' & E1 & E2 & E3). rewrite Ee in E1. injection E1 as <-.
    eexists. split; [exact E3|]. split; [|apply Rmin_l]. apply Rmin_glb; [exact Hmm|]. destruct (Rle_dec e (tol / 2)) as [S|S].
    + pose proof (factor_small e tol Ht ltac:(lra)) as G. revert G. match goal with |- 1 <= ?w -> _ => generalize w end. intros w Hw. nra.
    + pose proof (factor_large e tol Ht ltac:(lra)) as G. revert G. match goal with |- 9/10 <= ?w -> _ => generalize w end. intros w Hw.
      assert (tol < 2 * (C * dt0)) by lra. assert (5 * m <= 2 * dt0) by nra. nra.
Qed.
Variable passed : R -> R.
Hypothesis (HP : (forall t, passed t = t) \/ forall y s t, F y s = F y t).
Lemma twice_passed t h y : heun_twice F (passed t) h y = heun_twice F t h y.
Proof.
  destruct HP as [E|E]; [now rewrite E|]. unfold heun_twice, heun.
  rewrite !(E _ (passed t) t), !(E _ (passed t + h / 2) (t + h / 2)), !(E _ (passed t + h / 2 + h / 2) (t + h / 2 + h / 2)). reflexivity.
Qed.
Notation path t y ds := (snd (fold_left (fun s d => (fst s + d, heun_twice F (fst s) d (snd s))) ds (t, y))).
Notation total ds := (fold_right Rplus 0 ds).
Lemma evolve_ok fuel T k : forall dt0 t y, m <= dt0 <= maxStep -> C * maxStep * (9/10) ^ fuel <= tol -> T - t <= INR k * m ->
  exists ds, (length ds <= k)%nat /\ evolve f norm tol maxStep (S fuel) passed T (S k) (Fin dt0) t y = Ok (path t y ds, t + total ds)
    /\ Forall (fun d => m <= d <= maxStep) ds /\ T <= t + total ds /\ (ds = [] \/ t + total ds < T + maxStep).
Proof.
  induction k as [|k IH]; intros dt0 t y Hd Hfu Hk; cbn [evolve]; destruct (Rlt_dec t T) as [L|L].
  - cbn [INR] in Hk. lra.
  - exists []. cbn [fold_left fold_right snd]. rewrite Rplus_0_r. split; [cbn; lia|]. split; [reflexivity|]. split; [constructor|]. split; [lra|now left].
  - assert (P : 0 < (9/10) ^ fuel) by (apply pow_lt; lra).
    destruct (loop_terminates F f norm tol maxStep Hf HL Ht Hmx HN C (passed t) y fuel dt0) as ([[p q] nx] & E); [lra|lra| | |].
    + intros d Hdd. apply HD. lra.
    + apply Rle_trans with (2 := Hfu). apply Rmult_le_compat_r; [lra|]. apply Rmult_le_compat_l; lra.
    + destruct (loop_lower (S fuel) (passed t) y dt0 p q nx Hd E) as (L1 & d & -> & L2).
      destruct (loop_ok F f norm tol maxStep Hf HL Ht Hmx HN (S fuel) (passed t) y dt0 p q (Fin d) ltac:(lra) E) as (Ep & _ & _ & LQ). rewrite twice_passed in Ep.
      assert (L3 : q <= maxStep) by (destruct LQ as [->|(_ & Q & _)]; lra).
      rewrite S_INR in Hk. destruct (IH d (t + q) p L2 Hfu ltac:(lra)) as (ds & N & R1 & R2 & R3 & R4).
      exists (q :: ds). split; [cbn [length]; lia|]. cbn [adaptive_step]. rewrite E. cbn [bind fst snd]. change (evolve f norm tol maxStep (S fuel) passed T (S k) (Fin d) (t + q) p = Ok (path (t + q) p ds, t + q + total ds)) in R1.
      cbn [fold_left fold_right fst snd]. rewrite <- Ep, <- Rplus_assoc. split; [exact R1|]. split; [constructor; [lra|exact R2]|]. split; [exact R3|]. right.
      destruct R4 as [->|R4]; [cbn [fold_right]; lra|exact R4].
  - exists []. cbn [fold_left fold_right snd]. rewrite Rplus_0_r. split; [cbn; lia|]. split; [reflexivity|]. split; [constructor|]. split; [lra|now left].
Qed.
End Lower.
(** deviation of two half steps for a bounded right hand side *)
Lemma deviation_bounded F norm B c : (forall y t, length (F y t) = length y) -> 0 <= B ->
  (forall y t, size_le B (F y t)) -> (forall x b, 0 <= b -> size_le b x -> exists e, norm x = Fin e /\ 0 <= e <= c * b) ->
  forall t y d, 0 < d -> exists e, norm (sub (heun_twice F t d y) (heun F t d y)) = Fin e /\ 0 <= e <= 2 * c * B * d.
Proof.
  intros HL HB HF HN t y d Hd. destruct (HN (sub (heun_twice F t d y) (heun F t d y)) (2 * (B * d))) as (e & E & He).
  - nra.
  - assert (S1 : size_le (d / 2 * (B + B)) (scale (d / 2) (add (F y t) (F (add y (scale d (F y t))) (t + d))))).
    { replace (d / 2) with (Rabs (d / 2)) at 1 by (apply Rabs_right; lra). apply size_scale, size_add; apply HF. }
    assert (S2 : forall s z, size_le (d / 4 * (B + B)) (scale (d / 2 / 2) (add (F z s) (F (add z (scale (d / 2) (F z s))) (s + d / 2))))).
    { intros s z. replace (d / 4) with (Rabs (d / 2 / 2)) by (rewrite Rabs_right; lra). apply size_scale, size_add; apply HF. }
    unfold heun_twice. set (h1 := heun F t (d / 2) y). unfold heun at 1. unfold h1 at 1. unfold heun at 1 2. rewrite <- add_assoc.
    rewrite sub_cancel.
    + unfold sub. replace (2 * (B * d)) with ((d / 4 * (B + B) + d / 4 * (B + B)) + Rabs (-1) * (d / 2 * (B + B))) by (rewrite Rabs_left by lra; field).
      apply size_add; [apply size_add; apply S2|apply size_scale, S1].
    + unfold h1, heun. len.
    + len.
  - exists e. split; [exact E|lra].
Qed.
