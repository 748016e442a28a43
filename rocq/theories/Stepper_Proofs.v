(** Lemmas about the integrators. *)
From Coq Require Import List Reals Lra Lia Bool.
From Verif Require Import Base Stats_Model Vqs_Proofs Stepper_Model Stepper_Spec.
Import ListNotations.
Local Open Scope R_scope.

(** ** arrays *)
Lemma vadd_add x : forall y, vadd x y = add x y.
Proof. induction x as [|a x IH]; intros [|b y]; try reflexivity. unfold vadd in *. rewrite map2_cons. cbn [add]. now rewrite IH. Qed.
Lemma vscal_scale c x : vscal c x = scale c x.
Proof. reflexivity. Qed.
Lemma vsub_sub x : forall y, vsub x y = sub x y.
Proof. induction x as [|a x IH]; intros [|b y]; try reflexivity. unfold vsub, sub in *. rewrite map2_cons. cbn [scale map add]. f_equal; [lra|apply IH]. Qed.
Lemma add_assoc x : forall y z, add x (add y z) = add (add x y) z.
Proof. induction x as [|a x IH]; intros [|b y] [|c z]; try reflexivity. cbn [add]. rewrite IH. f_equal. lra. Qed.
Lemma add_length x : forall y, length x = length y -> length (add x y) = length y.
Proof. induction x as [|a x IH]; intros [|b y] H; try discriminate; try reflexivity. cbn in *. rewrite IH; lia. Qed.
Lemma scale_length c x : length (scale c x) = length x.
Proof. apply map_length. Qed.
Lemma half_back x : forall k dt, sub (add x (scale dt k)) (scale (1/2 * dt) k) = add x (scale (dt / 2) k).
Proof. unfold sub. induction x as [|a x IH]; intros [|b k] dt; try reflexivity. cbn [add scale map]. f_equal; [lra|]. apply IH. Qed.
Lemma scale_ext c c' x : c = c' -> scale c x = scale c' x.
Proof. now intros ->. Qed.
Lemma sub_cancel x : forall y z, length x = length y -> length x = length z -> sub (add x y) (add x z) = sub y z.
Proof. unfold sub. induction x as [|a x IH]; intros [|b y] [|c z] H1 H2; try discriminate; try reflexivity. cbn [add scale map]. f_equal; [lra|]. apply IH; cbn in *; lia. Qed.

Ltac len := repeat (rewrite ?scale_length, ?map_length; first [reflexivity | rewrite add_length | match goal with H : forall y t, length (_ y t) = length y |- _ => rewrite H end]).
Section Trial.
  Variables (F : list R -> R -> list R) (f : rhs) (norm : list R -> xreal) (tol maxStep : R).
  Hypothesis (Hf : forall y t k, f y t k = F y t).
  (** increment computed with two half steps *)
  Definition incr (t : R) (y : list R) (dt : R) : list R := fst (fst (trial f norm tol maxStep t y dt)).
  Lemma incr_twice t y dt : vadd y (incr t y dt) = heun_twice F t dt y.
  Proof.
    unfold incr, trial. cbn [fst]. rewrite !Hf. rewrite !vadd_add, !vscal_scale, !vsub_sub. rewrite half_back.
    unfold heun_twice, heun.
    replace (t + dt / 2) with (t + 1/2 * dt) by lra. replace (t + 1/2 * dt + dt / 2) with (t + dt) by lra.
    rewrite !(scale_ext (1/4 * dt) (dt / 2 / 2)) by lra. rewrite !(scale_ext (1/2 * dt) (dt / 2)) by lra.
    rewrite add_assoc. reflexivity.
  Qed.
  Lemma heun_length : (forall y t, length (F y t) = length y) -> forall t h y, length (heun F t h y) = length y.
  Proof.
    intros HL t h y. unfold heun. len.
  Qed.
  Lemma trial_diff t y dt : (forall y t, length (F y t) = length y) ->
    snd (fst (trial f norm tol maxStep t y dt)) = xdiv tol (norm (sub (heun_twice F t dt y) (heun F t dt y))).
  Proof.
    intros HL.
    transitivity (xdiv tol (norm (vsub (incr t y dt) (vscal (1/2 * dt) (vadd (f y t 0%nat) (f (vadd y (vscal dt (f y t 0%nat))) (t + dt) 1%nat)))))); [reflexivity|].
    rewrite <- incr_twice. unfold heun. rewrite vsub_sub, !Hf, !vadd_add, !vscal_scale. rewrite sub_cancel.
    - rewrite (scale_ext (1/2 * dt) (dt / 2)) by lra. reflexivity.
    - unfold incr, trial. cbn [fst]. rewrite !Hf, !vadd_add, !vscal_scale, !vsub_sub, half_back. len.
    - len.
  Qed.
End Trial.

(** ** the step size controller *)
Lemma Rpower_lt1 x a : 0 < x < 1 -> 0 < a -> Rpower x a < 1.
Proof.
  intros [H0 H1] Ha. unfold Rpower. rewrite <- exp_0. apply exp_increasing.
  assert (ln x < 0) by (rewrite <- ln_1; apply ln_increasing; lra). nra.
Qed.
Lemma Rpower_ge1 x a : 1 <= x -> 0 < a -> 1 <= Rpower x a.
Proof.
  intros H1 Ha. unfold Rpower. rewrite <- exp_0. assert (G : 0 <= a * ln x).
  { assert (0 <= ln x) by (rewrite <- ln_1; destruct H1 as [H1| <-]; [left; apply ln_increasing; lra|lra]). nra. }
  destruct G as [G|G]; [left; now apply exp_increasing|rewrite <- G; lra].
Qed.
Lemma xlt_fin a b : xlt (Fin a) (Fin b) = true <-> a < b.
Proof. cbn. destruct (Rlt_dec a b); split; auto; discriminate. Qed.
Lemma xlt_fin_false a b : xlt (Fin a) (Fin b) = false <-> b <= a.
Proof. cbn. destruct (Rlt_dec a b); split; intros; try discriminate; try lra; reflexivity. Qed.

(** the factor after a rejection *)
Lemma factor_reject x : 0 <= x < 1 -> exists c, step_factor (Fin x) = Fin c /\ 1/5 <= c < 9/10.
Proof.
  intros H. unfold step_factor. cbn [xpow_third]. destruct (Rlt_dec 0 x) as [H0|H0].
  - pose proof (Rpower_lt1 x (33333/100000) ltac:(lra) ltac:(lra)) as P. cbn [xscal]. set (p := 9/10 * Rpower x (33333/100000)) in *.
    assert (Hp : p < 9/10) by (unfold p; lra). destruct (xlt (Fin p) (Fin (1/5))) eqn:E.
    + rewrite (proj2 (xlt_fin_false 2 (1/5))) by lra. exists (1/5). split; [reflexivity|lra].
    + apply xlt_fin_false in E. rewrite (proj2 (xlt_fin_false 2 p)) by lra. exists p. split; [reflexivity|lra].
  - destruct (Rlt_dec x 0); [lra|]. cbn [xscal]. rewrite (proj2 (xlt_fin (9/10*0) (1/5))) by lra. rewrite (proj2 (xlt_fin_false 2 (1/5))) by lra.
    exists (1/5). split; [reflexivity|lra].
Qed.
(** the factor after an accepted step *)
Lemma factor_accept x : 1 <= x -> exists c, step_factor (Fin x) = Fin c /\ 9/10 <= c <= 2 /\ c = Rmin 2 (9/10 * Rpower x (33333/100000)).
Proof.
  intros H. unfold step_factor. cbn [xpow_third]. destruct (Rlt_dec 0 x) as [H0|H0]; [|lra].
  pose proof (Rpower_ge1 x (33333/100000) ltac:(lra) ltac:(lra)) as P. cbn [xscal]. set (p := 9/10 * Rpower x (33333/100000)) in *.
  assert (Hp : 9/10 <= p) by (unfold p; lra). rewrite (proj2 (xlt_fin_false p (1/5))) by lra.
  destruct (xlt (Fin 2) (Fin p)) eqn:E.
  - apply xlt_fin in E. exists 2. split; [reflexivity|]. rewrite Rmin_left; lra.
  - apply xlt_fin_false in E. exists p. split; [reflexivity|]. rewrite Rmin_right; lra.
Qed.
Lemma factor_inf : step_factor PInf = Fin 2.
Proof. reflexivity. Qed.

(** ** one pass *)
Section Pass.
  Variables (f : rhs) (norm : list R -> xreal) (tol maxStep : R).
  Lemma trial_next t y dt : snd (trial f norm tol maxStep t y dt)
    = let dt' := xscal dt (step_factor (snd (fst (trial f norm tol maxStep t y dt)))) in if xlt (Fin maxStep) dt' then Fin maxStep else dt'.
  Proof. reflexivity. Qed.
  Lemma clamp_min d : (if xlt (Fin maxStep) (Fin d) then Fin maxStep else Fin d) = Fin (Rmin maxStep d).
  Proof.
    destruct (xlt (Fin maxStep) (Fin d)) eqn:E.
    - apply xlt_fin in E. rewrite Rmin_left; [reflexivity|lra].
    - apply xlt_fin_false in E. rewrite Rmin_right; [reflexivity|lra].
  Qed.
  (** rejection *)
  Lemma trial_reject t y dt : 0 < dt -> 0 < tol -> 0 < maxStep ->
    (forall x, norm x = PInf \/ exists e, norm x = Fin e /\ 0 <= e) ->
    xlt (snd (fst (trial f norm tol maxStep t y dt))) (Fin 1) = true ->
    exists d, snd (trial f norm tol maxStep t y dt) = Fin d /\ 0 < d < 9/10 * dt /\ d <= maxStep.
  Proof.
    intros Hd Ht Hm HN HX. rewrite trial_next. cbv zeta.
    assert (K : exists x, snd (fst (trial f norm tol maxStep t y dt)) = Fin x /\ 0 <= x < 1).
    { revert HX. unfold trial at 1 2. cbn [fst snd]. match goal with |- context [norm ?v] => destruct (HN v) as [->|(e & -> & He)] end; cbn [xdiv].
      - intros _. exists 0. split; [reflexivity|lra].
      - destruct (Req_EM_T e 0) as [->|Ne].
        + destruct (Rlt_dec 0 tol); [discriminate|lra].
        + intros HX. apply xlt_fin in HX. exists (tol / e). split; [reflexivity|]. split; [|exact HX]. apply Rlt_le. apply Rdiv_lt_0_compat; lra. }
    destruct K as (x & -> & Hx). destruct (factor_reject x Hx) as (c & -> & Hc). cbn [xscal]. rewrite clamp_min.
    exists (Rmin maxStep (dt * c)). split; [reflexivity|]. split; [|apply Rmin_l]. split.
    - apply Rmin_glb_lt; nra.
    - apply Rle_lt_trans with (dt * c); [apply Rmin_r|nra].
  Qed.
  (** acceptance *)
  Lemma trial_accept t y dt v : 0 < dt -> 0 < tol -> 0 < maxStep ->
    (norm v = PInf \/ exists e, norm v = Fin e /\ 0 <= e) ->
    snd (fst (trial f norm tol maxStep t y dt)) = xdiv tol (norm v) ->
    xlt (snd (fst (trial f norm tol maxStep t y dt))) (Fin 1) = false ->
    exists e, norm v = Fin e /\ 0 <= e <= tol /\
    snd (trial f norm tol maxStep t y dt) = Fin (Rmin maxStep (dt * (if Req_EM_T e 0 then 2 else Rmin 2 (9/10 * Rpower (tol / e) (33333/100000))))).
  Proof.
    intros Hd Ht Hm HN HE HX. rewrite trial_next. cbv zeta. rewrite HE in HX |- *. destruct HN as [E|(e & E & He)]; rewrite E in *; cbn [xdiv] in *.
    - cbn in HX. destruct (Rlt_dec 0 1); [discriminate|lra].
    - exists e. split; [reflexivity|]. destruct (Req_EM_T e 0) as [->|Ne].
      + destruct (Rlt_dec 0 tol); [|lra]. rewrite factor_inf. cbn [xscal]. rewrite clamp_min. split; [lra|reflexivity].
      + apply xlt_fin_false in HX. destruct (factor_accept _ HX) as (c & -> & _ & ->). cbn [xscal]. rewrite clamp_min. split; [|reflexivity].
        split; [lra|]. apply Rmult_le_reg_r with (/ e); [apply Rinv_0_lt_compat; lra|]. rewrite Rinv_r by lra. exact HX.
  Qed.
End Pass.

(** ** the loop *)
Section Loop.
  Variables (F : list R -> R -> list R) (f : rhs) (norm : list R -> xreal) (tol maxStep : R).
  Hypothesis (Hf : forall y t k, f y t k = F y t) (HL : forall y t, length (F y t) = length y).
  Hypothesis (Ht : 0 < tol) (Hm : 0 < maxStep) (HN : forall x, norm x = PInf \/ exists e, norm x = Fin e /\ 0 <= e).
  Notation diff t dt y := (sub (heun_twice F t dt y) (heun F t dt y)).

  Lemma loop_ok fuel : forall t y dt0 y' dt next, 0 < dt0 ->
    adaptive_loop f norm tol maxStep fuel t y dt0 = Ok (y', dt, next) ->
    y' = heun_twice F t dt y /\
    (exists e, norm (diff t dt y) = Fin e /\ 0 <= e <= tol /\
      next = Fin (Rmin maxStep (dt * (if Req_EM_T e 0 then 2 else Rmin 2 (9/10 * Rpower (tol / e) (33333/100000)))))) /\
    0 < dt /\ (dt = dt0 \/ (dt < 9/10 * dt0 /\ dt <= maxStep /\ xlt (xdiv tol (norm (diff t dt0 y))) (Fin 1) = true)).
  Proof.
    induction fuel as [|fuel IH]; intros t y dt0 y' dt next Hd H; [discriminate|]. cbn [adaptive_loop] in H.
    pose proof (trial_reject f norm tol maxStep t y dt0 Hd Ht Hm HN) as REJ.
    pose proof (trial_accept f norm tol maxStep t y dt0 (diff t dt0 y) Hd Ht Hm (HN _) (trial_diff F f norm tol maxStep Hf t y dt0 HL)) as ACC.
    pose proof (incr_twice F f norm tol maxStep Hf t y dt0) as INC. unfold incr in INC.
    pose proof (trial_diff F f norm tol maxStep Hf t y dt0 HL) as TD.
    destruct (trial f norm tol maxStep t y dt0) as [[dy1 fe] dt']. cbn [fst snd] in *.
    destruct (xlt fe (Fin 1)) eqn:EX.
    - destruct (REJ eq_refl) as (d & -> & Hdd & Hdm). apply IH in H; [|lra]. destruct H as (H1 & H2 & H3 & H4).
      split; [exact H1|]. split; [exact H2|]. split; [exact H3|]. right. rewrite <- TD, EX. destruct H4 as [->|(? & ? & ?)]; repeat split; lra.
    - injection H as <- <- <-. split; [exact INC|]. destruct (ACC eq_refl) as (e & E1 & E2 & E3). split; [exists e; auto|]. split; [exact Hd|now left].
  Qed.

  Lemma loop_terminates C t y n : forall dt0, 0 <= C -> 0 < dt0 ->
    (forall d, 0 < d <= dt0 -> exists e, norm (diff t d y) = Fin e /\ 0 <= e <= C * d) ->
    C * dt0 * (9/10) ^ n <= tol -> exists r, adaptive_loop f norm tol maxStep (S n) t y dt0 = Ok r.
  Proof.
    induction n as [|n IH]; intros dt0 HC Hd HB Hn.
    - cbn [adaptive_loop]. pose proof (trial_diff F f norm tol maxStep Hf t y dt0 HL) as TD. destruct (HB dt0 ltac:(lra)) as (e & E1 & E2). rewrite E1 in TD.
      destruct (trial f norm tol maxStep t y dt0) as [[dy1 fe] dt']. cbn [fst snd] in TD. subst fe. cbn [xdiv].
      destruct (Req_EM_T e 0); [destruct (Rlt_dec 0 tol); [|lra]; cbn [xlt]; eauto|].
      rewrite (proj2 (xlt_fin_false (tol / e) 1)); [eauto|]. cbn in Hn. apply Rmult_le_reg_r with e; [lra|]. unfold Rdiv. rewrite Rmult_assoc, Rinv_l by assumption. lra.
    - remember (S n) as m. cbn [adaptive_loop]. pose proof (trial_reject f norm tol maxStep t y dt0 Hd Ht Hm HN) as REJ.
      destruct (trial f norm tol maxStep t y dt0) as [[dy1 fe] dt']. cbn [fst snd] in REJ. destruct (xlt fe (Fin 1)); [|eauto].
      destruct (REJ eq_refl) as (d & -> & Hdd & _). subst m. apply IH; [exact HC|lra| |].
      + intros d' Hd'. apply HB. lra.
      + apply Rle_trans with (C * (9/10 * dt0) * (9/10) ^ n); [|cbn [pow] in Hn; lra].
        assert (0 <= (9/10) ^ n) by (apply pow_le; lra). apply Rmult_le_compat_r; [assumption|]. apply Rmult_le_compat_l; lra.
  Qed.
End Loop.

(** ** local errors *)
Lemma growth_bound (g g' : R -> R) a T n : 0 <= T -> g 0 <= 0 ->
  (forall h, 0 <= h <= T -> derivable_pt_lim g h (g' h)) -> (forall h, 0 <= h <= T -> g' h <= a * h ^ n) ->
  g T <= a * T ^ (S n) / INR (S n).
Proof.
  intros HT H0 HD HB. destruct HT as [HT| <-].
  - set (q := fun h => g h - a * / INR (S n) * h ^ (S n)).
    assert (HI : 0 < INR (S n)) by (apply lt_0_INR; lia).
    assert (DQ : forall h, 0 <= h <= T -> derivable_pt_lim q h (g' h - a * / INR (S n) * (INR (S n) * h ^ n))).
    { intros h Hh. unfold q. apply (derivable_pt_lim_minus g (fun h => a * / INR (S n) * h ^ S n)); [now apply HD|].
      apply (derivable_pt_lim_scal (fun h => h ^ S n) (a * / INR (S n))). apply derivable_pt_lim_pow. }
    destruct (MVT_cor2 q (fun h => g' h - a * / INR (S n) * (INR (S n) * h ^ n)) 0 T HT) as (c & Hc & Hcc); [intros; apply DQ; lra|].
    assert (K : q T - q 0 <= 0).
    { rewrite Hc. specialize (HB c ltac:(lra)). assert (E : a * / INR (S n) * (INR (S n) * c ^ n) = a * c ^ n) by (field; lra). rewrite E. nra. }
    unfold q in K. rewrite (pow_i (S n)) in K by lia. unfold Rdiv. lra.
  - rewrite pow_i by lia. unfold Rdiv. lra.
Qed.
Lemma growth_bound_abs (g g' : R -> R) a T n : 0 <= T -> g 0 = 0 ->
  (forall h, 0 <= h <= T -> derivable_pt_lim g h (g' h)) -> (forall h, 0 <= h <= T -> Rabs (g' h) <= a * h ^ n) ->
  Rabs (g T) <= a * T ^ (S n) / INR (S n).
Proof.
  intros HT H0 HD HB. apply Rabs_le. split.
  - assert (K : - g T <= a * T ^ S n / INR (S n)); [|lra].
    apply (growth_bound (fun h => - g h) (fun h => - g' h)); [exact HT|cbv beta; lra|intros h Hh; now apply derivable_pt_lim_opp, HD|].
    intros h Hh. specialize (HB h Hh). pose proof (Rle_abs (- g' h)) as P. rewrite Rabs_Ropp in P. lra.
  - apply (growth_bound g g'); [exact HT|lra|exact HD|]. intros h Hh. specialize (HB h Hh). pose proof (Rle_abs (g' h)). lra.
Qed.
Lemma deriv_eq g x a b : derivable_pt_lim g x a -> a = b -> derivable_pt_lim g x b.
Proof. now intros H <-. Qed.
Lemma shift_deriv (y : R -> R) t h v : derivable_pt_lim y (t + h) v -> derivable_pt_lim (fun h => y (t + h)) h v.
Proof.
  intros H. replace v with (v * 1) by ring. apply (derivable_pt_lim_comp (fun h => t + h) y); [|exact H].
  replace 1 with (0 + 1) by ring. apply (derivable_pt_lim_plus (fun _ => t) id); [apply derivable_pt_lim_const|apply derivable_pt_lim_id].
Qed.
Lemma euler_local (y y1 y2 : R -> R) t T M : 0 <= T ->
  (forall s, t <= s <= t + T -> derivable_pt_lim y s (y1 s) /\ derivable_pt_lim y1 s (y2 s) /\ Rabs (y2 s) <= M) ->
  Rabs (y t + T * y1 t - y (t + T)) <= M * T ^ 2 / 2.
Proof.
  intros HT H. rewrite Rabs_minus_sym.
  assert (B1 : forall h, 0 <= h <= T -> Rabs (y1 (t + h) - y1 t) <= M * h ^ 1).
  { intros h Hh. pose proof (growth_bound_abs (fun h => y1 (t + h) - y1 t) (fun h => y2 (t + h)) M h 0) as G. cbv beta in G.
    replace (M * h ^ 1 / INR 1) with (M * h ^ 1) in G by (cbn; lra). apply G; [lra|rewrite Rplus_0_r; ring| |].
    - intros k Hk. replace (y2 (t + k)) with (y2 (t + k) - 0) by ring. apply (derivable_pt_lim_minus (fun h => y1 (t + h)) (fun _ => y1 t)); [apply shift_deriv, H; lra|apply derivable_pt_lim_const].
    - intros k Hk. cbn. rewrite Rmult_1_r. apply H. lra. }
  pose proof (growth_bound_abs (fun h => y (t + h) - (y t + h * y1 t)) (fun h => y1 (t + h) - y1 t) M T 1 HT) as G. cbv beta in G.
  replace (INR 2) with 2 in G by (cbn; lra). apply G; [rewrite Rplus_0_r; ring| |exact B1].
  intros h Hh. apply (derivable_pt_lim_minus (fun h => y (t + h)) (fun h => y t + h * y1 t)); [apply shift_deriv, H; lra|].
  apply (deriv_eq _ _ (0 + (1 * y1 t + h * 0))); [|ring]. apply (derivable_pt_lim_plus (fun _ => y t) (fun h => h * y1 t)); [apply derivable_pt_lim_const|].
  apply (derivable_pt_lim_mult id (fun _ => y1 t)); [apply derivable_pt_lim_id|apply derivable_pt_lim_const].
Qed.
(** the trapezoidal rule *)
Lemma trapezoid_local (y y1 y2 y3 : R -> R) t T M : 0 <= T ->
  (forall s, t <= s <= t + T -> derivable_pt_lim y s (y1 s) /\ derivable_pt_lim y1 s (y2 s) /\ derivable_pt_lim y2 s (y3 s) /\ Rabs (y3 s) <= M) ->
  Rabs (y (t + T) - (y t + T / 2 * (y1 t + y1 (t + T)))) <= M * T ^ 3 / 12.
Proof.
  intros HT H.
  set (g := fun h => y (t + h) - (y t + / 2 * h * (y1 t + y1 (t + h)))).
  set (g1 := fun h => / 2 * (y1 (t + h) - y1 t) - / 2 * h * y2 (t + h)).
  set (g2 := fun h => - (/ 2 * h * y3 (t + h))).
  assert (DL : forall h, derivable_pt_lim (fun h => / 2 * h) h (/ 2)).
  { intros h. apply (deriv_eq _ _ (/ 2 * 1)); [|ring]. apply (derivable_pt_lim_scal id). apply derivable_pt_lim_id. }
  assert (D1 : forall h, 0 <= h <= T -> derivable_pt_lim g h (g1 h)).
  { intros h Hh. unfold g, g1. destruct (H (t + h) ltac:(lra)) as (E1 & E2 & _).
    replace (/ 2 * (y1 (t + h) - y1 t) - / 2 * h * y2 (t + h)) with (y1 (t + h) - (0 + (/ 2 * (y1 t + y1 (t + h)) + / 2 * h * (0 + y2 (t + h))))) by lra.
    apply (derivable_pt_lim_minus (fun h => y (t + h)) (fun h => y t + / 2 * h * (y1 t + y1 (t + h)))); [now apply shift_deriv|].
    apply (derivable_pt_lim_plus (fun _ => y t) (fun h => / 2 * h * (y1 t + y1 (t + h)))); [apply derivable_pt_lim_const|].
    apply (derivable_pt_lim_mult (fun h => / 2 * h) (fun h => y1 t + y1 (t + h))); [apply DL|].
    apply (derivable_pt_lim_plus (fun _ => y1 t) (fun h => y1 (t + h))); [apply derivable_pt_lim_const|now apply shift_deriv]. }
  assert (D2 : forall h, 0 <= h <= T -> derivable_pt_lim g1 h (g2 h)).
  { intros h Hh. unfold g1, g2. destruct (H (t + h) ltac:(lra)) as (E1 & E2 & E3 & _).
    replace (- (/ 2 * h * y3 (t + h))) with (/ 2 * (y2 (t + h) - 0) - (/ 2 * y2 (t + h) + / 2 * h * y3 (t + h))) by lra.
    apply (derivable_pt_lim_minus (fun h => / 2 * (y1 (t + h) - y1 t)) (fun h => / 2 * h * y2 (t + h))).
    - apply (derivable_pt_lim_scal (fun h => y1 (t + h) - y1 t) (/ 2)). apply (derivable_pt_lim_minus (fun h => y1 (t + h)) (fun _ => y1 t)); [now apply shift_deriv|apply derivable_pt_lim_const].
    - apply (derivable_pt_lim_mult (fun h => / 2 * h) (fun h => y2 (t + h))); [apply DL|now apply shift_deriv]. }
  assert (B1 : forall h, 0 <= h <= T -> Rabs (g1 h) <= M / 4 * h ^ 2).
  { intros h Hh. pose proof (growth_bound_abs g1 g2 (M / 2) h 1) as G. replace (M / 2 * h ^ 2 / INR 2) with (M / 4 * h ^ 2) in G by (cbn; field).
    apply G; [lra|unfold g1; rewrite Rplus_0_r; ring|intros k Hk; apply D2; lra|].
    intros k Hk. unfold g2. rewrite Rabs_Ropp, !Rabs_mult. rewrite (Rabs_right (/ 2)) by lra. rewrite (Rabs_right k) by lra.
    destruct (H (t + k) ltac:(lra)) as (_ & _ & _ & B). cbn. pose proof (Rabs_pos (y3 (t + k))). nra. }
  pose proof (growth_bound_abs g g1 (M / 4) T 2 HT) as G. replace (M / 4 * T ^ 3 / INR 3) with (M * T ^ 3 / 12) in G by (cbn; field).
  unfold g in G at 2. replace (T / 2) with (/ 2 * T) by lra. apply G; [unfold g; rewrite Rplus_0_r; ring|exact D1|exact B1].
Qed.

(** ** vectors of errors *)
Lemma close_le e e' x y : e <= e' -> close e x y -> close e' x y.
Proof. intros H. unfold close. induction 1; constructor; [lra|assumption]. Qed.
Lemma close_refl x : close 0 x x.
Proof. unfold close. induction x; constructor; [|assumption]. unfold Rminus. rewrite Rplus_opp_r, Rabs_R0. lra. Qed.
Lemma close_trans a b x y z : close a x y -> close b y z -> close (a + b) x z.
Proof.
  unfold close. intros H. revert z. induction H as [|p q x y Hpq H IH]; intros z Hz; inversion Hz; subst; constructor; [|now apply IH].
  match goal with H1 : Rabs (q - ?r) <= b |- _ => pose proof (Rabs_triang (p - q) (q - r)) as T; replace (p - q + (q - r)) with (p - r) in T by ring end. lra.
Qed.
Lemma close_vadd a b x y u v : close a x y -> close b u v -> close (a + b) (vadd x u) (vadd y v).
Proof.
  unfold close. intros H. revert u v. induction H as [|p q x y Hpq H IH]; intros u v Hu; [constructor|].
  destruct Hu as [|r s u v Hrs Hu]; [constructor|]. unfold vadd. rewrite !map2_cons. constructor; [|now apply IH].
  pose proof (Rabs_triang (p - q) (r - s)) as T. replace (p - q + (r - s)) with (p + r - (q + s)) in T by ring. lra.
Qed.
Lemma close_vscal c e x y : 0 <= c -> close e x y -> close (c * e) (vscal c x) (vscal c y).
Proof.
  intros Hc. unfold close, vscal. induction 1; cbn [map]; constructor; [|assumption].
  rewrite <- Rmult_minus_distr_l, Rabs_mult, (Rabs_right c) by lra. apply Rmult_le_compat_l; assumption.
Qed.

Lemma euler_local_vec ys : forall vs t dt M, 0 <= dt ->
  Forall2 (fun y v => derivable_pt_lim y t v) ys vs -> smooth2 ys t (t + dt) M ->
  close (M * dt ^ 2 / 2) (vadd (at_time ys t) (vscal dt vs)) (at_time ys (t + dt)).
Proof.
  intros vs t dt M Hd H. induction H as [|y v ys vs Hy H IH]; intros HS; [constructor|]. inversion HS as [|? ? (y1 & y2 & HY) HS']; subst.
  cbn [at_time map vscal]. unfold vadd. rewrite map2_cons. constructor; [|now apply IH].
  assert (E : v = y1 t) by (apply (uniqueness_limite y t); [exact Hy|apply HY; lra]). rewrite E. exact (euler_local y y1 y2 t dt M Hd HY).
Qed.
Lemma smooth3_2 ys a b M2 M3 : smooth3 ys a b M2 M3 -> smooth2 ys a b M2.
Proof. unfold smooth3, smooth2. apply Forall_impl. intros y (y1 & y2 & y3 & H). exists y1, y2. intros t Ht. destruct (H t Ht) as (A & B & C & D & E). auto. Qed.
Lemma heun_local_vec ys : forall v0 v1 k1 e t dt M2 M3, 0 <= dt ->
  Forall2 (fun y v => derivable_pt_lim y t v) ys v0 -> Forall2 (fun y v => derivable_pt_lim y (t + dt) v) ys v1 -> close e k1 v1 ->
  smooth3 ys t (t + dt) M2 M3 ->
  close (M3 * dt ^ 3 / 12 + dt / 2 * e) (vadd (at_time ys t) (vscal (1/2 * dt) (vadd v0 k1))) (at_time ys (t + dt)).
Proof.
  intros v0 v1 k1 e t dt M2 M3 Hd H. revert v1 k1. induction H as [|y v ys vs Hy H IH]; intros v1 k1 H1 HK HS.
  - constructor.
  - inversion HS as [|? ? (y1 & y2 & y3 & HY) HS']; subst. inversion H1 as [|? w ? ws Hw H1']; subst. inversion HK as [|k ? ks ? Hk HK']; subst.
    unfold vadd. cbn [at_time map]. rewrite (map2_cons Rplus v). cbn [vscal map]. rewrite map2_cons. constructor; [|now apply (IH ws)].
    assert (E : v = y1 t) by (apply (uniqueness_limite y t); [exact Hy|apply HY; lra]). subst v.
    assert (E : w = y1 (t + dt)) by (apply (uniqueness_limite y (t + dt)); [exact Hw|apply HY; lra]). subst w.
    assert (TR : Rabs (y (t + dt) - (y t + dt / 2 * (y1 t + y1 (t + dt)))) <= M3 * dt ^ 3 / 12).
    { apply (trapezoid_local y y1 y2 y3 t dt M3 Hd). intros s Hs. destruct (HY s Hs) as (A & B & C & D & G). auto. }
    rewrite Rabs_minus_sym in TR.
    pose proof (Rabs_triang (y t + dt / 2 * (y1 t + y1 (t + dt)) - y (t + dt)) (dt / 2 * (k - y1 (t + dt)))) as T.
    rewrite (Rabs_mult (dt / 2)), (Rabs_right (dt / 2)) in T by lra.
    replace (y t + dt / 2 * (y1 t + y1 (t + dt)) - y (t + dt) + dt / 2 * (k - y1 (t + dt))) with (y t + 1/2 * dt * (y1 t + k) - y (t + dt)) in T by field.
    assert (dt / 2 * Rabs (k - y1 (t + dt)) <= dt / 2 * e) by (apply Rmult_le_compat_l; lra). lra.
Qed.

(** ** accumulation of errors *)
Lemma exp_ge_1 x : 0 <= x -> 1 + x <= exp x.
Proof. intros [H| <-]; [left; apply exp_ineq1; lra|rewrite exp_0; lra]. Qed.
Lemma exp_ge_2 x : 0 <= x -> 1 + x + x ^ 2 / 2 <= exp x.
Proof.
  intros H. pose proof (growth_bound (fun h => 1 + h + h ^ 2 / 2 - exp h) (fun h => 1 + h - exp h) 0 x 0 H) as G. cbv beta in G.
  assert (K : 1 + x + x ^ 2 / 2 - exp x <= 0 * x ^ 1 / INR 1); [|cbn in K; lra]. apply G.
  - rewrite exp_0. cbn. lra.
  - intros h _. apply (derivable_pt_lim_minus (fun h => 1 + h + h ^ 2 / 2) exp); [|apply derivable_pt_lim_exp].
    apply (deriv_eq _ _ ((0 + 1) + (INR 2 * h ^ 1 * / 2 + h ^ 2 * 0))); [|cbn; field].
    apply (derivable_pt_lim_plus (fun h => 1 + h) (fun h => h ^ 2 / 2)).
    + apply (derivable_pt_lim_plus (fun _ => 1) id); [apply derivable_pt_lim_const|apply derivable_pt_lim_id].
    + apply (derivable_pt_lim_mult (fun h => h ^ 2) (fun _ => / 2)); [apply (derivable_pt_lim_pow h 2)|apply derivable_pt_lim_const].
  - intros h Hh. pose proof (exp_ge_1 h ltac:(lra)). cbn. lra.
Qed.
Lemma run_error (step : R -> list R -> list R * R) (ys : list (R -> R)) K dt c n : forall t y e, 0 <= K -> 0 <= dt -> 0 <= c -> 0 <= e ->
  (forall t y, snd (step t y) = dt) ->
  (forall t x y e, 0 <= e -> close e x y -> close (exp (K * dt) * e) (fst (step t x)) (fst (step t y))) ->
  (forall k, (k < n)%nat -> close c (fst (step (t + INR k * dt) (at_time ys (t + INR k * dt)))) (at_time ys (t + INR k * dt + dt))) ->
  close e y (at_time ys t) ->
  snd (fixed_run step n t y) = t + INR n * dt /\
  close (exp (K * (INR n * dt)) * (e + INR n * c)) (fst (fixed_run step n t y)) (at_time ys (t + INR n * dt)).
Proof.
  induction n as [|n IH]; intros t y e HK Hd Hc He Hs HL HE H0.
  - cbn [fixed_run INR fst snd]. rewrite !Rmult_0_l, Rmult_0_r, exp_0, !Rplus_0_r, Rmult_1_l. auto.
  - cbn [fixed_run]. pose proof (Hs t y) as S1. pose proof (HL t y (at_time ys t) e He H0) as L1. pose proof (HE 0%nat ltac:(lia)) as E1. cbn [INR] in E1. rewrite Rmult_0_l, Rplus_0_r in E1.
    pose proof (close_trans _ _ _ _ _ L1 E1) as C1. destruct (step t y) as [y' d]. cbn [fst snd] in *. subst d.
    assert (X : 1 <= exp (K * dt)) by (pose proof (exp_ge_1 (K * dt) ltac:(nra)); nra).
    destruct (IH (t + dt) y' (exp (K * dt) * e + c) HK Hd Hc ltac:(nra) Hs HL) as [R1 R2]; [|exact C1|].
    + intros k Hk. specialize (HE (S k) ltac:(lia)). rewrite S_INR in HE. replace (t + (INR k + 1) * dt) with (t + dt + INR k * dt) in HE by ring. exact HE.
    + rewrite S_INR. replace (t + (INR n + 1) * dt) with (t + dt + INR n * dt) by ring. split; [exact R1|]. eapply close_le; [|exact R2].
      replace (K * ((INR n + 1) * dt)) with (K * (INR n * dt) + K * dt) by ring. rewrite exp_plus. rewrite Rmult_assoc. apply Rmult_le_compat_l; [left; apply exp_pos|].
      pose proof (pos_INR n). assert (0 <= (INR n + 1) * c) by nra. set (w := (INR n + 1) * c) in *. replace (exp (K * dt) * e + c + INR n * c) with (exp (K * dt) * e + w) by (unfold w; ring). nra.
Qed.
