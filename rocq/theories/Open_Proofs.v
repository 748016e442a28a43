(** Lemmas about distributions of outcomes that follow the Lindblad equation approximately. *)
From Coq Require Import ZArith String List Reals Lra Lia Bool Arith.
From Verif Require Import Base Cplx Stats_Spec Stats_Proofs Povm_Spec Many_Spec Many_Proofs Many2_Proofs Vmc_Spec Vmc_Proofs Vmc2_Proofs Lind_Spec Lind_Proofs Lind2_Proofs Lind3_Proofs Open_Spec.
Import ListNotations.
Local Open Scope R_scope.

Lemma deriv_rsum {X} (l : list X) (f : X -> R -> R) (d : X -> R) t : (forall s, In s l -> derivable_pt_lim (f s) t (d s)) ->
  derivable_pt_lim (fun x => rsum (map (fun s => f s x) l)) t (rsum (map d l)).
Proof.
  induction l as [|s l IH]; intros H; [apply (deriv_ext (fun _ => 0)); [reflexivity|apply derivable_pt_lim_const]|].
  apply (derivable_pt_lim_plus (f s) (fun x => rsum (map (fun s => f s x) l))); [apply H; now left|]. apply IH. intros; apply H; now right.
Qed.
(** Cauchy and Schwarz *)
Lemma cs_list {X} (l : list X) (f g : X -> R) : rsum (map (fun x => f x * g x) l) * rsum (map (fun x => f x * g x) l) <= rsum (map (fun x => f x * f x) l) * rsum (map (fun x => g x * g x) l).
Proof.
  set (A := rsum (map (fun x => f x * f x) l)). set (B := rsum (map (fun x => f x * g x) l)). set (D := rsum (map (fun x => g x * g x) l)).
  assert (Q : forall s t, 0 <= s * s * A + 2 * s * t * B + t * t * D).
  { intros s t. assert (E : s * s * A + 2 * s * t * B + t * t * D = rsum (map (fun x => (s * f x + t * g x) * (s * f x + t * g x)) l)).
    { unfold A, B, D. rewrite <- !rsum_scal, <- !rsum_map_add. apply rsum_ext. intros; ring. }
    rewrite E. apply rsum_map_nonneg. intros; apply Rle_0_sqr. }
  pose proof (Q 1 0) as A0. pose proof (Q 0 1) as D0. pose proof (Q D (- B)) as Q1. pose proof (Q (- B) A) as Q2. pose proof (Q 1 1) as Q3. pose proof (Q 1 (-1)) as Q4.
  destruct (Req_dec D 0) as [ED|ND].
  - destruct (Req_dec A 0) as [EA|NA]; [rewrite EA, ED in *; nra|]. assert (0 < A) by lra. rewrite ED in *. nra.
  - assert (0 < D) by lra. apply (Rmult_le_reg_l D); [assumption|]. nra.
Qed.

(** probabilities of the network *)
Lemma distribution_rate N n lp theta u g t a : real_chain_rule n lp theta u g t ->
  derivable_pt_lim (fun t => distribution N (lp (theta t)) a) t
    (distribution N (lp (theta t)) a * (rsumn n (fun k => g a k * u k) - average N (lp (theta t)) (fun a => rsumn n (fun k => g a k * u k)))).
Proof.
  intros H. set (G := fun a => rsumn n (fun k => g a k * u k)). set (Z := fun t => rsum (map (fun b => exp (lp (theta t) b)) (words 4 N))).
  assert (DE : forall b, derivable_pt_lim (fun t => exp (lp (theta t) b)) t (exp (lp (theta t) b) * G b)).
  { intros b. eapply deriv_value; [apply (derivable_pt_lim_comp (fun t => lp (theta t) b) exp); [apply H|apply derivable_pt_lim_exp]|]. reflexivity. }
  assert (DZ : derivable_pt_lim Z t (rsum (map (fun b => exp (lp (theta t) b) * G b) (words 4 N)))).
  { apply (deriv_rsum (words 4 N) (fun b t => exp (lp (theta t) b))). intros; apply DE. }
  pose proof (total_pos N (lp (theta t))) as ZP. fold (Z t) in ZP.
  eapply deriv_value; [apply (derivable_pt_lim_div (fun t => exp (lp (theta t) a)) Z); [apply DE|exact DZ|lra]|].
  assert (EA : average N (lp (theta t)) G = rsum (map (fun b => exp (lp (theta t) b) * G b) (words 4 N)) / Z t).
  { unfold average, distribution. fold (Z t). unfold Rdiv. rewrite <- rsum_scal_r. apply rsum_ext. intros; ring. }
  rewrite EA. unfold distribution. fold (Z t). unfold Rsqr. change (rsumn n (fun k => g a k * u k)) with (G a). field. lra.
Qed.
Lemma distribution_one N l : rsum (map (distribution N l) (words 4 N)) = 1.
Proof. rewrite <- (average_one N l). unfold average. apply rsum_ext. intros; ring. Qed.
Lemma distribution_le N l a : In a (words 4 N) -> distribution N l a <= 1.
Proof.
  intros Ha. rewrite <- (distribution_one N l). revert Ha. assert (P : forall b, 0 <= distribution N l b) by (intros; left; apply distribution_pos).
  set (f := distribution N l) in *. clearbody f. induction (words 4 N) as [|b w IH]; intros H; [destruct H|]. cbn [map]. rewrite rsum_cons.
  pose proof (rsum_map_nonneg f w ltac:(intros; apply P)). destruct H as [<-|H]; [lra|]. specialize (IH H). pose proof (P b). lra.
Qed.
(** probabilities of the exact state *)
Lemma probability_rate N M terms chi t a : solves_lindblad N terms chi t -> derivable_pt_lim (fun t => probability N M (chi t) a) t (inflow N M terms (chi t) a).
Proof.
  intros H. unfold inflow. rewrite mtr_comm. unfold probability, mtr, mmul, over.
  apply (cderiv_csum (words 2 N) (fun x s => csum (map (fun z => (chi s x z * product_element N M a z x)%C) (words 2 N))) (fun x => csum (map (fun z => (generator N terms (chi t) x z * product_element N M a z x)%C) (words 2 N)))).
  intros x Hx. apply (cderiv_csum (words 2 N) (fun z s => (chi s x z * product_element N M a z x)%C)). intros z Hz.
  pose proof (cderiv_mul (fun s => chi s x z) (fun _ => product_element N M a z x) t _ _ (H x z Hx Hz) (cderiv_const _ _)) as Q. cbv beta in Q.
  replace (generator N terms (chi t) x z * product_element N M a z x)%C with (generator N terms (chi t) x z * product_element N M a z x + chi t x z * C0)%C by ring. exact Q.
Qed.

(** a square root that grows at most at the rate b *)
Lemma sqrt_growth1 (y y' b B : R -> R) T : 0 <= T ->
  (forall t, 0 <= t <= T -> derivable_pt_lim y t (y' t)) -> (forall t, 0 <= t <= T -> derivable_pt_lim B t (b t)) ->
  (forall t, 0 <= t <= T -> 0 <= y t /\ 0 <= b t /\ y' t <= 2 * (sqrt (y t) * b t)) ->
  sqrt (y T) <= sqrt (y 0) + (B T - B 0).
Proof.
  intros HT Dy DB Hb. apply le_epsilon. intros eps He.
  destruct HT as [HT|<-]; [|pose proof (sqrt_pos (y 0)); lra].
  set (k := eps * eps). assert (Hk : 0 < k) by (unfold k; nra).
  set (h := fun t => sqrt (y t + k) - B t). set (h' := fun t => y' t * / (2 * sqrt (y t + k)) - b t).
  assert (DH : forall t, 0 <= t <= T -> derivable_pt_lim h t (h' t)).
  { intros t Ht. destruct (Hb t Ht) as (Y0 & _). apply (derivable_pt_lim_minus (fun t => sqrt (y t + k)) B); [|now apply DB].
    eapply deriv_value; [apply (derivable_pt_lim_comp (fun t => y t + k) sqrt); [apply (derivable_pt_lim_plus y (fun _ => k)); [now apply Dy|apply derivable_pt_lim_const]|apply derivable_pt_lim_sqrt; lra]|]. ring. }
  destruct (MVT_cor2 h h' 0 T HT DH) as (c & E & Hc1 & Hc2).
  assert (Hneg : h' c <= 0).
  { destruct (Hb c ltac:(lra)) as (Y0 & B0 & YB). unfold h'. set (q := sqrt (y c + k)). assert (Hq : 0 < q) by (apply sqrt_lt_R0; lra).
    assert (SQ : sqrt (y c) <= q) by (apply sqrt_le_1_alt; lra). assert (sqrt (y c) * b c <= q * b c) by (apply Rmult_le_compat_r; lra).
    apply (Rmult_le_reg_r (2 * q)); [lra|]. rewrite Rmult_0_l. replace ((y' c * / (2 * q) - b c) * (2 * q)) with (y' c - 2 * (q * b c)) by (field; lra). lra. }
  assert (HL : h T <= h 0) by (assert (h' c * (T - 0) <= 0) by nra; lra). unfold h in HL.
  assert (S1 : sqrt (y T) <= sqrt (y T + k)) by (destruct (Hb T ltac:(lra)); apply sqrt_le_1_alt; lra).
  assert (S2 : sqrt (y 0 + k) <= sqrt (y 0) + eps).
  { destruct (Hb 0 ltac:(lra)) as (Y0 & _). pose proof (sqrt_pos (y 0)). rewrite <- (sqrt_square (sqrt (y 0) + eps)) by lra. apply sqrt_le_1_alt.
    pose proof (sqrt_sqrt (y 0) Y0). unfold k. nra. }
  lra.
Qed.
(** the same for a size that the exact dynamics stretches at the rate L *)
Lemma stretched (y y' b B : R -> R) L T : 0 <= T ->
  (forall t, 0 <= t <= T -> derivable_pt_lim y t (y' t)) -> (forall t, 0 <= t <= T -> derivable_pt_lim B t (exp (- L * t) * b t)) ->
  (forall t, 0 <= t <= T -> 0 <= y t /\ 0 <= b t /\ y' t <= 2 * (L * y t) + 2 * (sqrt (y t) * b t)) ->
  sqrt (y T) <= exp (L * T) * (sqrt (y 0) + (B T - B 0)).
Proof.
  intros HT Dy DB Hb. set (E := fun t => exp (- L * t)). set (z := fun t => E t * E t * y t).
  assert (SZ : forall t, 0 <= y t -> sqrt (z t) = E t * sqrt (y t)).
  { intros t Ht. pose proof (exp_pos (- L * t)) as P. fold (E t) in P. unfold z. rewrite sqrt_mult; [|apply Rmult_le_pos; lra|exact Ht]. now rewrite sqrt_square by lra. }
  assert (DE : forall t, derivable_pt_lim E t (- L * E t)).
  { intros t. eapply deriv_value; [apply (derivable_pt_lim_comp (fun t => - L * t) exp); [apply (derivable_pt_lim_scal (fun t => t)); apply derivable_pt_lim_id|apply derivable_pt_lim_exp]|unfold E; ring]. }
  pose proof (sqrt_growth1 z (fun t => E t * E t * (y' t - 2 * (L * y t))) (fun t => E t * b t) B T HT) as Q.
  assert (G : sqrt (z T) <= sqrt (z 0) + (B T - B 0)).
  { apply Q.
    - intros t Ht. eapply deriv_value; [apply (derivable_pt_lim_mult (fun t => E t * E t) y); [apply (derivable_pt_lim_mult E E); apply DE|now apply Dy]|]. ring.
    - exact DB.
    - intros t Ht. destruct (Hb t Ht) as (Y0 & B0 & YB). pose proof (exp_pos (- L * t)) as P. fold (E t) in P. split; [apply Rmult_le_pos; [apply Rmult_le_pos; lra|exact Y0]|]. split; [apply Rmult_le_pos; lra|].
      rewrite (SZ t Y0). replace (2 * (E t * sqrt (y t) * (E t * b t))) with (E t * E t * (2 * (sqrt (y t) * b t))) by ring. apply Rmult_le_compat_l; [apply Rmult_le_pos; lra|]. lra. }
  destruct (Hb 0 ltac:(lra)) as (Y0 & _). destruct (Hb T ltac:(lra)) as (YT & _). rewrite (SZ T YT), (SZ 0 Y0) in G. unfold E in G. rewrite Rmult_0_r, exp_0, Rmult_1_l in G.
  apply (Rmult_le_compat_l (exp (L * T))) in G; [|left; apply exp_pos]. rewrite <- Rmult_assoc, <- exp_plus in G. replace (L * T + - L * T) with 0 in G by ring. rewrite exp_0, Rmult_1_l in G. exact G.
Qed.

(** the pull of the residual r on the distance *)
Lemma residual_pull N l (D r : list nat -> R) b : 0 <= b -> variation N l r <= b * b ->
  rsum (map (fun a => D a * (distribution N l a * (r a - average N l r))) (words 4 N)) <= sqrt (rsum (map (fun a => D a * D a) (words 4 N))) * b.
Proof.
  intros Hb HV. set (y := rsum (map (fun a => D a * D a) (words 4 N))). assert (Y0 : 0 <= y) by (apply rsum_map_nonneg; intros; apply Rle_0_sqr).
  set (f := fun a => distribution N l a * (r a - average N l r)).
  assert (F : rsum (map (fun a => f a * f a) (words 4 N)) <= b * b).
  { eapply Rle_trans; [|exact HV]. unfold variation, average at 1. apply rsum_map_le. intros a Ha. unfold f. set (d := r a - average N l r).
    pose proof (distribution_pos N l a) as P. pose proof (distribution_le N l a Ha) as P1. set (p := distribution N l a) in *.
    replace (p * d * (p * d)) with (p * (p * (d * d))) by ring. apply Rmult_le_compat_l; [lra|]. rewrite <- (Rmult_1_l (d * d)) at 2. apply Rmult_le_compat_r; [apply Rle_0_sqr|exact P1]. }
  pose proof (cs_list (words 4 N) D f) as Q. fold y in Q.
  assert (P : 0 <= sqrt y * b) by (apply Rmult_le_pos; [apply sqrt_pos|exact Hb]). pose proof (sqrt_sqrt y Y0) as SY.
  apply Rnot_lt_le. intros Lt. set (w := rsum (map (fun x => D x * f x) (words 4 N))) in *. assert (sqrt y * b < w) by exact Lt.
  assert (H0 : sqrt y * b * (sqrt y * b) < w * w) by (apply Rmult_le_0_lt_compat; first [exact P|exact H]).
  replace (sqrt y * b * (sqrt y * b)) with (y * (b * b)) in H0 by (transitivity (sqrt y * sqrt y * (b * b)); [now rewrite SY|ring]).
  assert (y * rsum (map (fun a => f a * f a) (words 4 N)) <= y * (b * b)) by (apply Rmult_le_compat_l; assumption). lra.
Qed.
