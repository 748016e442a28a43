(** Lemmas about descent in imaginary time. *)
From Coq Require Import ZArith List Reals Lra Lia Bool.
From Verif Require Import Base Cplx Stats_Spec Stats_Proofs BranchFree_Model BranchFree_Spec Exact_Proofs Tdvp5_Proofs Msr_Proofs Vmc_Spec Vmc_Proofs Vmc2_Proofs Ehren_Spec Ehren_Proofs Spectrum_Spec Spectrum_Proofs.
Import ListNotations.
Local Open Scope R_scope.

Lemma falls (f f' : R -> R) T : 0 <= T -> (forall t, 0 <= t <= T -> derivable_pt_lim f t (f' t) /\ f' t <= 0) -> f T <= f 0.
Proof.
  intros HT Hf. destruct (Rle_lt_or_eq_dec 0 T HT) as [HT'|<-]; [|lra].
  destruct (MVT_cor2 f f' 0 T HT' ltac:(intros t Ht; now apply Hf)) as (c & E & Hc). destruct (Hf c ltac:(lra)) as [_ Q].
  assert (0 <= - f' c * (T - 0)) by (apply Rmult_le_pos; lra). lra.
Qed.

(** a quantity that falls at least in proportion to itself *)
Lemma decays (f f' : R -> R) k T : 0 <= T -> (forall t, 0 <= t <= T -> derivable_pt_lim f t (f' t) /\ f' t <= - k * f t) -> f T <= f 0 * exp (- k * T).
Proof.
  intros HT Hf. assert (Q : (fun t => f t * exp (k * t)) T <= (fun t => f t * exp (k * t)) 0).
  { apply (falls (fun t => f t * exp (k * t)) (fun t => (f' t + k * f t) * exp (k * t)) T HT). intros t Ht. destruct (Hf t Ht) as [D L]. split.
    - assert (DE : derivable_pt_lim (fun t => exp (k * t)) t (exp (k * t) * k)).
      { eapply deriv_value; [apply (derivable_pt_lim_comp (fun t => k * t) exp); [apply (derivable_pt_lim_scal (fun t => t)); apply derivable_pt_lim_id|apply derivable_pt_lim_exp]|ring]. }
      eapply deriv_value; [apply (derivable_pt_lim_mult f (fun t => exp (k * t))); [exact D|exact DE]|ring].
    - pose proof (exp_pos (k * t)). assert (0 <= - (f' t + k * f t) * exp (k * t)) by (apply Rmult_le_pos; lra). lra. }
  cbv beta in Q. rewrite Rmult_0_r, exp_0, Rmult_1_r in Q. pose proof (exp_pos (- k * T)) as P.
  apply (Rmult_le_compat_r (exp (- k * T))) in Q; [|lra]. rewrite Rmult_assoc, <- exp_plus in Q. replace (k * T + - k * T) with 0 in Q by ring. rewrite exp_0 in Q. lra.
Qed.

(** rate of a quantity whose log-velocity differs from - el by a residual *)
Section Slope.
Context {X : Type}.
Variables (xs : list (R * X)) (gs el : X -> C).
Hypothesis H1 : rsum (map fst xs) = 1.
Hypothesis Hp : forall p, In p (map fst xs) -> 0 <= p.
Let v := variance xs el.
Let r := variance xs (fun s => (gs s + C1 * el s)%C).
Lemma slope_split : Re (cov xs gs el) = Re (cov xs (fun s => (gs s + C1 * el s)%C) el) - v.
Proof.
  rewrite cov_add_l, cov_scal_l. pose proof (variance_cov xs el H1) as Q. rewrite <- Q. fold v. destruct (cov xs gs el) as [a b]. cbn. ring.
Qed.
Lemma slope_bound e : 0 < v -> r / v = e -> 0 <= e /\ - (1 + sqrt e) * v <= Re (cov xs gs el) <= - (1 - sqrt e) * v.
Proof.
  intros Hv He. pose proof (variance_nonneg xs (fun s => (gs s + C1 * el s)%C) Hp) as Hr. fold r in Hr.
  assert (E0 : 0 <= e) by (rewrite <- He; apply Rmult_le_pos; [exact Hr|left; now apply Rinv_0_lt_compat]). split; [exact E0|].
  rewrite slope_split. set (z := cov xs (fun s => (gs s + C1 * el s)%C) el).
  assert (Q : Re z * Re z <= (sqrt e * v) * (sqrt e * v)).
  { eapply Rle_trans; [apply Re_sq_le|]. eapply Rle_trans; [apply cov_cs; assumption|]. fold r v. replace ((sqrt e * v) * (sqrt e * v)) with ((sqrt e * sqrt e) * v * v) by ring.
    rewrite sqrt_sqrt by exact E0. rewrite <- He. apply Req_le. field. lra. }
  assert (P : 0 <= sqrt e * v) by (apply Rmult_le_pos; [apply sqrt_pos|lra]).
  pose proof (Rsqr_le_abs_0 (Re z) (sqrt e * v) Q) as A. rewrite (Rabs_right (sqrt e * v)) in A by lra.
  pose proof (Rle_abs (Re z)). pose proof (Rle_abs (- Re z)) as B. rewrite Rabs_Ropp in B. lra.
Qed.
Lemma slope_zero : v = 0 -> Re (cov xs gs el) = 0.
Proof. intros Hv. rewrite (cov_zero xs gs el H1 Hp Hv). reflexivity. Qed.
End Slope.

(** the variance is large while the energy is between the two lowest levels *)
Lemma spread_gap basis O es phi e0 e1 : hermitian_on basis O -> eigensystem basis O es -> 0 < norm2 basis phi ->
  (forall e v, In (e, v) es -> e = e0 \/ e1 <= e) -> e0 < e1 -> Re (expectation basis O phi) < e1 ->
  (Re (expectation basis O phi) - e0) * (e1 - Re (expectation basis O phi)) <= spread basis O phi.
Proof.
  intros Hh He Hn Hs Hg HE. assert (Q : Re (expectation basis O phi) - spread basis O phi / (e1 - Re (expectation basis O phi)) <= e0).
  { apply (temple basis O es phi Hh He Hn e0 e1); [|exact Hg|exact HE]. intros e v Hin. destruct (Hs e v Hin); [now left|right; lra]. }
  set (E := Re (expectation basis O phi)) in *. set (V := spread basis O phi) in *. apply (Rmult_le_compat_r (e1 - E)) in Q; [|lra].
  unfold Rdiv in Q. rewrite Rmult_minus_distr_r, Rmult_assoc, Rinv_l in Q by lra. lra.
Qed.
