(** The regularised inverse and the search for the cut-off. *)
From Coq Require Import List Reals Lra Lia Arith ZArith Bool.
From Verif Require Import Base Cplx Povm_Spec Povm_Proofs Povm3_Proofs Stats_Model Stats_Spec Stepper_Model Tdvp_Model Tdvp_Spec Tdvp_Proofs.
Import ListNotations.
Local Open Scope R_scope.

Lemma xdiv_fin a b r : xdiv a (Fin b) = Fin r -> b <> 0 /\ r = a / b.
Proof. cbn. destruct (Req_EM_T b 0) as [->|H]; [destruct (Rlt_dec 0 a); [|destruct (Rlt_dec a 0)]; discriminate|]. intros E. now inversion E. Qed.
Lemma xdiv_fin_ok a b : b <> 0 -> xdiv a (Fin b) = Fin (a / b).
Proof. intros H. cbn. now destruct (Req_EM_T b 0). Qed.
Lemma pow6_nonneg x : 0 <= x ^ 6.
Proof. replace (x ^ 6) with ((x ^ 3) * (x ^ 3)) by ring. apply Rle_0_sqr. Qed.
Lemma soft_cutoff_range a b r : soft_cutoff a b = Fin r -> 0 <= r <= 1.
Proof.
  unfold soft_cutoff. destruct (xdiv a b) as [x| | |]; cbn [xpow6 xplus1].
  - pose proof (pow6_nonneg x). intros E. apply xdiv_fin in E. destruct E as [_ ->]. split.
    + apply Rmult_le_pos; [lra|]. left. apply Rinv_0_lt_compat. lra.
    + apply (Rmult_le_reg_r (1 + x ^ 6)); [lra|]. unfold Rdiv. rewrite Rmult_assoc, Rinv_l by lra. lra.
  - cbn. intros E. inversion E. lra.
  - cbn. intros E. inversion E. lra.
  - discriminate.
Qed.
Lemma inv_ev_cases n ev k : inv_ev n ev k = 0 \/ (ev k <> 0 /\ inv_ev n ev k = 1 / ev k).
Proof.
  unfold inv_ev, rel_ev. destruct (xlt _ _) eqn:E; [|now left]. right. split; [|reflexivity]. intros H. rewrite H, Rabs_R0 in E. revert E. cbn.
  destruct (Req_EM_T _ 0).
  - destruct (Rlt_dec 0 0); [lra|]. cbn. discriminate.
  - destruct (Rlt_dec _ _) as [H1|]; [|discriminate]. exfalso. unfold Rdiv in H1. rewrite Rmult_0_l in H1.
    assert (0 < / 10 ^ 14) by (apply Rinv_0_lt_compat, pow_lt; lra). cbn in *. lra.
Qed.
Lemma pinv_ev_range n c sp cut k r : s_invEv sp = inv_ev n (s_ev sp) -> pinv_ev n c sp cut k = Fin r ->
  0 <= r * s_ev sp k <= 1 /\ (0 <= s_ev sp k -> 0 <= r).
Proof.
  intros Hi. unfold pinv_ev. rewrite Hi.
  assert (H : forall q, (if c_exact c then soft_cutoff (Rmax cut (c_pinvCutoff c)) (rel_ev n (s_ev sp) k)
     else xmul (soft_cutoff (Rmax cut (c_pinvCutoff c)) (rel_ev n (s_ev sp) k)) (soft_cutoff (c_snrTol c) (s_snr sp k))) = Fin q -> 0 <= q <= 1).
  { intros q. destruct (c_exact c); [apply soft_cutoff_range|]. destruct (soft_cutoff (Rmax _ _) _) eqn:E1; cbn [xmul]; try discriminate.
    destruct (soft_cutoff (c_snrTol c) _) eqn:E2; try discriminate. intros E. inversion E. apply soft_cutoff_range in E1, E2. subst.
    split; [apply Rmult_le_pos; lra|]. replace 1 with (1 * 1) by ring. apply Rmult_le_compat; lra. }
  destruct (if c_exact c then _ else _) as [q| | |]; cbn [xmul]; try discriminate. specialize (H q eq_refl). intros E. inversion E as [E1]. clear E E1.
  destruct (inv_ev_cases n (s_ev sp) k) as [Z|[Z1 Z2]].
  - rewrite Z. rewrite !Rmult_0_l. split; lra.
  - rewrite Z2. split.
    + replace (1 / s_ev sp k * q * s_ev sp k) with q by (field; assumption). exact H.
    + intros Hs. apply Rmult_le_pos; [|lra]. unfold Rdiv. rewrite Rmult_1_l. left. apply Rinv_0_lt_compat. lra.
Qed.

Lemma search_inv n c : forall fuel sp Fn res cut pv res' cut' pv', (pv = None \/ (pv = Some (pinv_ev n c sp cut) /\ res = residual_of n sp Fn (pinv_ev n c sp cut))) ->
  search n c fuel sp Fn res cut pv = Ok (res', cut', pv') -> pv' = None \/ (pv' = Some (pinv_ev n c sp cut') /\ res' = residual_of n sp Fn (pinv_ev n c sp cut')).
Proof.
  induction fuel as [|f IH]; intros sp Fn res cut pv res' cut' pv' Hp; cbn [search]; destruct (_ && _); try discriminate; intros E.
  - inversion E; subst. exact Hp.
  - eapply IH; [|exact E]. right. split; reflexivity.
  - inversion E; subst. exact Hp.
Qed.

Lemma finite_vec_spec n v p : finite_vec n v = Some p -> forall k, (k < n)%nat -> v k = Fin (p k).
Proof.
  unfold finite_vec. destruct (forallb _ _) eqn:E; [|discriminate]. intros H k Hk. inversion H. rewrite forallb_forall in E.
  specialize (E k ltac:(apply in_seq; lia)). now destruct (v k).
Qed.
Lemma finite_vec_ok n v (p : nat -> R) : (forall k, (k < n)%nat -> v k = Fin (p k)) -> exists q, finite_vec n v = Some q /\ forall k, (k < n)%nat -> q k = p k.
Proof.
  intros H. unfold finite_vec. assert (E : forallb (fun k => match v k with Fin _ => true | _ => false end) (seq 0 n) = true).
  { apply forallb_forall. intros k Hk. apply in_seq in Hk. rewrite H by lia. reflexivity. }
  rewrite E. eexists. split; [reflexivity|]. intros k Hk. cbv beta. now rewrite H.
Qed.

(** what the solver returns, in terms of some cut-off *)
Lemma regularise_spec n c fuel sp F u res cut : regularise n c fuel sp F = Ok (Some u, res, cut) ->
  exists cutoff p, (forall k, (k < n)%nat -> pinv_ev n c sp cutoff k = Fin (p k)) /\ cut = Rmax cutoff (c_pinvCutoff c)
    /\ (forall k, u k = Re (apply n (s_V sp) (fun j => (RtoC (p j) * s_VtF sp j)%C) k))
    /\ res = xdiv (len n (fun k => (RtoC (p k * s_ev sp k - 1) * s_VtF sp k)%C)) (Fin (len n F)).
Proof.
  unfold regularise. destruct (search _ _ _ _ _ _ _ _) as [[[r ct] pv]|] eqn:E; [|discriminate]. cbn [bind]. destruct pv as [pv|]; [|discriminate].
  apply search_inv in E; [|now left]. destruct E as [E|[E1 E2]]; [discriminate|]. inversion E1; subst pv. clear E1.
  intros H. inversion H as [[H1 H2 H3]]. clear H. exists ct. unfold residual_of in E2.
  destruct (finite_vec n (pinv_ev n c sp ct)) as [p|] eqn:Ep; [|discriminate]. exists p. split; [now apply finite_vec_spec|].
  split; [reflexivity|]. inversion H1. split; [reflexivity|]. rewrite <- H2. exact E2.
Qed.

(** ** termination *)
Lemma cutoff_reaches x : 0 < x -> exists N, / 10 ^ 2 * (8/10) ^ N <= x.
Proof.
  intros Hx. assert (A : Rabs (8/10) < 1) by (rewrite Rabs_right; lra). destruct (pow_lt_1_zero (8/10) A x Hx) as [N HN].
  exists N. specialize (HN N (Nat.le_refl N)). rewrite Rabs_right in HN by (apply Rle_ge, pow_le; lra).
  pose proof (pow_le (8/10) N ltac:(lra)). nra.
Qed.
Lemma search_terminates n c sp Fn : 0 < c_pinvCutoff c -> forall N res cut pv, cut * (8/10) ^ N <= c_pinvCutoff c ->
  exists r, search n c N sp Fn res cut pv = Ok r.
Proof.
  intros Hc. induction N as [|N IH]; intros res cut pv H; cbn [search].
  - cbn [pow] in H. destruct (Rlt_dec (c_pinvCutoff c) cut); [lra|]. rewrite andb_false_r. eauto.
  - destruct (_ && _); [|eauto]. apply IH. cbn [pow] in H. lra.
Qed.
Lemma search_more n c sp Fn : forall N M res cut pv r, (N <= M)%nat -> search n c N sp Fn res cut pv = Ok r -> search n c M sp Fn res cut pv = Ok r.
Proof.
  induction N as [|N IH]; intros M res cut pv r HM; [destruct M|destruct M; [lia|]]; cbn [search]; destruct (_ && _); try discriminate; intros E; try exact E.
  eapply IH; [lia|exact E].
Qed.
