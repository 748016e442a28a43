(** Variance of the force, end of the search, a small example. *)
From Coq Require Import List Reals Lra Lia Arith ZArith Bool.
From Verif Require Import Base Cplx Povm_Spec Povm_Proofs Mpi_Model Stats_Model Stats_Spec Stats_Proofs Sampler_Model Stepper_Model
  Vqs_Model Vqs_Spec Tdvp_Model Tdvp_Spec Tdvp_Proofs Tdvp2_Proofs Tdvp3_Proofs Tdvp4_Proofs Tdvp5_Proofs.
Import ListNotations.
Local Open Scope R_scope.

Lemma rhoVar_spec n c w g e V k : shape_eq g w -> shape_eq e w -> weights_ok (flat w) -> (forall p, In p (flat w) -> 0 < p) ->
  get_rhoVar n c V (init e w) (init g w) k = force_variance n (c_imag c) (c_prefactor c) w g e (fun l => V l k).
Proof.
  intros Hg He Hw Hp. rewrite rhoVar_variance by assumption. change (lmap2 _ _ w) with (cd_obs (init g w) (init e w)).
  rewrite (cd_pairs g e w Hg He Hp). unfold force_variance.
  rewrite (variance_map (fun ab ij => (Cconj (fst ab (fst ij) - expect (wtriples w g e) (fun ab0 => fst ab0 (fst ij))) * (snd ab (snd ij) - expect (wtriples w g e) (fun ab0 => snd ab0 (snd ij))))%C) (wtriples w g e)).
  apply variance_ext. intros px _. unfold inner. apply csumn_ext. intros l Hl. f_equal. unfold transform_helper, force_sample. rewrite makeReal_part. f_equal. cbn [fst snd]. ring.
Qed.

(** ** end of the search *)
Lemma search_end n c : forall fuel sp Fn res cut pv res' cut' pv', search n c fuel sp Fn res cut pv = Ok (res', cut', pv') ->
  (xlt (Fin (c_pinvTol c)) res' = true -> cut' <= c_pinvCutoff c) /\ (0 < cut -> cut' <= cut) /\ (0 < cut -> 0 < cut').
Proof.
  induction fuel as [|f IH]; intros sp Fn res cut pv res' cut' pv'; cbn [search]; destruct (xlt _ res && _) eqn:B; try discriminate; intros E.
  - injection E as E1 E2 E3. subst res' cut' pv'. split; [|split; lra]. intros X. rewrite X in B. cbn in B. destruct (Rlt_dec _ _); [discriminate|]. lra.
  - apply IH in E. destruct E as (E1 & E2 & E3). split; [exact E1|]. split; intros; [specialize (E2 ltac:(lra)); lra|apply E3; lra].
  - injection E as E1 E2 E3. subst res' cut' pv'. split; [|split; lra]. intros X. rewrite X in B. cbn in B. destruct (Rlt_dec _ _); [discriminate|]. lra.
Qed.
Lemma search_runs n c fuel sp Fn r : c_pinvTol c < 1 -> c_pinvCutoff c < / 10 ^ 2 -> search n c fuel sp Fn (Fin 1) (/ 10 ^ 2) None = Ok r ->
  snd r <> None /\ snd (fst r) <= / 10 ^ 2 * (8/10).
Proof.
  intros H1 H2. destruct fuel as [|f]; cbn [search xlt]; destruct (Rlt_dec _ 1); try lra; destruct (Rlt_dec _ (/ 10 ^ 2)); try lra; cbn [andb]; [discriminate|].
  intros E. destruct r as [[a b] d]. split.
  - cbn [snd]. clear -E. revert E. generalize (residual_of n sp Fn (pinv_ev n c sp (/ 10 ^ 2 * (8/10)))), (/ 10 ^ 2 * (8/10)), (pinv_ev n c sp (/ 10 ^ 2 * (8/10))).
    induction f as [|f IH]; intros x y z; cbn [search]; destruct (_ && _); try discriminate; intros E; try (injection E as _ _ <-; discriminate). now apply IH in E.
  - apply search_end in E. assert (0 < / 10 ^ 2) by (apply Rinv_0_lt_compat, pow_lt; lra). cbn [fst snd] in *. apply E. lra.
Qed.

(** finite updates *)
Lemma soft_cutoff_finite a r : a <> 0 \/ r <> Fin 0 -> r <> NaN -> exists q, soft_cutoff a r = Fin q.
Proof.
  intros H0 H. unfold soft_cutoff. destruct r as [x| | |]; try contradiction; cbn [xdiv].
  - destruct (Req_EM_T x 0) as [->|N].
    + destruct (Rlt_dec 0 a); [cbn; eauto|]. destruct (Rlt_dec a 0); [cbn; eauto|]. destruct H0 as [H0|H0]; [lra|congruence].
    + cbn [xpow6 xplus1]. rewrite xdiv_fin_ok; [eauto|]. pose proof (pow6_nonneg (a / x)). lra.
  - cbn. destruct (Req_EM_T _ 0) as [Z|]; [|eauto]. exfalso. lra.
  - cbn. destruct (Req_EM_T _ 0) as [Z|]; [|eauto]. exfalso. lra.
Qed.
Lemma pinv_finite n c sp cut k : 0 < cut -> s_ev sp (n - 1)%nat <> 0 ->
  (c_exact c = true \/ (s_snr sp k <> NaN /\ (c_snrTol c <> 0 \/ s_snr sp k <> Fin 0))) -> exists r, pinv_ev n c sp cut k = Fin r.
Proof.
  intros Hc Hl Hx. unfold pinv_ev. pose proof (Rmax_l cut (c_pinvCutoff c)).
  destruct (soft_cutoff_finite (Rmax cut (c_pinvCutoff c)) (rel_ev n (s_ev sp) k)) as [q Q].
  - left. lra.
  - unfold rel_ev. rewrite xdiv_fin_ok; [discriminate|]. now apply Rabs_no_R0.
  - rewrite Q. destruct (c_exact c); [cbn; eauto|]. destruct Hx as [Hx|[H1 H2]]; [discriminate|].
    destruct (soft_cutoff_finite (c_snrTol c) (s_snr sp k) H2 H1) as [q' Q']. rewrite Q'. cbn. eauto.
Qed.
Lemma finite_update n v : (forall k, (k < n)%nat -> exists r, v k = Fin r) -> exists p, finite_vec n v = Some p.
Proof.
  intros H. unfold finite_vec. assert (E : forallb (fun k => match v k with Fin _ => true | _ => false end) (seq 0 n) = true).
  { apply forallb_forall. intros k Hk. apply in_seq in Hk. destruct (H k) as [r ->]; [lia|reflexivity]. }
  rewrite E. eauto.
Qed.

(** ** an example: four states with equal weights, one parameter, gradient and energy 1, 0, 0, 0 *)
Definition w4 : layout R := [[[1/4; 1/4; 1/4; 1/4]]].
Definition g4 : layout (nat -> C) := [[[fun _ => C1; fun _ => C0; fun _ => C0; fun _ => C0]]].
Definition e4 : layout (unit -> C) := [[[fun _ => C1; fun _ => C0; fun _ => C0; fun _ => C0]]].
Definition eigh1 (A : nat -> nat -> C) : result ((nat -> R) * (nat -> nat -> C)) := Ok (fun _ => Re (A 0%nat 0%nat), fun _ _ => C1).
Lemma eigh1_solves : solves_eigenproblem 1 eigh1.
Proof.
  intros A ev V HA E. inversion E; subst. clear E. pose proof (HA 0%nat 0%nat ltac:(lia) ltac:(lia)) as H. unfold dagger in H.
  split; [|intros _ i j _ _; reflexivity]. split; [split|split].
  - intros i j Hi Hj. replace i with 0%nat by lia. replace j with 0%nat by lia. unfold mul, dagger, csumn, ident. cbn. Cunf. apply C_eq; cbn; ring.
  - intros i j Hi Hj. replace i with 0%nat by lia. replace j with 0%nat by lia. unfold mul, dagger, csumn, ident. cbn. Cunf. apply C_eq; cbn; ring.
  - intros i j Hi Hj. replace i with 0%nat by lia. unfold mul, csumn. cbn [seq map]. rewrite csum_cons, csum_nil.
    rewrite (Im0_RtoC (A 0%nat 0%nat)) at 1; [ring|]. destruct (A 0%nat 0%nat) as [a b]. cbn in *. inversion H. lra.
  - intros. lra.
Qed.
Lemma g4_shape : shape_eq g4 w4. Proof. repeat constructor. Qed.
Lemma e4_shape : shape_eq e4 w4. Proof. repeat constructor. Qed.
Lemma w4_pos p : In p (flat w4) -> 0 < p.
Proof. cbn. intros H. repeat (destruct H as [<-|H]; [lra|]). contradiction. Qed.
Lemma w4_ok : weights_ok (flat w4).
Proof. split; [intros p Hp; left; now apply w4_pos|]. cbn. lra. Qed.
Lemma cov4_g k l : cov (wpairs w4 g4) (fun s => s k) (fun s => s l) = RtoC (3/16).
Proof. unfold cov, expect, wpairs. cbn. Cunf. apply C_eq; cbn; lra. Qed.
Lemma mean4_g k : expect (wtriples w4 g4 e4) (fun s => fst s k) = RtoC (1/4).
Proof. unfold expect, wtriples. cbn. Cunf. apply C_eq; cbn; lra. Qed.
Lemma mean4_e : expect (wtriples w4 g4 e4) (fun s => snd s tt) = RtoC (1/4).
Proof. unfold expect, wtriples. cbn. Cunf. apply C_eq; cbn; lra. Qed.
Lemma cov4_e k : cov (wtriples w4 g4 e4) (fun s => fst s k) (fun s => snd s tt) = RtoC (3/16).
Proof. unfold cov. rewrite mean4_g, mean4_e. unfold expect, wtriples. cbn. Cunf. apply C_eq; cbn; lra. Qed.
Lemma fisher4 k l : fisher false 0 w4 g4 k l = RtoC (3/16).
Proof. unfold fisher, part. rewrite cov4_g. destruct (Nat.eqb k l); Cunf; apply C_eq; cbn; lra. Qed.
Lemma force4 k : force false C1 w4 g4 e4 k = RtoC (- (3/16)).
Proof. unfold force, part. rewrite cov4_e. Cunf; apply C_eq; cbn; lra. Qed.
Lemma force4_nonzero : nonzero 1 (force false C1 w4 g4 e4).
Proof. exists 0%nat. split; [lia|]. rewrite force4. intros H. apply (f_equal Re) in H. cbn in H. lra. Qed.
Lemma force_variance4 : force_variance 1 false C1 w4 g4 e4 (fun _ => C1) = 3/64.
Proof.
  unfold force_variance. rewrite (variance_ext _ _ (fun s => RtoC (- Re (Cconj (fst s 0%nat - RtoC (1/4)) * (snd s tt - RtoC (1/4)))%C))).
  - unfold variance, expect, wtriples. cbn. Cunf. cbn. lra.
  - intros px _. unfold inner, csumn. cbn [seq map]. rewrite csum_cons, csum_nil. unfold force_sample. rewrite mean4_g, mean4_e. unfold part.
    destruct px as [q [a b]]. cbn [fst snd]. Cunf. apply C_eq; cbn; ring.
Qed.
(** settings: Monte-Carlo sampler or not, all others as in the constructor, with q = Re, x = 1 *)
Definition set4 (exact : bool) (tol cutoff : R) : settings := mk_settings exact 2 tol cutoff false C1 0 false true.
Lemma shift4 exact tol cutoff : applied_shift (c_shift (set4 exact tol cutoff)) 0.
Proof. right. cbn [set4 c_shift]. split; [|reflexivity]. left. apply Rinv_0_lt_compat, pow_lt. lra. Qed.
Definition o4 : tdvp := mk_tdvp None None None None None None None.
(** what solve stores *)
Lemma spectrum4 exact tol cutoff fuel N o : exists sp o',
  solve 1 eigh1 eigh1 (set4 exact tol cutoff) fuel N o (init e4 w4) (init g4 w4)
    = (o', regularise 1 (set4 exact tol cutoff) fuel sp (snd (snd (get_tdvp_equation (set4 exact tol cutoff) o (init e4 w4) (init g4 w4)))))
  /\ o_sp o' = Some sp
  /\ s_ev sp 0%nat = 3/16 /\ s_VtF sp 0%nat = RtoC (- (3/16)) /\ s_rhoVar sp 0%nat = 3/64 /\ s_snr sp 0%nat = xsqrt (Fin (Rabs (IZR N * (9/256) / (3/64))))
  /\ s_V sp = (fun _ _ => C1) /\ s_invEv sp 0%nat = 16/3.
Proof.
  set (c := set4 exact tol cutoff).
  pose proof (equation_S c w4 g4 e4 0 g4_shape w4_ok (shift4 exact tol cutoff) o 0%nat 0%nat) as QS.
  pose proof (equation_F c w4 g4 e4 g4_shape e4_shape w4_ok o) as QF.
  change (c_imag c) with false in QS, QF. change (c_prefactor c) with C1 in QF. rewrite fisher4 in QS.
  unfold solve. destruct (get_tdvp_equation c o (init e4 w4) (init g4 w4)) as [o1 [A Fm]]. cbn [fst snd] in QS, QF.
  change (eigenbasis eigh1 eigh1 c A) with (Ok (fun _ : nat => Re (A 0%nat 0%nat), fun _ _ : nat => C1)). cbv beta iota zeta. do 2 eexists. split; [reflexivity|]. cbn [o_sp s_ev s_VtF s_rhoVar s_snr s_V s_invEv].
  assert (VF : dot 1 (conj_transpose (fun _ _ => C1)) Fm 0%nat = RtoC (- (3/16))).
  { unfold dot, conj_transpose, csumn. cbn [seq map]. rewrite csum_cons, csum_nil, QF, force4. Cunf. apply C_eq; cbn; ring. }
  assert (RV : get_rhoVar 1 c (fun _ _ => C1) (init e4 w4) (init g4 w4) 0%nat = 3/64).
  { rewrite rhoVar_spec by (first [exact g4_shape|exact e4_shape|exact w4_ok|exact w4_pos]). exact force_variance4. }
  split; [reflexivity|]. split; [rewrite QS; reflexivity|]. split; [exact VF|]. split; [exact RV|]. split; [|split; [reflexivity|]].
  - unfold get_snr. rewrite VF, RV, Cnorm2_RtoC, xdiv_fin_ok by lra. cbn [xabs]. do 3 f_equal. field.
  - unfold inv_ev, rel_ev. cbn [Nat.sub]. rewrite QS. unfold Re, RtoC. cbn [fst]. rewrite xdiv_fin_ok by (rewrite Rabs_right; lra). rewrite Rabs_right by lra. cbn [xlt].
    destruct (Rlt_dec _ _) as [|N0]; [field|]. exfalso. apply N0. replace (3/16 / (3/16)) with 1 by field. apply (Rmult_lt_reg_l (10 ^ 14)); [apply pow_lt; lra|]. rewrite Rinv_r by (apply pow_nonzero; lra). rewrite Rmult_1_r. apply Rlt_pow_R1; [lra|lia].
Qed.
