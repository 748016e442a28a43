(** Statistics of a network of outcome probabilities and the motion of its mean values. *)
From Coq Require Import ZArith String List Reals Lra Lia Bool Arith Permutation.
From Verif Require Import Base Cplx Mpi_Model Mpi_Proofs Stats_Model Stats_Spec Stats_Proofs BranchFree_Model BranchFree_Spec OpBase_Model OpBase_Spec OpBase_Props.
From Verif Require Import Sampler_Spec Exact_Model Exact_Spec Exact_Proofs Vmc_Model Vmc_Spec Vmc_Proofs Vmc2_Proofs PovmOp_Model PovmOp_Spec PovmOp_Props Povm_Spec Many_Spec Many_Proofs Lind_Model Lind_Spec.
Import ListNotations.
From Verif Require Import Stats_Spec BranchFree_Model.
Local Open Scope R_scope.

(** ** mean values *)
Section Averages.
  Variables (N : nat) (l : list nat -> R).
  Lemma words_ne : words 4 N <> [].
  Proof. intros E. assert (H : In (repeat 0%nat N) (words 4 N)); [|rewrite E in H; destruct H]. apply in_words. split; [apply repeat_length|]. intros v Hv. apply repeat_spec in Hv. lia. Qed.
  Lemma total_pos : 0 < rsum (map (fun b => exp (l b)) (words 4 N)).
  Proof. apply rsum_map_pos; [apply words_ne|]. intros. apply exp_pos. Qed.
  Lemma distribution_pos a : 0 < distribution N l a.
  Proof. unfold distribution. pose proof total_pos. apply Rmult_lt_0_compat; [apply exp_pos|now apply Rinv_0_lt_compat]. Qed.
  Lemma average_ext X Y : (forall a, In a (words 4 N) -> X a = Y a) -> average N l X = average N l Y.
  Proof. intros H. apply rsum_ext. intros a Ha. now rewrite H. Qed.
  Lemma average_add X Y : average N l (fun a => X a + Y a) = average N l X + average N l Y.
  Proof. unfold average. rewrite <- rsum_map_add. apply rsum_ext. intros. ring. Qed.
  Lemma average_scal c X : average N l (fun a => c * X a) = c * average N l X.
  Proof. unfold average. rewrite <- rsum_scal. apply rsum_ext. intros. ring. Qed.
  Lemma average_one : average N l (fun _ => 1) = 1.
  Proof.
    unfold average, distribution. rewrite (rsum_ext _ (fun b => exp (l b) * / rsum (map (fun b => exp (l b)) (words 4 N)))) by (intros; unfold Rdiv; ring). rewrite rsum_scal_r. apply Rinv_r. pose proof total_pos. lra.
  Qed.
  Lemma average_const c : average N l (fun _ => c) = c.
  Proof. rewrite (average_ext _ (fun _ => c * 1)) by (intros; ring). rewrite average_scal, average_one. ring. Qed.
  Lemma average_nonneg X : (forall a, In a (words 4 N) -> 0 <= X a) -> 0 <= average N l X.
  Proof. intros H. apply rsum_map_nonneg. intros a Ha. apply Rmult_le_pos; [apply Rlt_le, distribution_pos|now apply H]. Qed.
  Lemma average_square X Y : average N l (fun a => X a * Y a) * average N l (fun a => X a * Y a) <= average N l (fun a => X a * X a) * average N l (fun a => Y a * Y a).
  Proof.
    set (A := average N l (fun a => X a * X a)). set (B := average N l (fun a => X a * Y a)). set (D := average N l (fun a => Y a * Y a)).
    assert (Q : forall s t, 0 <= s * s * A + 2 * s * t * B + t * t * D).
    { intros s t. replace (s * s * A + 2 * s * t * B + t * t * D) with (average N l (fun a => (s * X a + t * Y a) * (s * X a + t * Y a))).
      - apply average_nonneg. intros a _. apply Rle_0_sqr.
      - unfold A, B, D. rewrite <- !average_scal, <- !average_add. apply average_ext. intros. ring. }
    assert (HD : 0 <= D) by (unfold D; apply average_nonneg; intros; apply Rle_0_sqr).
    destruct (Req_dec D 0) as [Z|Z].
    - rewrite Z. assert (B = 0); [|nra]. specialize (Q 1 (- (A + 1) / (2 * B))) as Q'. rewrite Z in Q'. destruct (Req_dec B 0) as [E|E]; [exact E|]. exfalso. replace (1 * 1 * A + 2 * 1 * (- (A + 1) / (2 * B)) * B + - (A + 1) / (2 * B) * (- (A + 1) / (2 * B)) * 0) with (-1) in Q' by (field; exact E). lra.
    - pose proof (Q D (- B)) as Q'. replace (D * D * A + 2 * D * - B * B + - B * - B * D) with (D * (A * D - B * B)) in Q' by ring.
      assert (0 <= A * D - B * B); [|lra]. apply (Rmult_le_reg_l D); [lra|]. lra.
  Qed.
  Lemma covariance_centered X Y : covariance N l X Y = average N l (fun a => (X a - average N l X) * (Y a - average N l Y)).
  Proof.
    unfold covariance. set (x := average N l X). set (y := average N l Y).
    rewrite (average_ext (fun a => (X a - x) * (Y a - y)) (fun a => X a * Y a + ((- y) * X a + ((- x) * Y a + x * y)))) by (intros; ring).
    rewrite !average_add, !average_scal, average_const. fold x y. ring.
  Qed.
  Lemma covariance_square X Y : covariance N l X Y * covariance N l X Y <= variation N l X * variation N l Y.
  Proof. rewrite covariance_centered. apply average_square. Qed.
  Lemma covariance_minus X Y Z : covariance N l X (fun a => Y a - Z a) = covariance N l X Y - covariance N l X Z.
  Proof.
    unfold covariance. rewrite (average_ext (fun a => X a * (Y a - Z a)) (fun a => X a * Y a + (-1) * (X a * Z a))) by (intros; ring).
    rewrite (average_ext (fun a => Y a - Z a) (fun a => Y a + (-1) * Z a)) by (intros; ring). rewrite !average_add, !average_scal. ring.
  Qed.
  Lemma variation_nonneg X : 0 <= variation N l X.
  Proof. apply average_nonneg. intros. apply Rle_0_sqr. Qed.
  Lemma variation_ext X Y : (forall a, In a (words 4 N) -> X a = Y a) -> variation N l X = variation N l Y.
  Proof. intros H. unfold variation. rewrite (average_ext X Y H). apply average_ext. intros a Ha. now rewrite H. Qed.
End Averages.

(** mean values change by the covariance with the change of the logarithms *)
Lemma average_rate N n lp theta g X v : real_gradient n lp theta g ->
  derivable_pt_lim (fun t => average N (lp (moved theta v t)) X) 0 (covariance N (lp (moved theta v 0)) X (fun a => rsumn n (fun k => g a k * v k))).
Proof.
  intros HG. set (dl := fun a => rsumn n (fun k => g a k * v k)).
  pose proof (deriv_born (words 4 N) (fun a t => lp (moved theta v t) a / 2) (fun a _ => X a) (fun a => dl a / 2) (fun _ => 0) 0 (words_ne N)) as D.
  assert (BD : forall t a, Stats_Spec.born (words 4 N) (fun u => lp (moved theta v t) u / 2) a = distribution N (lp (moved theta v t)) a).
  { intros t a. unfold Stats_Spec.born, distribution. replace (2 * (lp (moved theta v t) a / 2)) with (lp (moved theta v t) a) by field. f_equal. apply rsum_ext. intros b _. f_equal. field. }
  eapply deriv_value; [eapply deriv_ext; [|apply D]|].
  - intros t. unfold average. apply rsum_ext. intros a _. now rewrite BD.
  - intros a _. apply (deriv_ext (fun t => / 2 * lp (moved theta v t) a)); [intros; field|]. eapply deriv_value; [apply (derivable_pt_lim_scal (fun t => lp (moved theta v t) a)); apply HG|]. unfold dl. field.
  - intros a _. apply derivable_pt_lim_const.
  - unfold covariance, average.
    rewrite (rsum_ext (fun s => _ * (2 * (dl s / 2) * X s)) (fun a => distribution N (lp (moved theta v 0)) a * (X a * dl a))) by (intros a _; rewrite BD; field).
    rewrite (rsum_ext (fun s => _ * (2 * (dl s / 2))) (fun a => distribution N (lp (moved theta v 0)) a * dl a)) by (intros a _; rewrite BD; field).
    rewrite (rsum_ext (fun s => _ * X s) (fun a => distribution N (lp (moved theta v 0)) a * X a)) by (intros a _; now rewrite BD).
    rewrite (rsum_ext (fun s => _ * 0) (fun _ => 0)) by (intros; ring). rewrite rsum_zero. fold dl. ring.
Qed.

(** ** the run *)
Section Run.
Variables (N : nat) (commSize devices : Z) (lastNorm : R) (logp : config -> R).
Hypothesis HN : (0 < N)%nat.
Hypothesis Hc : (0 < commSize)%Z.
Hypothesis Hd : (0 < devices)%Z.
Hypothesis Hfit : forall r, (0 <= r < commSize)%Z -> fits (4 ^ Z.of_nat N) commSize devices r.
Hypothesis Hst : (commSize <= 4 ^ Z.of_nat N)%Z.
Notation configs := (Vmc_Model.configs 4 N commSize devices).
Let half : config -> C := fun s => RtoC (logp s / 2).
Let phi : wavefun := fun s => Cexp (half s).

Lemma phi_weight s : Cnorm2 (phi s) = exp (logp s).
Proof. unfold phi, half. rewrite Cexp_norm2, <- exp_plus. f_equal. cbn. field. Qed.
Lemma basis_words : all_configs (Z.to_nat 4) N = words 4 N. Proof. reflexivity. Qed.
(** the probabilities of the sampler are those of a wave function with half the logarithms *)
Lemma probs_same : povm_probs N commSize devices lastNorm logp = Vmc_Model.probs 4 N commSize devices lastNorm half.
Proof.
  unfold povm_probs, Vmc_Model.probs.
  set (W := Vmc_Model.bases 4 N commSize devices).
  set (d1 := map (map (fun d : Z * list config => (fst d, map (povm_logs logp) (snd d)))) W). set (d2 := map (map (fun d : Z * list config => (fst d, map half (snd d)))) W).
  assert (C1' : all_counted d1 = map (povm_logs logp) (all_counted W)) by (apply (data_counted 4 N commSize devices (povm_logs logp))).
  assert (C2' : all_counted d2 = map half (all_counted W)) by (apply (data_counted 4 N commSize devices half)).
  assert (NE : all_counted W <> []).
  { intros E. pose proof (counted_perm 4 N commSize devices ltac:(lia) Hc Hd Hfit) as P. fold W in P. rewrite E in P. apply Permutation_nil in P. exact (words_ne N P). }
  destruct (exact_spec 1 lastNorm d1 ltac:(lra)) as [_ E1]. { rewrite C1'. intros E. apply map_eq_nil in E. now apply NE. }
  destruct (exact_spec (/ 2) lastNorm d2 ltac:(lra)) as [_ E2]. { rewrite C2'. intros E. apply map_eq_nil in E. now apply NE. }
  assert (WE : forall s, born_weight 1 (povm_logs logp s) = born_weight (/ 2) (half s)) by (intros s; unfold born_weight, povm_logs, half; f_equal; cbn; field).
  assert (ZE : rsum (map (born_weight 1) (all_counted d1)) = rsum (map (born_weight (/ 2)) (all_counted d2))) by (rewrite C1', C2', !map_map; apply rsum_ext; intros; apply WE).
  change (fst (exact_sample 1 lastNorm d1) = fst (exact_sample (/ 2) lastNorm d2)). rewrite E1, E2, ZE. cbn [fst]. generalize (rsum (map (born_weight (/ 2)) (all_counted d2))). intros zn. unfold d1, d2. rewrite !map_map. apply map_ext. intros r. rewrite !map_map. apply map_ext. intros d. unfold born_probs, counted. cbn [fst snd]. rewrite !map_length, !firstn_map, !map_map. f_equal.
  apply map_ext. intros s. now rewrite WE.
Qed.
Notation probs := (povm_probs N commSize devices lastNorm logp).
Lemma expect_real (F : config -> R) : expect (born_list (all_configs (Z.to_nat 4) N) phi) (fun s => RtoC (F s)) = RtoC (average N logp F).
Proof.
  rewrite basis_words. unfold expect, born_list, average. rewrite map_map. cbn [fst snd]. rewrite <- csum_RtoC, map_map. apply csum_ext. intros s _. rewrite Cscal_RtoC, <- RtoC_mul. f_equal. unfold distribution. rewrite phi_weight. do 2 f_equal. unfold norm2. apply rsum_ext. intros; apply phi_weight.
Qed.
Lemma cov_real (F G : config -> R) : cov (born_list (all_configs (Z.to_nat 4) N) phi) (fun s => RtoC (F s)) (fun s => RtoC (G s)) = RtoC (covariance N logp F G).
Proof.
  unfold cov. rewrite !expect_real, Cconj_RtoC. rewrite (expect_ext _ _ (fun s => RtoC (F s * G s))) by (intros; rewrite Cconj_RtoC; now rewrite RtoC_mul). rewrite expect_real. unfold covariance. set (z := average N logp (fun a : list nat => F a * G a)). change (average N logp (fun s : config => F s * G s)) with z. generalize (average N logp F) (average N logp G) z. intros x y z'. apply C_eq; cbn; ring.
Qed.
Lemma variance_real (F : config -> R) : variance (born_list (all_configs (Z.to_nat 4) N) phi) (fun s => RtoC (F s)) = variation N logp F.
Proof.
  apply RtoC_inj. rewrite variance_expect. transitivity (expect (born_list (all_configs (Z.to_nat 4) N) phi) (fun s => RtoC ((F s - average N logp F) * (F s - average N logp F)))).
  - apply expect_ext. intros px _. rewrite (expect_real F). f_equal. unfold Cnorm2. cbn -[average]. ring.
  - apply (expect_real (fun s => (F s - average N logp F) * (F s - average N logp F))).
Qed.
Lemma povm_mean {I} (h : config -> I -> R) i : mean (init (lmap (fun s j => RtoC (h s j)) configs) probs) i = RtoC (average N logp (fun s => h s i)).
Proof. rewrite probs_same, mean_of by (assumption || lia). apply (expect_real (fun s => h s i)). Qed.
Lemma povm_cov {I J} (h : config -> I -> R) (g : config -> J -> R) i j :
  covar (init (lmap (fun s j => RtoC (h s j)) configs) probs) (init (lmap (fun s j => RtoC (g s j)) configs) probs) (i, j) = RtoC (covariance N logp (fun s => h s i) (fun s => g s j)).
Proof. rewrite probs_same, cov_of by (assumption || lia). apply (cov_real (fun s => h s i) (fun s => g s j)). Qed.
Lemma povm_var {I} (h : config -> I -> R) i : var (init (lmap (fun s j => RtoC (h s j)) configs) probs) i = variation N logp (fun s => h s i).
Proof. rewrite probs_same, var_of by (assumption || lia). apply (variance_real (fun s => h s i)). Qed.
Lemma povm_shape {B} (h : config -> B) : shape_eq (lmap h configs) probs.
Proof. rewrite probs_same. apply shape_of; (assumption || lia). Qed.
Lemma povm_ok : weights_ok (flat probs).
Proof. rewrite probs_same. apply probs_ok; (assumption || lia). Qed.
(** variance over the weighted samples of a function of the configuration *)
Lemma povm_triples_variance {B D} (h : config -> B) (g : config -> D) (F : B * D -> C) (f : config -> R) : (forall s, F (h s, g s) = RtoC (f s)) ->
  variance (wtriples probs (lmap h configs) (lmap g configs)) F = variation N logp f.
Proof.
  intros E. rewrite probs_same, triples_of. rewrite (variance_map (fun s => (h s, g s)) (wpairs (Vmc_Model.probs 4 N commSize devices lastNorm half) configs)).
  apply RtoC_inj. rewrite <- variance_real, !variance_expect.
  rewrite (probs_expect 4 N commSize devices lastNorm half ltac:(lia) HN Hc Hd Hfit (fun s => F (h s, g s))).
  rewrite (probs_expect 4 N commSize devices lastNorm half ltac:(lia) HN Hc Hd Hfit (fun a => RtoC (Cnorm2 (F (h a, g a) - expect (born_list (all_configs (Z.to_nat 4) N) (fun s => Cexp (half s))) (fun s => F (h s, g s)))%C))).
  assert (X : forall xs : list (R * config), expect xs (fun s => F (h s, g s)) = expect xs (fun s => RtoC (f s))) by (intros xs; apply expect_ext; intros; apply E).
  rewrite X. apply expect_ext. intros s. now rewrite E.
Qed.

(** local values *)
Variables (mc : nat * list (list nat * (nat -> nat -> R))) (bs : nat).
Hypothesis Hclean : forall s, In s (words 4 N) -> clean (povm_elements mc s).
Definition local_value (s : config) : R := represented mc (distribution N logp) s / distribution N logp s.
Lemma local_elements s : O_loc_spec (povm_elements mc s) (amplitude (mk_state true (povm_logs logp))) s = RtoC (local_value s).
Proof.
  unfold O_loc_spec, povm_elements, local_value, represented, amplitude. cbn [st_log st_val]. rewrite map_map. cbn [fst snd]. unfold Rdiv. rewrite <- rsum_scal_r, <- csum_RtoC, map_map. apply csum_ext. intros [s' w] _. cbn [fst snd].
  assert (EX : forall c, Cexp (povm_logs logp c) = RtoC (exp (logp c))) by (intros c; unfold Cexp, povm_logs; apply C_eq; cbn; [rewrite cos_0|rewrite sin_0]; ring).
  rewrite !EX. pose proof (exp_pos (logp s)). pose proof (exp_pos (logp s')). pose proof (total_pos N logp) as ZP.
  unfold Cdiv. rewrite <- Cinv_RtoC_ by lra. rewrite <- !RtoC_mul. f_equal. unfold distribution. field. lra.
Qed.
Lemma wf_words s : wf_config (Z.to_nat 4) N s -> In s (words 4 N).
Proof. intros (L & _ & B). apply in_words. split; [exact L|exact B]. Qed.
Lemma povm_local_ok : povm_local N commSize devices logp mc bs = Ok (lmap (fun s => RtoC (local_value s)) configs).
Proof.
  assert (G : Forall (fun sl => sl <> [] /\ exists k, (1 <= k)%nat /\ Forall (fun l => length l = k) sl /\ Forall (Forall (wf_config (Z.to_nat 4) N)) sl) configs).
  { unfold Vmc_Model.configs, Vmc_Model.bases. rewrite map_map. apply Forall_map, Forall_forall. intros r Hr. apply in_seq in Hr. apply rank_shape; (assumption || lia). }
  unfold povm_local, lmap. rewrite <- (map_id configs) at 1. rewrite combine_map.
  rewrite (mapM_eq _ (fun sl => map (map (fun s => RtoC (local_value s))) (fst sl))).
  - now rewrite map_map.
  - apply Forall_map. eapply Forall_impl; [|exact G]. intros sl (Hne & k & Hk & HL & HF). cbn [fst snd].
    rewrite (C16_value_partial (povm_elements mc) (mk_state true (povm_logs logp)) N bs k sl (map (map (povm_logs logp)) sl)); [| | | | | | |].
    + cbn [bind]. apply f_equal, map_ext_in. intros l Hl'. apply map_ext_in. intros s Hs. apply local_elements.
    + assumption.
    + assumption.
    + assumption.
    + clear. induction sl as [|l sl IH]; cbn; constructor; [|exact IH]. induction l; cbn; constructor; [reflexivity|assumption].
    + eapply Forall_impl; [|exact HF]. intros l Hl'. eapply Forall_impl; [|exact Hl']. intros s Hs. now apply Hclean, wf_words.
    + cbn. discriminate.
    + right. left. reflexivity.
Qed.
Lemma povm_obs_ok : povm_obs N commSize devices lastNorm logp mc bs = Ok (init (lmap (fun s (_ : unit) => RtoC (local_value s)) configs) probs).
Proof.
  unfold povm_obs. rewrite povm_local_ok. cbn [bind]. unfold lmap. rewrite map_map. apply (f_equal (fun X => Ok (init X probs))). apply map_ext. intros r. rewrite map_map. apply map_ext. intros l. now rewrite map_map.
Qed.
End Run.
