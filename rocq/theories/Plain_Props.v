(** Property C81: states whose network returns psi instead of ln psi. *)
From Coq Require Import ZArith List Reals Lra Lia Bool Arith.
From Verif Require Import Base Cplx Stats_Model BranchFree_Model OpBase_Model OpBase_Spec OpBase_Props Dist Sampler_Model Sampler_Spec Sampler_Proofs Sampler2_Proofs Sampler_Props
  Exact_Model Exact_Spec Exact_Proofs Exact_Props Vqs_Model Vqs_Spec Vqs_Proofs Vqs_Props Plain_Model Plain_Spec.
Import ListNotations.

Lemma modulus_pow_exp a z : modulus_pow a (Cexp z) = exp (a * Re z)%R.
Proof.
  unfold modulus_pow. rewrite Cexp_norm2. pose proof (exp_pos (Re z)). destruct (Req_EM_T _ 0) as [e|_].
  - exfalso. assert (0 < exp (Re z) * exp (Re z))%R by now apply Rmult_lt_0_compat. lra.
  - rewrite sqrt_square by lra. unfold Rpower. now rewrite ln_exp.
Qed.
Lemma counted_map {A B} (f : A -> B) (d : Z * list A) : counted (fst d, map f (snd d)) = map f (counted d).
Proof. unfold counted. cbn [fst snd]. apply firstn_map. Qed.
Lemma all_counted_map {A B} (f : A -> B) basis :
  all_counted (map (map (fun d => (fst d, map f (snd d)))) basis) = map f (all_counted basis).
Proof.
  unfold all_counted. rewrite <- (concat_map (fun d : Z * list A => (fst d, map f (snd d)))), map_map, (concat_map f), map_map. f_equal. apply map_ext. intros d. apply counted_map.
Qed.

(** what the code does, whatever the flag says *)
Lemma exact_any lpf history q p basis : lpf <> 0%R -> all_counted basis <> [] ->
  fst (vs_exact lpf (exact_samples lpf 0 history) q p basis)
  = normalised (fun s => modulus_pow (1 / lpf) (Cexp (vs_net q p s))) basis.
Proof.
  intros Hl Hne. unfold vs_exact.
  destruct (exact_spec lpf (exact_samples lpf 0 history) (map (map (fun d => (fst d, map (vs_call q p) (snd d)))) basis) Hl) as [_ E].
  { rewrite all_counted_map. intros X. apply map_eq_nil in X. contradiction. }
  rewrite E. cbn [fst]. unfold normalised. rewrite map_map. apply map_ext. intros ds. rewrite map_map. apply map_ext. intros d.
  unfold born_probs. rewrite counted_map, map_map. cbn [fst snd]. rewrite map_length.
  assert (W : forall s, born_weight lpf (vs_call q p s) = modulus_pow (1 / lpf) (Cexp (vs_net q p s))).
  { intros s. rewrite modulus_pow_exp. unfold born_weight, vs_call. f_equal. field. exact Hl. }
  f_equal. apply map_ext. intros s. rewrite W. f_equal. f_equal. rewrite all_counted_map, map_map. apply map_ext. intros t. apply W.
Qed.
Lemma chain_any q p space prop mu : good_proposal space prop ->
  (forall s t, In s space -> In t space ->
     modulus_pow mu (Cexp (vs_net q p s)) * Pr (single_update (vs_chain_net q p) mu prop s) t
     = modulus_pow mu (Cexp (vs_net q p t)) * Pr (single_update (vs_chain_net q p) mu prop t) s)%R.
Proof.
  intros HG s t Hs Ht. rewrite !modulus_pow_exp. destruct (good_samples space prop HG (vs_chain_net q p) mu) as (H1 & _). now apply H1.
Qed.

Lemma derivable_Cexp (x y : R -> R) a b : derivable_pt_lim x 0 a -> derivable_pt_lim y 0 b ->
  derivable_pt_lim (fun t => Re (Cexp (x t, y t))) 0 (Re (Cmul (Cexp (x 0%R, y 0%R)) (a, b)))
  /\ derivable_pt_lim (fun t => Im (Cexp (x t, y t))) 0 (Im (Cmul (Cexp (x 0%R, y 0%R)) (a, b))).
Proof.
  intros Hx Hy.
  assert (He : derivable_pt_lim (fun t => exp (x t)) 0 (exp (x 0%R) * a)%R).
  { apply (derivable_pt_lim_comp x exp); [exact Hx|apply derivable_pt_lim_exp]. }
  assert (Hc : derivable_pt_lim (fun t => cos (y t)) 0 (- sin (y 0%R) * b)%R).
  { apply (derivable_pt_lim_comp y cos); [exact Hy|apply derivable_pt_lim_cos]. }
  assert (Hs : derivable_pt_lim (fun t => sin (y t)) 0 (cos (y 0%R) * b)%R).
  { apply (derivable_pt_lim_comp y sin); [exact Hy|apply derivable_pt_lim_sin]. }
  pose proof (derivable_pt_lim_mult _ _ _ _ _ He Hc) as H1. pose proof (derivable_pt_lim_mult _ _ _ _ _ He Hs) as H2. split.
  - match goal with |- derivable_pt_lim _ _ ?l => match type of H1 with derivable_pt_lim _ _ ?m => replace l with m by (cbn; ring) end end. exact H1.
  - match goal with |- derivable_pt_lim _ _ ?l => match type of H2 with derivable_pt_lim _ _ ?m => replace l with m by (cbn; ring) end end. exact H2.
Qed.
Lemma shift_0 k P : shift_entry k 0 P = P.
Proof. revert k. induction P as [|x P IH]; intros [|k]; cbn; try reflexivity; [now rewrite Rplus_0_r|now rewrite IH]. Qed.

(** ** logarithmic states *)
(** every part of the library works with the coefficients of a logarithmic state: the exact sampler
    after any history, the Markov chain, the gradients, the local estimators *)
Theorem C81_exact_partial lpf history q p basis : vs_log q = true -> lpf <> 0%R -> all_counted basis <> [] ->
  fst (vs_exact lpf (exact_samples lpf 0 history) q p basis) = normalised (fun s => modulus_pow (1 / lpf) (coefficient q p s)) basis.
Proof. intros Hq Hl Hne. rewrite exact_any by assumption. unfold coefficient. now rewrite Hq. Qed.
Print Assumptions C81_exact_partial.

Theorem C81_markov_partial q p space prop mu : vs_log q = true -> good_proposal space prop -> forall s t, In s space -> In t space ->
  (modulus_pow mu (coefficient q p s) * Pr (single_update (vs_chain_net q p) mu prop s) t
   = modulus_pow mu (coefficient q p t) * Pr (single_update (vs_chain_net q p) mu prop t) s)%R.
Proof. intros Hq HG. unfold coefficient. rewrite Hq. now apply chain_any. Qed.
Print Assumptions C81_markov_partial.

Theorem C81_gradient_partial q s (par : nqs) gr gi holomorphic : vs_log q = true -> good par ->
  is_jax_grad (nq_real par) (fun p => Re (vs_differentiated q s p)) (nq_params par) gr ->
  is_jax_grad (nq_real par) (fun p => Im (vs_differentiated q s p)) (nq_params par) gi ->
  (holomorphic = true -> nq_real par = false /\ cauchy_riemann (vs_differentiated q s) (nq_params par)) ->
  forall k, k < flat_size par -> log_derivative (fun p => coefficient q p s) par k (nth k (gradients (nq_real par) holomorphic gr gi) C0).
Proof.
  intros Hq Hg Hr Hi Hh k Hk. destruct (C40_gradients_partial _ _ _ _ _ Hg Hr Hi Hh) as [_ HD].
  destruct (HD k Hk) as (P & net & HP & Hn & D1 & D2). unfold log_derivative. exists P, net. split; [exact HP|]. split; [exact Hn|].
  assert (N0 : nq_params (net 0%R) = nq_params par).
  { specialize (Hn 0%R). rewrite shift_0 in Hn. destruct (C39_get_set par Hg) as (P' & G' & _ & S'). rewrite HP in G'. inversion G'; subst P'. rewrite S' in Hn. now inversion Hn. }
  set (d := nth k _ C0) in *. unfold coefficient. rewrite Hq. unfold vs_differentiated, vs_call in D1, D2. rewrite <- N0.
  pose proof (derivable_Cexp _ _ _ _ D1 D2) as H. cbv beta in H.
  assert (X : forall z : C, (Re z, Im z) = z) by (intros [u v]; reflexivity).
  rewrite !X in H. destruct H as [H1 H2]. split.
  - eapply derivable_pt_lim_ext; [|exact H1]. intros t. cbv beta. now rewrite X.
  - eapply derivable_pt_lim_ext; [|exact H2]. intros t. cbv beta. now rewrite X.
Qed.
Print Assumptions C81_gradient_partial.

(** the local estimators also honour the flag (C16): ratios of coefficients, if the operator is given the
    right logarithms for the samples *)
Theorem C81_estimator_partial q p op nsites (samples : list (list config)) (lps : list (list C)) n : samples <> [] -> 1 <= n -> Forall (fun l => length l = n) samples ->
  Forall2 (Forall2 (fun s y => Cexp y = coefficient q p s)) samples lps -> Forall (Forall (fun s => clean (op s))) samples ->
  (vs_log q = false -> forall s s' m, In (s', m) (op s) -> m <> C0 -> coefficient q p s' <> C0) ->
  get_O_loc op (vs_operator q p) nsites 0 samples (Some lps)
  = Ok (Some (map (map (fun s => csum (map (fun sm => Cmul (snd sm) (Cdiv (coefficient q p (fst sm)) (coefficient q p s))) (op s)))) samples)).
Proof.
  intros Hs Hn HL Hy Hc Hz. exact (C16_value_partial op (vs_operator q p) nsites 0 n samples lps Hs Hn HL Hy Hc Hz (or_introl eq_refl)).
Qed.
Print Assumptions C81_estimator_partial.

(** ** plain states *)
(** psi is treated like a logarithm by everything else: sampled are the Born weights of exp(psi), and
    the gradients are those of psi; they have to be divided by psi to be the promised ones *)
Theorem C81_plain_partial q p : vs_log q = false ->
  (forall lpf history basis, lpf <> 0%R -> all_counted basis <> [] ->
     fst (vs_exact lpf (exact_samples lpf 0 history) q p basis) = normalised (fun s => modulus_pow (1 / lpf) (Cexp (coefficient q p s))) basis)
  /\ (forall space prop mu, good_proposal space prop -> forall s t, In s space -> In t space ->
     modulus_pow mu (Cexp (coefficient q p s)) * Pr (single_update (vs_chain_net q p) mu prop s) t
     = modulus_pow mu (Cexp (coefficient q p t)) * Pr (single_update (vs_chain_net q p) mu prop t) s)%R
  /\ (forall s (par : nqs) gr gi holomorphic, good par ->
     is_jax_grad (nq_real par) (fun p => Re (vs_differentiated q s p)) (nq_params par) gr ->
     is_jax_grad (nq_real par) (fun p => Im (vs_differentiated q s p)) (nq_params par) gi ->
     (holomorphic = true -> nq_real par = false /\ cauchy_riemann (vs_differentiated q s) (nq_params par)) ->
     coefficient q (nq_params par) s <> C0 -> forall k, k < flat_size par ->
     let g := nth k (gradients (nq_real par) holomorphic gr gi) C0 in
     derivative_at (fun p => coefficient q p s) par k g
     /\ log_derivative (fun p => coefficient q p s) par k (Cdiv g (coefficient q (nq_params par) s))).
Proof.
  intros Hq. unfold coefficient. rewrite Hq. split; [|split].
  - intros lpf history basis. now apply exact_any.
  - intros. now apply (chain_any q p space).
  - intros s par gr gi holomorphic Hg Hr Hi Hh Hz k Hk. set (g := nth k (gradients (nq_real par) holomorphic gr gi) C0). destruct (C40_gradients_partial _ _ _ _ _ Hg Hr Hi Hh) as [_ HD].
    specialize (HD k Hk). split; [exact HD|]. unfold log_derivative.
    replace (Cmul (vs_net q (nq_params par) s) (Cdiv g (vs_net q (nq_params par) s))) with g; [exact HD|]. field. exact Hz.
Qed.
Print Assumptions C81_plain_partial.

(** psi(0) = 0, psi(1) = 1: the exact sampler and the Markov chain should never see 0 *)
Definition basis_state : vstate := mk_vstate false (fun _ s => RtoC (INR (hd 0 s))).
Theorem C81_exact_refuted : exists q p basis, vs_log q = false /\ basis = [get_basis 0 1 1 2 1]
  /\ normalised (fun s => modulus_pow (1 / / 2) (coefficient q p s)) basis = [[[0; 1]]]%R
  /\ fst (vs_exact (/ 2) 0 q p basis) <> [[[0; 1]]]%R.
Proof.
  exists basis_state, [], [get_basis 0 1 1 2 1]. split; [reflexivity|]. split; [reflexivity|].
  assert (B : [get_basis 0 1 1 2 1] = [[(2%Z, [[0]; [1]])]]) by reflexivity. rewrite B.
  assert (M0 : modulus_pow (1 / / 2) (coefficient basis_state [] [0]) = 0%R).
  { unfold modulus_pow. destruct (Req_EM_T _ 0) as [_|n]; [reflexivity|]. exfalso. apply n. unfold Cnorm2. cbn. ring. }
  assert (M1 : modulus_pow (1 / / 2) (coefficient basis_state [] [1]) = 1%R).
  { unfold modulus_pow. replace (Cnorm2 (coefficient basis_state [] [1])) with 1%R by (unfold Cnorm2; cbn; ring).
    destruct (Req_EM_T 1 0); [lra|]. rewrite sqrt_1. unfold Rpower. rewrite ln_1, Rmult_0_r. apply exp_0. }
  split.
  - unfold normalised, all_counted, counted. cbn [map concat app fst snd]. change (Z.to_nat 2) with 2. cbn [firstn app map length Nat.sub repeat].
    rewrite M0, M1. unfold rsum. cbn. repeat f_equal; field.
  - pose proof (exact_any (/ 2) [] basis_state [] [[(2%Z, [[0]; [1]])]] ltac:(lra)) as H. cbn [exact_samples] in H. rewrite H by discriminate. clear H.
    unfold normalised, all_counted, counted. cbn [map concat app fst snd]. change (Z.to_nat 2) with 2. cbn [firstn app map length Nat.sub repeat].
    rewrite !modulus_pow_exp. intros X. inversion X as [[X0 X1]]. clear X X1.
    match type of X0 with (?a / ?b)%R = 0%R => assert (0 < a)%R by apply exp_pos; assert (0 < b)%R end.
    { unfold rsum. cbn [fold_right map]. match goal with |- (0 < exp ?u + (exp ?v + 0))%R => pose proof (exp_pos u); pose proof (exp_pos v) end. lra. }
    match type of X0 with (?a / ?b)%R = 0%R => pose proof (Rdiv_lt_0_compat a b ltac:(assumption) ltac:(assumption)) end. lra.
Qed.
Print Assumptions C81_exact_refuted.

Theorem C81_markov_refuted : exists q p space prop, vs_log q = false /\ good_proposal space prop
  /\ exists t, In t space /\ modulus_pow 2 (coefficient q p t) = 0%R
  /\ (rsum (map (fun s => modulus_pow 2 (coefficient q p s) * Pr (single_update (vs_chain_net q p) 2 prop s) t) space) > 0)%R.
Proof.
  exists basis_state, [], (all_configs 2 1), propose_spin_flip. split; [reflexivity|]. split; [apply spin_flip_good; lia|].
  assert (M0 : modulus_pow 2 (coefficient basis_state [] [0]) = 0%R).
  { unfold modulus_pow. destruct (Req_EM_T _ 0) as [_|n]; [reflexivity|]. exfalso. apply n. unfold Cnorm2. cbn. ring. }
  assert (M1 : modulus_pow 2 (coefficient basis_state [] [1]) = 1%R).
  { unfold modulus_pow. replace (Cnorm2 (coefficient basis_state [] [1])) with 1%R by (unfold Cnorm2; cbn; ring).
    destruct (Req_EM_T 1 0); [lra|]. rewrite sqrt_1. unfold Rpower. rewrite ln_1, Rmult_0_r. apply exp_0. }
  exists [0]. split; [cbn; auto|]. split; [exact M0|].
  assert (K : Rlt 0 (Pr (single_update (vs_chain_net basis_state []) 2 propose_spin_flip [1]) [0])).
  { rewrite single_K. unfold Pr. destruct (spin_flip_good 1 (le_n 1)) as (_ & HM & _). rewrite E_chainK by (apply HM; cbn; auto).
    unfold propose_spin_flip; rewrite E_bind; unfold randint; rewrite E_uniform; cbn [length Nat.sub seq map]; rewrite rsum_cons, rsum_nil, E_ret.
    unfold logAcc, vs_chain_net, vs_call, basis_state. cbn -[exp Rmin]. repeat destruct (config_eq_dec _ _); try congruence; try (cbn in *; congruence).
    match goal with |- context [Rmin 1 (exp ?x)] => pose proof (exp_pos x) as P; assert (0 < Rmin 1 (exp x))%R by (apply Rmin_glb_lt; lra) end. lra. }
  cbn [all_configs seq flat_map map app]. rewrite !rsum_cons, rsum_nil, M0, M1. lra.
Qed.
Print Assumptions C81_markov_refuted.

(** psi(p) = p: the gradient at p = 2 is 1, the logarithmic derivative is 1/2 *)
Theorem C81_gradient_refuted : exists q s par gr gi, vs_log q = false /\ good par
  /\ is_jax_grad (nq_real par) (fun p => Re (vs_differentiated q s p)) (nq_params par) gr
  /\ is_jax_grad (nq_real par) (fun p => Im (vs_differentiated q s p)) (nq_params par) gi
  /\ gradients (nq_real par) false gr gi = [C1]
  /\ log_derivative (fun p => coefficient q p s) par 0 (RtoC (/ 2)) /\ ~ log_derivative (fun p => coefficient q p s) par 0 C1.
Proof.
  set (q := mk_vstate false (fun p _ => entry p 0 0)). set (par := mk_nqs true true [1] [[RtoC 2]] 0).
  assert (G : good par). { split; [reflexivity|]. split; [reflexivity|]. intros _. repeat constructor. }
  assert (Gr : is_jax_grad true (fun p => Re (entry p 0 0)) [[RtoC 2]] [[C1]]).
  { split; [reflexivity|]. intros l j H. apply one_in in H as [-> ->]. exists 1%R. split; [|reflexivity]. apply (deriv_affine _ _ 2%R). intros x. cbn. ring. }
  assert (Gi : is_jax_grad true (fun p => Im (entry p 0 0)) [[RtoC 2]] [[C0]]).
  { split; [reflexivity|]. intros l j H. apply one_in in H as [-> ->]. exists 0%R. split; [|reflexivity]. apply (deriv_affine _ _ 0%R). intros x. cbn. ring. }
  assert (GG : gradients true false [[C1]] [[C0]] = [C1]).
  { unfold gradients, flat_gradient, map2. cbn. f_equal. apply C_eq; cbn; ring. }
  exists q, [], par, [[C1]], [[C0]]. split; [reflexivity|]. split; [exact G|]. split; [exact Gr|]. split; [exact Gi|]. split; [exact GG|].
  assert (D : forall d, derivative_at (fun p => entry p 0 0) par 0 d -> d = C1).
  { pose proof (gradient_spec (fun p => entry p 0 0) par [[C1]] [[C0]] false 0 G Gr Gi ltac:(discriminate) ltac:(cbn; lia)) as H.
    change (nq_real par) with true in H. rewrite GG in H. cbn [nth] in H. intros d (P & net & HP & Hn & D1 & D2). destruct H as (P' & net' & HP' & Hn' & D1' & D2').
    rewrite HP in HP'. inversion HP'; subst P'. assert (X : forall t, net t = net' t) by (intros t; specialize (Hn t); specialize (Hn' t); congruence).
    apply C_eq.
    - eapply uniqueness_limite; [exact D1|]. eapply derivable_pt_lim_ext; [|exact D1']. intros t. cbv beta. now rewrite X.
    - eapply uniqueness_limite; [exact D2|]. eapply derivable_pt_lim_ext; [|exact D2']. intros t. cbv beta. now rewrite X. }
  split.
  - unfold log_derivative, coefficient. cbn [vs_log vs_net q nq_params par].
    replace (Cmul (entry [[RtoC 2]] 0 0) (RtoC (/ 2))) with C1 by (apply C_eq; cbn; field).
    pose proof (gradient_spec (fun p => entry p 0 0) par [[C1]] [[C0]] false 0 G Gr Gi ltac:(discriminate) ltac:(cbn; lia)) as H.
    change (nq_real par) with true in H. rewrite GG in H. exact H.
  - intros H. unfold log_derivative, coefficient in H. cbn [vs_log vs_net q nq_params par] in H. apply D in H.
    apply (f_equal Re) in H. cbn in H. lra.
Qed.
Print Assumptions C81_gradient_refuted.

Example C81_example : exists q p, vs_log q = true /\ good_proposal (all_configs 2 1) propose_spin_flip /\ (/ 2 <> 0)%R
  /\ all_counted [get_basis 0 1 1 2 1] = [[0]; [1]] /\ coefficient q p [1] = (exp 1, 0%R) /\ coefficient q p [0] = C1.
Proof.
  exists (mk_vstate true (fun _ s => RtoC (INR (hd 0 s)))), []. split; [reflexivity|]. split; [apply spin_flip_good; lia|]. split; [lra|]. split; [reflexivity|].
  unfold coefficient. cbn [vs_log vs_net hd INR]. split; [rewrite Cexp_RtoC; reflexivity|apply Cexp_C0].
Qed.
