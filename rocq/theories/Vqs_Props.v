(** C36, C38-C41: variational states. *)
From Coq Require Import List Reals Lra Lia Bool Arith.
From Verif Require Import Base Cplx Stats_Model Vqs_Model Vqs_Spec Vqs_Proofs.
Import ListNotations.

(** ** C38 *)

Theorem C38_batched {A B} (zero : A) batchSize (f : A -> B) s : 1 <= batchSize ->
  eval_batched zero batchSize f s = Ok (map f s).
Proof. apply eval_batched_ok. Qed.
Print Assumptions C38_batched.
Example C38_example : eval_batched 0 3 (fun x => x + 10) [1; 2; 3; 4; 5] = Ok [11; 12; 13; 14; 15]
  /\ create_batches 0 [1; 2; 3; 4; 5] 3 = Ok [[1; 2; 3]; [4; 5; 0]].
Proof. split; reflexivity. Qed.

(** ** C39 *)

(** Right length: the vector is what get_parameters returns afterwards and nothing else changes. *)
Theorem C39_set_get_partial q P : nq_init q = true -> length P = flat_size q ->
  exists q', set_parameters q (PVec P) = Ok q' /\ holds q (PVec P) q' /\ good q'.
Proof.
  intros Hi HL. destruct (set_get q P Hi HL) as (q' & E & G & Hg & Ho & Hs & Hr). exists q'. split; [assumption|]. split; [|assumption].
  unfold holds. repeat split; try assumption. destruct Hg as (H & _). congruence.
Qed.
Print Assumptions C39_set_get_partial.
Theorem C39_get_set q : good q -> exists P, get_parameters q = Some P /\ length P = flat_size q /\ set_parameters q (PVec P) = Ok q.
Proof. intros H. destruct (good_get q H) as [E L]. eexists. split; [exact E|]. split; [exact L|]. now apply get_set. Qed.
Print Assumptions C39_get_set.
Theorem C39_update_partial q P d : good q -> get_parameters q = Some P -> length d = flat_size q ->
  exists q', update_parameters q d = Ok q' /\ holds q (PVec (map2 Rplus P d)) q'.
Proof.
  intros Hg HP HL. pose proof Hg as (Hi & Hs & Hr). destruct (good_get q Hg) as [E _]. rewrite E in HP. inversion HP; subst P. clear HP.
  unfold flat_size in HL. destruct (unfl_total (nq_real q) (nq_shapes q) d (eq_sym HL)) as (t & Et & St & Rt & Ft).
  unfold update_parameters. rewrite Hi. cbn [bind]. rewrite unflatten_unfl. cbn [skipn]. rewrite Et. cbn [bind]. eexists. split; [reflexivity|].
  unfold holds, set_params, get_parameters. cbn. rewrite Hi. split; [|repeat split; reflexivity || assumption].
  destruct (add_flatten (nq_real q) (nq_params q) t) as [A _]; [unfold sizes; fold (sizes t); congruence|exact Hr|]. now rewrite A, Ft.
Qed.
Print Assumptions C39_update_partial.
(** Too short a vector is rejected by real networks. *)
Theorem C39_short_partial q P : nq_init q = true -> nq_real q = true -> length P < flat_size q ->
  exists e, set_parameters q (PVec P) = Err e.
Proof.
  intros Hi Hr. unfold flat_size, set_parameters. rewrite Hi, Hr, unflatten_unfl. cbn [skipn Nat.mul]. rewrite Nat.add_0_r. intros HL. exists TypeError.
  enough (H : unfl true (nq_shapes q) P = Err TypeError) by now rewrite H.
  revert P HL. induction (nq_shapes q) as [|s r IH]; intros P HL; cbn [fold_right unfl] in *; [lia|]. unfold reshape. rewrite map_length, firstn_length.
  destruct (Nat.eqb_spec (Nat.min s (length P)) s) as [H|H]; [|reflexivity]. cbn [bind]. rewrite IH; [reflexivity|]. rewrite skipn_length. lia.
Qed.
Print Assumptions C39_short_partial.
(** a complex network with two leaves and a real one *)
Definition net_c : nqs := mk_nqs true false [2; 1] [[(1, 2); (3, 4)]; [(5, 6)]]%R 7.
Definition net_r : nqs := mk_nqs true true [2; 1] [[(1, 0); (3, 0)]; [(5, 0)]]%R 7.
Example C39_example : good net_c /\ good net_r /\ flat_size net_c = 6 /\ flat_size net_r = 3
  /\ get_parameters net_c = Some [1; 3; 2; 4; 5; 6]%R /\ get_parameters net_r = Some [1; 3; 5]%R.
Proof.
  split; [split; [reflexivity|split; [reflexivity|discriminate]]|]. split; [|repeat split; reflexivity].
  split; [reflexivity|]. split; [reflexivity|]. intros _. repeat constructor.
Qed.

(** A vector that is too long is accepted; a vector of three entries is accepted for one complex leaf
    of two entries (the single imaginary part is broadcast); without initialisation
    update_parameters raises instead of setting the parameters. *)
Theorem C39_length_refuted :
  (exists q P q', good q /\ flat_size q < length P /\ set_parameters q (PVec P) = Ok q' /\ get_parameters q' <> Some P)
  /\ (exists q P q', good q /\ length P < flat_size q /\ set_parameters q (PVec P) = Ok q').
Proof.
  destruct C39_example as (Gc & Gr & _). split.
  - exists net_r, [1; 2; 3; 4]%R, (set_params net_r [[(1, 0); (2, 0)]; [(3, 0)]])%R. split; [exact Gr|]. split; [cbn; lia|]. split; [reflexivity|]. discriminate.
  - exists (mk_nqs true false [2] [[C0; C0]] 0), [1; 2; 3]%R. eexists. split; [split; [reflexivity|split; [reflexivity|discriminate]]|]. split; [cbn; lia|]. reflexivity.
Qed.
Print Assumptions C39_length_refuted.
Theorem C39_uninitialised_refuted : exists q, nq_init q = false /\ forall d, update_parameters q d = Err RuntimeError.
Proof. exists (mk_nqs false true [] [] 0). split; reflexivity. Qed.
Print Assumptions C39_uninitialised_refuted.

(** ** C40 *)

(** Whatever trees jax.grad returns at a sample: if [holomorphic] is only set for complex networks
    that satisfy the Cauchy-Riemann equations at this sample, there are as many gradient
    components as parameters, and the k-th is the derivative in the k-th parameter. *)
Theorem C40_gradients_partial f q gr gi holomorphic : good q ->
  is_jax_grad (nq_real q) (fun p => Re (f p)) (nq_params q) gr -> is_jax_grad (nq_real q) (fun p => Im (f p)) (nq_params q) gi ->
  (holomorphic = true -> nq_real q = false /\ cauchy_riemann f (nq_params q)) ->
  let g := gradients (nq_real q) holomorphic gr gi in
  length g = flat_size q /\ forall k, k < flat_size q -> derivative_at f q k (nth k g C0).
Proof.
  intros Hg Hr Hi Hh g. split.
  - destruct Hg as (A & B & D). apply gradients_length; [split; [assumption|split; assumption]| | |intros E; apply (Hh E)]; unfold sizes; rewrite <- B; [apply Hr|apply Hi].
  - intros k Hk. now apply gradient_spec.
Qed.
Print Assumptions C40_gradients_partial.

(** log psi(p) = s * p for one complex parameter: holomorphic, gradient s *)
Lemma deriv_affine (F : R -> R) a b : (forall x, F x = a * x + b)%R -> derivable_pt_lim F 0 a.
Proof.
  intros H eps He. exists (mkposreal 1 Rlt_0_1). intros h Hh _. rewrite !H. replace ((a * (0 + h) + b - (a * 0 + b)) / h - a)%R with 0%R by (field; assumption). rewrite Rabs_R0. assumption.
Qed.
Definition one_param (p : C) : nqs := mk_nqs true false [1] [[p]] 0.
Lemma one_good p : good (one_param p).
Proof. split; [reflexivity|]. split; [reflexivity|discriminate]. Qed.
Lemma one_in p l j : in_tree [[p]] l j -> l = 0 /\ j = 0.
Proof. intros [H1 H2]. cbn in H1. assert (l = 0) by lia. subst. cbn in H2. lia. Qed.
Example C40_example : exists f q gr gi, good q /\ nq_real q = false
  /\ is_jax_grad (nq_real q) (fun p => Re (f p)) (nq_params q) gr /\ is_jax_grad (nq_real q) (fun p => Im (f p)) (nq_params q) gi
  /\ cauchy_riemann f (nq_params q) /\ gradients false true gr gi = [(2, 3); (-3, 2)]%R.
Proof.
  exists (fun p => Cmul (2, 3)%R (entry p 0 0)), (one_param (5, 6)%R), [[(2, 3)%R]], [[(3, -2)%R]]. split; [apply one_good|]. split; [reflexivity|].
  split; [split; [reflexivity|]; intros l j H; apply one_in in H as [-> ->]; exists 2%R, (-3)%R|].
  { split; [|split; [|unfold entry; cbn; f_equal; ring]]; [apply (deriv_affine _ _ (-8)%R)|apply (deriv_affine _ _ (-8)%R)]; intros x; cbn; ring. }
  split; [split; [reflexivity|]; intros l j H; apply one_in in H as [-> ->]; exists 3%R, 2%R|].
  { split; [|split; [|unfold entry; cbn; f_equal; ring]]; [apply (deriv_affine _ _ 27%R)|apply (deriv_affine _ _ 27%R)]; intros x; cbn; ring. }
  split; [intros l j H; apply one_in in H as [-> ->]; exists 2%R, 3%R|unfold gradients, flat_gradient_holo, two_blocks; cbn; repeat f_equal; apply C_eq; cbn; ring].
  split; [|split; [|split]]; [apply (deriv_affine _ _ (-8)%R)|apply (deriv_affine _ _ 27%R)|apply (deriv_affine _ _ 27%R)|apply (deriv_affine _ _ (-8)%R)]; intros x; cbn; ring.
Qed.

(** The check is made at the first sample only.  log psi(p, s) = s Re(p): with first sample s = 0 the
    network counts as holomorphic, and for s = 1 the second component is i, though log psi
    does not depend on the imaginary part. *)
Theorem C40_gradients_refuted : exists (f0 f1 : tree -> C) q gr0 gi0 gr gi, good q /\ nq_real q = false
  /\ is_jax_grad false (fun p => Re (f0 p)) (nq_params q) gr0 /\ is_jax_grad false (fun p => Im (f0 p)) (nq_params q) gi0
  /\ is_jax_grad false (fun p => Re (f1 p)) (nq_params q) gr /\ is_jax_grad false (fun p => Im (f1 p)) (nq_params q) gi
  /\ cauchy_riemann_check gr0 gi0 = true
  /\ nth 1 (gradients false (cauchy_riemann_check gr0 gi0) gr gi) C0 = Ci /\ derivative_at f1 q 1 C0.
Proof.
  exists (fun _ => C0), (fun p => RtoC (Re (entry p 0 0))), (one_param (5, 6)%R), [[C0]], [[C0]], [[C1]], [[C0]].
  assert (Z0 : forall p, is_jax_grad false (fun _ => 0%R) [[p]] [[C0]]).
  { intros p. split; [reflexivity|]. intros l j H. apply one_in in H as [-> ->]. exists 0%R, 0%R. split; [|split; [|unfold entry; cbn; unfold C0, RtoC; f_equal; ring]]; apply (deriv_affine _ _ 0%R); intros x; ring. }
  assert (Z1 : is_jax_grad false (fun p => Re (RtoC (Re (entry p 0 0)))) [[(5, 6)%R]] [[C1]]).
  { split; [reflexivity|]. intros l j H. apply one_in in H as [-> ->]. exists 1%R, 0%R. split; [|split; [|unfold entry; cbn; unfold C1, RtoC; f_equal; ring]]; apply (deriv_affine _ _ 5%R); intros x; cbn; ring. }
  assert (Zi : is_jax_grad false (fun p => Im (RtoC (Re (entry p 0 0)))) [[(5, 6)%R]] [[C0]]) by exact (Z0 (5, 6)%R).
  assert (CR : cauchy_riemann_check [[C0]] [[C0]] = true).
  { unfold cauchy_riemann_check. destruct (Rle_dec _ _) as [|n]; [reflexivity|]. exfalso. apply n. cbn.
    match goal with |- (sqrt ?x / _ <= _)%R => replace x with 0%R by (unfold Cnorm2; cbn; ring) end. rewrite sqrt_0. unfold Rdiv. rewrite Rmult_0_l. left. apply Rinv_0_lt_compat. apply (pow_lt 10 14). lra. }
  split; [apply one_good|]. split; [reflexivity|]. split; [apply Z0|]. split; [apply Z0|]. split; [exact Z1|]. split; [exact Zi|]. split; [exact CR|]. split.
  - rewrite CR. unfold gradients, flat_gradient_holo, two_blocks. cbn. apply C_eq; cbn; ring.
  - pose proof (gradient_spec (fun p => RtoC (Re (entry p 0 0))) (one_param (5, 6)%R) [[C1]] [[C0]] false 1 (one_good _) Z1 Zi ltac:(discriminate) ltac:(cbn; lia)) as H.
    replace (nth 1 (gradients (nq_real (one_param (5, 6)%R)) false [[C1]] [[C0]]) C0) with C0 in H; [exact H|]. unfold gradients, flat_gradient_cpx_nonholo, two_blocks. cbn. apply C_eq; cbn; ring.
Qed.
Print Assumptions C40_gradients_refuted.
(** Real networks that are flagged holomorphic at the first sample get twice as many components as parameters. *)
Theorem C40_real_refuted : exists f0 q gr0 gi0, good q /\ nq_real q = true
  /\ is_jax_grad true (fun p : tree => Re (f0 p)) (nq_params q) gr0 /\ is_jax_grad true (fun p : tree => Im (f0 p)) (nq_params q) gi0
  /\ cauchy_riemann_check gr0 gi0 = true /\ length (gradients (nq_real q) (cauchy_riemann_check gr0 gi0) gr0 gi0) <> flat_size q.
Proof.
  exists (fun _ => C0), (mk_nqs true true [1] [[C1]] 0), [[C0]], [[C0]].
  assert (Z0 : is_jax_grad true (fun _ => 0%R) [[C1]] [[C0]]).
  { split; [reflexivity|]. intros l j H. apply one_in in H as [-> ->]. exists 0%R. split; [|reflexivity]; apply (deriv_affine _ _ 0%R); intros x; ring. }
  assert (CR : cauchy_riemann_check [[C0]] [[C0]] = true).
  { unfold cauchy_riemann_check. destruct (Rle_dec _ _) as [|n]; [reflexivity|]. exfalso. apply n. cbn.
    match goal with |- (sqrt ?x / _ <= _)%R => replace x with 0%R by (unfold Cnorm2; cbn; ring) end. rewrite sqrt_0. unfold Rdiv. rewrite Rmult_0_l. left. apply Rinv_0_lt_compat. apply (pow_lt 10 14). lra. }
  split; [split; [reflexivity|split; [reflexivity|intros _; repeat constructor]]|]. split; [reflexivity|]. split; [exact Z0|]. split; [exact Z0|]. split; [exact CR|]. rewrite CR. cbn. lia.
Qed.
Print Assumptions C40_real_refuted.

(** ** C41 *)

(** [gr], [gi] have the shape of the parameters; real network, or holomorphic network *)
Theorem C41_dict realParams holomorphic (shapes : list nat) gr gi : map (@length C) gr = shapes -> map (@length C) gi = shapes ->
  realParams = negb holomorphic ->
  let index := grad_dict_to_vec_map holomorphic shapes in
  map (map (fun i => nth i (gradients realParams holomorphic gr gi) C0)) index = gradients_dict realParams holomorphic gr gi
  /\ concat index = seq 0 (length (gradients realParams holomorphic gr gi)).
Proof.
  intros Hr Hi Hc index. destruct (dict_leaves realParams holomorphic gr gi) as [D1 D2]; [unfold sizes; congruence|intros ->; exact Hc|].
  destruct (index_map_shift holomorphic shapes (2 * fold_right Nat.add 0 shapes) 0) as [I1 I2]; [destruct holomorphic; lia|]. unfold index, grad_dict_to_vec_map. split.
  - apply I2; [rewrite D2; unfold sizes; now rewrite Hr|]. cbn [skipn]. now rewrite D1.
  - rewrite I1. f_equal. rewrite <- D1, <- Hr. clear -D2. unfold sizes in D2. revert D2. generalize (gradients_dict realParams holomorphic gr gi). generalize (map (@length C) gr).
    intros sh g. revert sh. induction g as [|x g IH]; intros [|s sh] D; cbn [map] in D; try discriminate; [cbn; now destruct holomorphic|]. inversion D as [[H1 H2]]. cbn [concat fold_right]. rewrite app_length, <- (IH _ H2), H1. lia.
Qed.
Print Assumptions C41_dict.
Example C41_example : grad_dict_to_vec_map true [2; 1] = [[0; 1; 2; 3]; [4; 5]] /\ grad_dict_to_vec_map false [2; 1] = [[0; 1]; [2]]
  /\ map (@length C) [[C1; Ci]; [C0]] = [2; 1].
Proof. repeat split; reflexivity. Qed.

(** For complex non-holomorphic networks (outside the claim, the code has a note) they disagree. *)
Theorem C41_nonholomorphic_refuted : exists shapes gr gi, map (@length C) gr = shapes /\ map (@length C) gi = shapes
  /\ concat (grad_dict_to_vec_map false shapes) <> seq 0 (length (gradients false false gr gi)).
Proof. exists [1], [[C1]], [[C1]]. split; [reflexivity|]. split; [reflexivity|]. cbn. discriminate. Qed.
Print Assumptions C41_nonholomorphic_refuted.

(** ** C36 *)

Lemma set_valid q P : nq_init q = true -> valid_value q P -> exists q1, set_parameters q P = Ok q1 /\ holds q P q1 /\ q1 = set_params q (nq_params q1).
Proof.
  intros Hi HP. destruct P as [v|t].
  - destruct (set_get q v Hi HP) as (q' & E & G & Hg & Ho & Hs & Hr). exists q'. split; [assumption|]. split; [unfold holds; repeat split; try assumption; destruct Hg as (H & _); congruence|].
    destruct q, q'. cbn in *. destruct Hg as (H & _). cbn in H. unfold set_params. cbn. congruence.
  - exists (set_params q t). unfold set_parameters. rewrite Hi. split; [reflexivity|]. split; [|reflexivity]. unfold holds. cbn. auto.
Qed.
(** Whatever happens inside: drawn with the given parameters, and when the call returns the
    network is what it was.  The Markov chains may also raise. *)
Theorem C36_restored_partial {A B} (draw : nqs -> result A) (markov : tree * nat -> result B) (coeffs : nqs -> B -> result A) q P :
  good q -> valid_value q P -> exists q1, holds q P q1
  /\ (forall a, draw q1 = Ok a -> sample_gen draw q (Some P) = (q, Ok a) /\ sample_exact draw q (Some P) = (q, Ok a))
  /\ (forall b a, markov (nq_params q1, nq_other q1) = Ok b -> coeffs q1 b = Ok a -> sample_mcmc markov coeffs q (Some P) = (q, Ok a))
  /\ (forall e, markov (nq_params q1, nq_other q1) = Err e -> sample_mcmc markov coeffs q (Some P) = (q, Err e)).
Proof.
  intros Hg HP. pose proof Hg as (Hi & _). destruct (set_valid q P Hi HP) as (q1 & E & Hh & Eq). exists q1. split; [assumption|].
  assert (Back : set_params q1 (nq_params q) = q) by (rewrite Eq; destruct q; reflexivity).
  split; [|split].
  - intros a Ha. split.
    + unfold sample_gen. now rewrite E, Ha, Back.
    + unfold sample_exact. rewrite E, Ha. destruct (good_get q Hg) as [G _]. rewrite G.
      assert (S : set_parameters q1 (PVec (flatten (nq_real q) (nq_params q))) = Ok q).
      { pose proof (get_set q _ Hg G) as H. destruct Hh as (_ & H1 & H2 & H3 & H4). unfold set_parameters in *. rewrite H1, H2, H3. rewrite Hi in *. destruct (param_unflatten _ _ _ _) as [t|]; [|discriminate]. cbn [bind] in *. unfold set_params in *. rewrite H1, H2, H3, H4. rewrite Hi in *. exact H. }
      now rewrite S.
  - intros b a Hb Ha. unfold sample_mcmc. rewrite E, Hb. cbn [fst]. rewrite Back. rewrite <- Eq, Ha, Back. reflexivity.
  - intros e He. unfold sample_mcmc. rewrite E, He, Back. reflexivity.
Qed.
Print Assumptions C36_restored_partial.
(** Without given parameters, and if the parameters themselves are rejected, nothing changes at all. *)
Theorem C36_untouched_partial {A B} (draw : nqs -> result A) (markov : tree * nat -> result B) (coeffs : nqs -> B -> result A) q P :
  (P = None \/ exists v e, P = Some v /\ set_parameters q v = Err e) ->
  fst (sample_gen draw q P) = q /\ fst (sample_mcmc markov coeffs q P) = q /\ fst (sample_exact draw q P) = q.
Proof.
  assert (R : set_params q (nq_params q) = q) by (destruct q; reflexivity).
  intros [->|(v & e & -> & E)].
  - split; [reflexivity|]. split; [|reflexivity]. unfold sample_mcmc. destruct (markov _); [|reflexivity]. cbn [fst]. rewrite R. destruct (coeffs q a); cbn; [exact R|reflexivity].
  - unfold sample_gen, sample_mcmc, sample_exact. rewrite E. repeat split; reflexivity.
Qed.
Print Assumptions C36_untouched_partial.
Example C36_example : good net_r /\ valid_value net_r (PVec [7; 8; 9]%R)
  /\ sample_exact (fun n => Ok (nq_params n)) net_r (Some (PVec [7; 8; 9]%R)) = (net_r, Ok [[(7, 0); (8, 0)]; [(9, 0)]]%R)
  /\ exists v e, set_parameters net_r v = Err e.
Proof. split; [apply C39_example|]. split; [reflexivity|]. split; [reflexivity|]. exists (PVec []), TypeError. reflexivity. Qed.

(** If drawing or the evaluation raises, the network keeps the temporary parameters, in all three samplers. *)
Theorem C36_restored_refuted : exists q P, good q /\ valid_value q P
  /\ fst (sample_gen (fun _ => @Err unit TypeError) q (Some P)) <> q
  /\ fst (sample_exact (fun _ => @Err unit TypeError) q (Some P)) <> q
  /\ fst (sample_mcmc (fun _ => Ok tt) (fun _ _ => @Err unit TypeError) q (Some P)) <> q.
Proof.
  assert (H : forall a b c : R, a <> 1%R -> set_params net_r [[(a, 0); (b, 0)]; [(c, 0)]]%R <> net_r) by (intros a b c Ha E; inversion E; contradiction).
  exists net_r, (PVec [7; 8; 9]%R). split; [apply C39_example|]. split; [reflexivity|]. repeat split; apply H; lra.
Qed.
Print Assumptions C36_restored_refuted.
