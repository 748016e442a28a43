(** Property C79. *)
From Coq Require Import List Reals Lra Lia Bool Arith.
From Verif Require Import Base Cplx Stats_Model Stats_Spec Stats_Proofs Vqs_Model Vqs_Spec Vqs_Proofs Vqs_Props Est_Model Est_Spec.
Import ListNotations.

(** ** auxiliary facts *)
Lemma estimator_grad_gradients q gr gi : nq_params q <> [] -> estimator_grad (kinds_of q) gr gi = Ok (gradients (nq_real q) false gr gi).
Proof.
  intros H. unfold estimator_grad, kinds_of. destruct (nq_params q) as [|p ps]; [contradiction|]. cbn [map]. unfold gradients. destruct (nq_real q); reflexivity.
Qed.
Lemma shift_entry_nth P k t j : k < length P -> nth j (shift_entry k t P) 0%R = if j =? k then (nth k P 0 + t)%R else nth j P 0%R.
Proof.
  revert k j. induction P as [|x P IH]; intros k j H; cbn in H; [lia|]. destruct k as [|k]; destruct j as [|j]; cbn; auto. apply IH. lia.
Qed.
Lemma shift_entry_length P k t : length (shift_entry k t P) = length P.
Proof. revert k. induction P as [|x P IH]; intros [|k]; cbn; auto. Qed.
Lemma shift_entry_upd P k t : k < length P ->
  shift_entry k t P = map (upd (fun j => nth j P 0%R) k (nth k P 0 + t)%R) (seq 0 (length P)).
Proof.
  intros H. apply (nth_ext _ _ 0%R 0%R); [now rewrite map_length, seq_length, shift_entry_length|]. intros j Hj. rewrite shift_entry_length in Hj.
  rewrite shift_entry_nth by exact H. rewrite (nth_indep (map _ _) 0%R (upd (fun j => nth j P 0%R) k (nth k P 0 + t)%R 0)) by now rewrite map_length, seq_length.
  rewrite map_nth, seq_nth by exact Hj. cbn. unfold upd. destruct (j =? k); reflexivity.
Qed.
Lemma deriv_shift (F G : R -> R) a d : (forall h, G (a + h)%R = F h) -> derivable_pt_lim F 0 d -> derivable_pt_lim G a d.
Proof.
  intros H HF eps He. destruct (HF eps He) as [del HD]. exists del. intros h Hh Hd. specialize (HD h Hh Hd).
  rewrite H. replace (G a) with (F 0%R) by (rewrite <- H; f_equal; ring). now rewrite Rplus_0_l in HD.
Qed.
Lemma deriv_shift' (F G : R -> R) a d : (forall h, G (a + h)%R = F h) -> derivable_pt_lim G a d -> derivable_pt_lim F 0 d.
Proof.
  intros H HF eps He. destruct (HF eps He) as [del HD]. exists del. intros h Hh Hd. specialize (HD h Hh Hd).
  rewrite Rplus_0_l. rewrite <- H. replace (F 0%R) with (G a) by (rewrite <- H; f_equal; ring). exact HD.
Qed.

Section Main.
Context {X : Type}.
Variables (q : nqs) (Hq : good q).
Let n := flat_size q.
Let P := flatten (nq_real q) (nq_params q).
Let theta := fun j => nth j P 0%R.
(* the parameters with the entries of a vector *)
Let tree_of (th : nat -> R) : tree := match set_parameters q (PVec (map th (seq 0 n))) with Ok q1 => nq_params q1 | Err _ => [] end.
Lemma lenP : length P = n. Proof using Hq. apply (good_get q Hq). Qed.
Lemma tree_of_upd k : k < n -> forall t net, set_parameters q (PVec (shift_entry k t P)) = Ok net -> tree_of (upd theta k (theta k + t)%R) = nq_params net.
Proof using Hq.
  intros Hk t net H. unfold tree_of. rewrite shift_entry_upd in H by (rewrite lenP; exact Hk). rewrite lenP in H. change (upd theta k (theta k + t)%R) with (upd (fun j => nth j P 0%R) k (nth k P 0 + t)%R). rewrite H. reflexivity.
Qed.
Lemma tree_of_out k t : n <= k -> tree_of (upd theta k t) = tree_of theta.
Proof.
  intros Hk. unfold tree_of. replace (map (upd theta k t) (seq 0 n)) with (map theta (seq 0 n)); [reflexivity|].
  apply map_ext_in. intros j Hj. apply in_seq in Hj. unfold upd. destruct (Nat.eqb_spec j k); [lia|reflexivity].
Qed.
Lemma tree_of_theta : tree_of theta = nq_params q.
Proof using Hq.
  unfold tree_of. replace (map theta (seq 0 n)) with P; [rewrite (get_set q P Hq); [reflexivity|apply (good_get q Hq)]|].
  apply (nth_ext _ _ 0%R 0%R); [now rewrite map_length, seq_length, lenP|]. intros j Hj. rewrite lenP in Hj.
  rewrite (nth_indep (map theta _) 0%R (theta 0)) by now rewrite map_length, seq_length. rewrite map_nth, seq_nth by exact Hj. reflexivity.
Qed.
(* derivative in the k-th entry *)
Lemma cderiv_of f k (d : C) : k < n -> derivative_at f q k d -> cderiv (fun t => f (tree_of (upd theta k t))) (theta k) d.
Proof using Hq.
  intros Hk (P' & net & EP & EN & D1 & D2). rewrite (proj1 (good_get q Hq)) in EP. inversion EP; subst P'. fold P in EN.
  split; [apply (deriv_shift (fun t => Re (f (nq_params (net t)))))|apply (deriv_shift (fun t => Im (f (nq_params (net t)))))]; auto;
    intros h; now rewrite (tree_of_upd k Hk h (net h) (EN h)).
Qed.
Lemma cderiv_out f k : n <= k -> cderiv (fun t => f (tree_of (upd theta k t))) (theta k) C0.
Proof.
  intros Hk. split; [apply (deriv_shift (fun _ => Re (f (tree_of theta))))|apply (deriv_shift (fun _ => Im (f (tree_of theta))))].
  - intros h. now rewrite tree_of_out.
  - apply derivable_pt_lim_const.
  - intros h. now rewrite tree_of_out.
  - apply derivable_pt_lim_const.
Qed.

Variables (lp O : X -> tree -> C) (ogr ogi pgr pgi : X -> tree) (holo : bool) (configs : layout X).
Hypothesis (Hne : flat configs <> []) (Hdev : Forall (fun r => length r = 1) configs) (Hpar : nq_params q <> []).
Hypothesis (HO : forall s, In s (flat configs) -> is_jax_grad (nq_real q) (fun p => Re (O s p)) (nq_params q) (ogr s) /\ is_jax_grad (nq_real q) (fun p => Im (O s p)) (nq_params q) (ogi s)).
Hypothesis (HP : forall s, In s (flat configs) -> is_jax_grad (nq_real q) (fun p => Re (lp s p)) (nq_params q) (pgr s) /\ is_jax_grad (nq_real q) (fun p => Im (lp s p)) (nq_params q) (pgi s)).
Hypothesis (HH : holo = true -> nq_real q = false /\ forall s, In s (flat configs) -> cauchy_riemann (lp s) (nq_params q)).

Lemma main : exists m g,
  nqs_mean_and_grad (fun s => O s (nq_params q)) ogr ogi pgr pgi q holo configs (lmap (born (flat configs) (fun u => Re (lp u (nq_params q)))) configs) = Ok (m, g)
  /\ m tt = mean_value (flat configs) lp O (nq_params q)
  /\ forall k, k < flat_size q -> derivative_at (mean_value (flat configs) lp O) q k (g k).
Proof using Hq Hne Hdev Hpar HO HP HH.
  set (psiG := fun s => vec (gradients (nq_real q) holo (pgr s) (pgi s))).
  set (oG := fun s => vec (gradients (nq_real q) false (ogr s) (ogi s))).
  assert (SZ : forall s, In s (flat configs) -> length (gradients (nq_real q) holo (pgr s) (pgi s)) = n /\ length (gradients (nq_real q) false (ogr s) (ogi s)) = n).
  { intros s Hs. destruct (HP s Hs) as [A1 A2], (HO s Hs) as [B1 B2]. destruct Hq as (Q1 & Q2 & Q3).
    split; apply gradients_length; try exact Hq; unfold sizes; rewrite <- ?Q2; try apply A1; try apply A2; try apply B1; try apply B2; [intros E; apply (HH E)|discriminate]. }
  destruct (mean_and_grad_ok configs theta (fun s th => Re (lp s (tree_of th))) (fun s th => O s (tree_of th)) psiG oG Hne Hdev) as (m & g & E & Em & Eg).
  - intros s k Hs. destruct (Nat.lt_ge_cases k n) as [Hk|Hk].
    + destruct (HP s Hs) as [A1 A2].
      pose proof (gradient_spec (lp s) q (pgr s) (pgi s) holo k Hq A1 A2 ltac:(intros E; split; [apply (HH E)|now apply (HH E)]) Hk) as D.
      apply (cderiv_of _ k _ Hk D).
    + unfold psiG, vec. rewrite nth_overflow by (rewrite (proj1 (SZ s Hs)); lia). apply (cderiv_out (lp s) k Hk).
  - intros s k Hs. destruct (Nat.lt_ge_cases k n) as [Hk|Hk].
    + destruct (HO s Hs) as [A1 A2].
      pose proof (gradient_spec (O s) q (ogr s) (ogi s) false k Hq A1 A2 ltac:(discriminate) Hk) as D. apply (cderiv_of _ k _ Hk D).
    + unfold oG, vec. rewrite nth_overflow by (rewrite (proj2 (SZ s Hs)); lia). apply (cderiv_out (O s) k Hk).
  - exists m, g. split.
    + unfold nqs_mean_and_grad. destruct (Nat.eqb_spec (length (nq_params q)) 0) as [Z|_]; [apply length_zero_iff_nil in Z; contradiction|].
      rewrite tree_of_theta in E. rewrite <- E. f_equal. unfold lmap. apply map_ext. intros r. apply map_ext. intros b. apply map_ext. intros s.
      unfold oG. now rewrite estimator_grad_gradients by exact Hpar.
    + split; [rewrite Em; unfold energy, mean_value; now rewrite tree_of_theta|].
      intros k Hk. specialize (Eg k).
      assert (EX : forall t, exists q', set_parameters q (PVec (shift_entry k t P)) = Ok q').
      { intros t. destruct (set_get q (shift_entry k t P)) as (q' & E' & _); [apply Hq|rewrite shift_entry_length; apply lenP|]. now exists q'. }
      exists P, (fun t => match set_parameters q (PVec (shift_entry k t P)) with Ok q' => q' | Err _ => q end).
      split; [apply (good_get q Hq)|]. split.
      { intros t. destruct (EX t) as [q' E']. now rewrite E'. }
      assert (VAL : forall t, energy (flat configs) (fun s th => Re (lp s (tree_of th))) (fun s th => O s (tree_of th)) (upd theta k (theta k + t)%R)
                 = mean_value (flat configs) lp O (nq_params (match set_parameters q (PVec (shift_entry k t P)) with Ok q' => q' | Err _ => q end))).
      { intros t. destruct (EX t) as [q' E']. unfold energy, mean_value. rewrite (tree_of_upd k Hk t q' E'), E'. reflexivity. }
      destruct Eg as [E1 E2]. split.
      * refine (deriv_shift' _ _ (theta k) _ _ E1). intros h. cbn beta. now rewrite VAL.
      * refine (deriv_shift' _ _ (theta k) _ _ E2). intros h. cbn beta. now rewrite VAL.
Qed.
End Main.

(** ** C79 *)
(** the k-th component of an estimator's gradient is the derivative in the k-th entry of the flat parameter
    vector, like the k-th component of [psi.gradients] (C40) *)
Theorem C79_estimator_gradient f q gr gi : good q -> nq_params q <> [] ->
  is_jax_grad (nq_real q) (fun p => Re (f p)) (nq_params q) gr -> is_jax_grad (nq_real q) (fun p => Im (f p)) (nq_params q) gi ->
  exists g, estimator_grad (kinds_of q) gr gi = Ok g /\ length g = flat_size q /\ forall k, k < flat_size q -> derivative_at f q k (nth k g C0).
Proof.
  intros Hg Hp Hr Hi. exists (gradients (nq_real q) false gr gi). split; [now apply estimator_grad_gradients|].
  apply C40_gradients_partial; auto. discriminate.
Qed.
Print Assumptions C79_estimator_gradient.
(** mean_and_grad over the full basis: the expectation value and its derivatives in the entries of the flat
    parameter vector.  Missing: several devices per process (C10), and networks that are flagged holomorphic
    though they are not (C40). *)
Theorem C79_energy_gradient_partial {X} q (lp O : X -> tree -> C) (ogr ogi pgr pgi : X -> tree) (holo : bool) (configs : layout X) :
  good q -> nq_params q <> [] -> flat configs <> [] -> Forall (fun r => length r = 1) configs ->
  (forall s, In s (flat configs) -> is_jax_grad (nq_real q) (fun p => Re (O s p)) (nq_params q) (ogr s) /\ is_jax_grad (nq_real q) (fun p => Im (O s p)) (nq_params q) (ogi s)) ->
  (forall s, In s (flat configs) -> is_jax_grad (nq_real q) (fun p => Re (lp s p)) (nq_params q) (pgr s) /\ is_jax_grad (nq_real q) (fun p => Im (lp s p)) (nq_params q) (pgi s)) ->
  (holo = true -> nq_real q = false /\ forall s, In s (flat configs) -> cauchy_riemann (lp s) (nq_params q)) ->
  exists m g,
  nqs_mean_and_grad (fun s => O s (nq_params q)) ogr ogi pgr pgi q holo configs (lmap (born (flat configs) (fun u => Re (lp u (nq_params q)))) configs) = Ok (m, g)
  /\ m tt = mean_value (flat configs) lp O (nq_params q)
  /\ forall k, k < flat_size q -> derivative_at (mean_value (flat configs) lp O) q k (g k).
Proof. intros. now apply main. Qed.
Print Assumptions C79_energy_gradient_partial.
(** one complex parameter p, log psi(s) = s p, estimator s Im(p), two states on two ranks *)
Definition ex_lp (s : bool) (p : tree) : C := if s then entry p 0 0 else C0.
Definition ex_O (s : bool) (p : tree) : C := if s then RtoC (Im (entry p 0 0)) else C0.
Example C79_nonvacuous : exists m g,
  nqs_mean_and_grad (fun s => ex_O s [[(5, 6)%R]]) (fun s => if s then [[(0, -1)%R]] else [[C0]]) (fun _ => [[C0]]) (fun s => if s then [[C1]] else [[C0]]) (fun s => if s then [[(0, -1)%R]] else [[C0]])
    (one_param (5, 6)%R) true [[[false]]; [[true]]] (lmap (born [false; true] (fun u => Re (ex_lp u [[(5, 6)%R]]))) [[[false]]; [[true]]]) = Ok (m, g)
  /\ m tt = mean_value [false; true] ex_lp ex_O [[(5, 6)%R]]
  /\ forall k, k < 2 -> derivative_at (mean_value [false; true] ex_lp ex_O) (one_param (5, 6)%R) k (g k).
Proof.
  assert (Z0 : forall p, is_jax_grad false (fun _ => 0%R) [[p]] [[C0]]).
  { intros p. split; [reflexivity|]. intros l j H. apply one_in in H as [-> ->]. exists 0%R, 0%R. split; [|split; [|unfold entry; cbn; unfold C0, RtoC; f_equal; ring]]; apply (deriv_affine _ _ 0%R); intros x; ring. }
  assert (ZR : is_jax_grad false (fun p => Re (entry p 0 0)) [[(5, 6)%R]] [[C1]]).
  { split; [reflexivity|]. intros l j H. apply one_in in H as [-> ->]. exists 1%R, 0%R. split; [|split; [|unfold entry; cbn; unfold C1, RtoC; f_equal; ring]]; apply (deriv_affine _ _ 5%R); intros x; cbn; ring. }
  assert (ZI : is_jax_grad false (fun p => Im (entry p 0 0)) [[(5, 6)%R]] [[(0, -1)%R]]).
  { split; [reflexivity|]. intros l j H. apply one_in in H as [-> ->]. exists 0%R, 1%R. split; [|split; [|unfold entry; cbn; f_equal; ring]]; apply (deriv_affine _ _ 6%R); intros x; cbn; ring. }
  apply (C79_energy_gradient_partial (one_param (5, 6)%R) ex_lp ex_O).
  - apply one_good.
  - discriminate.
  - discriminate.
  - repeat constructor.
  - intros [|] _; split; cbn [nq_real one_param nq_params ex_O].
    + exact ZI.
    + apply Z0.
    + apply Z0.
    + apply Z0.
  - intros [|] _; split; cbn [nq_real one_param nq_params ex_lp].
    + exact ZR.
    + exact ZI.
    + apply Z0.
    + apply Z0.
  - intros _. split; [reflexivity|]. intros [|] _ l j H; apply one_in in H as [-> ->].
    + exists 1%R, 0%R. split; [|split; [|split]]; [apply (deriv_affine _ _ 5%R)|apply (deriv_affine _ _ 6%R)|apply (deriv_affine _ _ 6%R)|apply (deriv_affine _ _ 5%R)]; intros x; cbn; ring.
    + exists 0%R, 0%R. split; [|split; [|split]]; apply (deriv_affine _ _ 0%R); intros x; cbn; ring.
Qed.
(** an estimator without parameters is an error *)
Theorem C79_no_parameters {X} est a b c d q holo (configs : layout X) w : nq_params q = [] -> nqs_mean_and_grad est a b c d q holo configs w = Err IndexError.
Proof. intros H. unfold nqs_mean_and_grad. now rewrite H. Qed.
Print Assumptions C79_no_parameters.
