(** C88: a step of a ground state search with MinSR (minsr.py, stepper.py, vqs.py and the exact sampler). *)
From Coq Require Import ZArith List Reals Lra Lia Bool Arith Permutation.
From Verif Require Import Base Cplx Mpi_Model Povm_Spec Povm_Proofs Stats_Model Stats_Spec Stats_Proofs BranchFree_Model BranchFree_Spec BranchFree_Proofs BranchFree2_Proofs OpBase_Model OpBase_Spec
  Sampler_Spec Sampler2_Proofs Exact_Model Exact_Spec Exact_Proofs Exact_Props Stepper_Model Vqs_Model Vqs_Spec Vqs_Proofs Tdvp_Model Tdvp_Spec Tdvp_Proofs Tdvp2_Proofs Tdvp3_Proofs Tdvp4_Proofs Tdvp7_Proofs Tdvp_Props
  Vmc_Model Vmc_Spec Vmc_Proofs Vmc2_Proofs Vmc3_Proofs Vmc_Props Msr_Model Msr_Spec Msr_Proofs.
Import ListNotations.
Local Open Scope R_scope.

Lemma expect_real {X} (L : list (R * X)) (k : X -> C) : (forall px, In px L -> Im (k (snd px)) = 0) -> Im (expect L k) = 0.
Proof.
  unfold expect. induction L as [|a L IH]; intros H; [reflexivity|]. cbn [map]. rewrite csum_cons.
  change (Im (Cscal (fst a) (k (snd a))) + Im (csum (map (fun px => Cscal (fst px) (k (snd px))) L)) = 0). rewrite IH by (intros; apply H; now right).
  specialize (H a (or_introl eq_refl)). destruct (k (snd a)). cbn in *. subst. ring.
Qed.

Section Step.
Variables (lDim : Z) (N : nat) (commSize devices : Z) (lastNorm : R).
Hypothesis Hl : (0 < lDim)%Z.
Hypothesis HN : (0 < N)%nat.
Hypothesis Hc : (0 < commSize <= lDim ^ Z.of_nat N)%Z.
Hypothesis Hd : (0 < devices)%Z.
Hypothesis He : complete_enumeration N lDim commSize devices.
Context {A : Type}.
Variables (n : nat) (lp : (nat -> R) -> config -> C) (theta : nat -> R) (grads : config -> nat -> C).
Hypothesis Hg : log_gradient n lp theta grads.
Variables (sts : list (ostring A)) (args : list A) (vals : list C) (bs : nat).
Hypothesis Hw : Forall (wf_string (Z.to_nat lDim) N) sts.
Hypothesis Hp : Forall2 (prefactor_is args) sts vals.
Hypothesis Hclean : forall s els, wf_config (Z.to_nat lDim) N s -> operator_elements (Z.to_nat lDim) N (map to_opstr sts) args s = Ok els -> clean els.
Let basis := all_configs (Z.to_nat lDim) N.
Let O := apply_strings sts vals.
Hypothesis Hherm : hermitian_on basis O.
(** the local energies and the gradients at theta *)
Variable E : sobs unit.
Hypothesis HE : energy_obs lDim N commSize devices lastNorm (lp theta) (map to_opstr sts) args bs = Ok E.
Let G : sobs nat := gradient_obs lDim N commSize devices lastNorm (lp theta) grads.
Let energy := energy_at basis O lp.
Let phi : wavefun := fun s => Cexp (lp theta s).
(** the pseudo-inverse of the tangent kernel *)
Variable pinv : nat -> mat -> mat.
Hypothesis Hinv : pseudo_inverse (length (gathered G)) (tangent_kernel n G) (pinv (length (gathered G)) (tangent_kernel n G)).
Let u := minsr_solve n pinv E G.
(** the network with the parameters theta *)
Variable q : nqs.
Hypothesis Hq : good q.
Hypothesis Htheta : get_parameters q = Some (map theta (seq 0 n)).

Let w := probs lDim N commSize devices lastNorm (lp theta).
Let eL := lmap (fun s (_ : unit) => (O phi s / phi s)%C) (configs lDim N commSize devices).
Let gL := lmap grads (configs lDim N commSize devices).
Lemma fit88 : forall r, (0 <= r < commSize)%Z -> fits (lDim ^ Z.of_nat N) commSize devices r.
Proof. destruct Hc. now apply enumerates_iff. Qed.
Lemma E88 : E = init eL w.
Proof.
  destruct Hc as [H1 H2]. pose proof (energy_obs_ok lDim N commSize devices lastNorm (lp theta) Hl HN H1 Hd fit88 H2 sts args vals bs Hw Hp Hclean) as H. rewrite HE in H. now injection H.
Qed.
Lemma w88 : weights_ok (flat w). Proof. destruct Hc. now apply probs_ok, fit88. Qed.
Lemma e88 : shape_eq eL w. Proof. destruct Hc. now apply shape_of, fit88. Qed.
Lemma g88 : shape_eq gL w. Proof. destruct Hc. now apply shape_of, fit88. Qed.
Let B := born_list basis phi.
Let eloc (s : config) : C := (O phi s / phi s)%C.
Lemma gg88 k l : covar (init gL w) (init gL w) (k, l) = cov B (fun s => grads s k) (fun s => grads s l).
Proof. destruct Hc. apply cov_of; try assumption. exact fit88. Qed.
Lemma ge88 k : covar (init gL w) (init eL w) (k, tt) = cov B (fun s => grads s k) eloc.
Proof. destruct Hc as [H1 H2]. exact (cov_of lDim N commSize devices lastNorm (lp theta) Hl HN H1 Hd fit88 grads (fun s (_ : unit) => eloc s) k tt). Qed.
Lemma B88 : rsum (map fst B) = 1 /\ forall p, In p (map fst B) -> 0 <= p.
Proof.
  pose proof (basis_ne lDim N commSize devices Hl HN fit88) as Bne. assert (Pne : forall s, phi s <> C0) by (intros; apply Cexp_neq0).
  split; [exact (born_total basis phi Bne Pne)|exact (born_weights_nonneg basis phi Bne Pne)].
Qed.
Lemma downhill88 v : (forall k, (k < n)%nat -> csumn n (fun l => (covar (init gL w) (init gL w) (k, l) * RtoC (v l))%C) = (- covar (init gL w) (init eL w) (k, tt))%C) ->
  downhill n energy theta v.
Proof.
  intros H. destruct Hc as [Hc1 Hc2]. exists (slope lDim N lp theta grads sts vals). split; [apply (slope_gradient lDim N commSize devices); try assumption; exact fit88|].
  destruct B88 as [B1 B2]. destruct (solution_descends n B (fun k s => grads s k) eloc v B1 B2) as [D1 D2].
  { intros k Hk. rewrite <- ge88, <- H by exact Hk. apply csumn_ext. intros l _. now rewrite gg88. }
  split; [exact D1|]. intros Z k Hk. change (2 * Re (cov B (fun s => grads s k) eloc) = 0). rewrite (D2 Z k Hk). cbn. ring.
Qed.
(** the equation of stochastic reconfiguration without regularisation *)
Lemma equation88 c o v : c_imag c = false -> c_prefactor c = C1 -> c_shift c = 0 ->
  (forall k, (k < n)%nat -> csumn n (fun l => (covar (init gL w) (init gL w) (k, l) * RtoC (v l))%C) = (- covar (init gL w) (init eL w) (k, tt))%C) ->
  forall k, (k < n)%nat -> apply n (fst (snd (get_tdvp_equation c o E G))) (real v) k = snd (snd (get_tdvp_equation c o E G)) k.
Proof.
  intros H1 H2 H3 H k Hk. rewrite E88. change G with (init gL w). assert (AS : applied_shift (c_shift c) 0) by (right; rewrite H3; split; [apply Rlt_le, Rinv_0_lt_compat, pow_lt; lra|reflexivity]).
  rewrite (equation_F c w gL eL g88 e88 w88 o k), H1, H2. rewrite (apply_ext n (fst (snd (get_tdvp_equation c o (init eL w) (init gL w)))) (fisher false 0 w gL) (real v) (real v) k); [|intros l _; rewrite <- H1; apply (equation_S c w gL eL 0 g88 w88 AS)|reflexivity].
  unfold force. rewrite <- covar_ok by (first [exact g88|exact e88|exact w88]).
  replace (- (C1 * covar (init gL w) (init eL w) (k, tt)))%C with (- covar (init gL w) (init eL w) (k, tt))%C by ring. rewrite <- H by exact Hk. unfold part. rewrite Re_csumn, <- csumn_RtoC. unfold apply. apply csumn_ext.
  intros l _. unfold fisher, real, part. rewrite <- covar_self_ok by (first [exact g88|exact w88]). destruct (covar (init gL w) (init gL w) (k, l)) as [x y]. destruct (Nat.eqb k l); apply C_eq; cbn; ring.
Qed.

(** Networks with complex parameters whose gradients are computed as those of a holomorphic network: the real numbers
    that make up the parameters move with twice the real part of the update.  This velocity solves
    the equation of stochastic reconfiguration without regularisation and goes downhill.
    Missing: the other networks. *)
Theorem C88_holomorphic_partial gr gi :
  nq_real q = false -> (forall s, map (@length C) (gr s) = nq_shapes q) ->
  (forall s k, (k < n)%nat -> grads s k = nth k (gradients false true (gr s) (gi s)) C0) ->
  let v := fun k => 2 * Re (u k) in
  (forall dt, exists q', minsr_step dt q n u = Ok q' /\ good q' /\ get_parameters q' = Some (map (moved theta v dt) (seq 0 n)))
  /\ downhill n energy theta v
  /\ forall c o, c_imag c = false -> c_prefactor c = C1 -> c_shift c = 0 ->
     forall k, (k < n)%nat -> apply n (fst (snd (get_tdvp_equation c o E G))) (real v) k = snd (snd (get_tdvp_equation c o E G)) k.
Proof.
  intros Hr Hs Hgr v. destruct (good_get q Hq) as [GP GL]. rewrite Htheta in GP. injection GP as GP. rewrite Hr in GP, GL.
  assert (En : n = total (nq_shapes q)).
  { rewrite <- GP, map_length, seq_length in GL. unfold flat_size in GL. rewrite Hr in GL. exact GL. }
  assert (HH : forall x, In x (flat gL) -> hol Ci (nq_shapes q) x).
  { intros x Hx. unfold gL in Hx. rewrite flat_lmap in Hx. apply in_map_iff in Hx. destruct Hx as (s & <- & _).
    apply (hol_ext Ci _ (fun k => nth k (gradients false true (gr s) (gi s)) C0)); [intros k Hk; symmetry; apply Hgr; lia|]. apply hol_gradient. apply Hs. }
  assert (R : forall k, (k < n)%nat -> csumn n (fun l => (covar (init gL w) (init gL w) (k, l) * RtoC (v l))%C) = (- covar (init gL w) (init eL w) (k, tt))%C).
  { unfold v, u. rewrite E88. change G with (init gL w). apply (double_rel n pinv w gL eL g88 e88 Hinv (nq_shapes q) En HH). }
  split; [|split; [exact (downhill88 v R)|intros c o H1 H2 H3; exact (equation88 c o v H1 H2 H3 R)]].
  intros dt. assert (HU : hol (Cconj Ci) (nq_shapes q) u).
  { unfold u. rewrite E88. change G with (init gL w). exact (update_hol n pinv w gL eL g88 (nq_shapes q) Ci HH). }
  destruct (unflc_pairs (nq_shapes q) theta u dt HU) as (t & Et & St & Ft). exists (set_params q t).
  unfold minsr_step. rewrite Htheta. unfold euler_cpx. rewrite map2_same. unfold set_parameters_cpx. destruct Hq as (Hi & Hsz & _). rewrite Hi, Hr, unflatten_unflc. cbn [skipn].
  rewrite En at 1. rewrite Et. cbn [bind]. split; [reflexivity|]. unfold good, get_parameters, set_params. cbn [nq_init nq_real nq_shapes nq_params]. rewrite Hi, Hr. split.
  - split; [reflexivity|]. split; [exact St|discriminate].
  - rewrite Ft. rewrite <- En. reflexivity.
Qed.

(** Networks with real parameters, real derivatives of the log-amplitudes and real local energies: the update is real, so are the new parameters, and the step goes downhill. *)
Theorem C88_real_partial :
  nq_real q = true -> (forall s k, In s basis -> Im (grads s k) = 0) -> (forall s, In s basis -> Im (O phi s / phi s)%C = 0) ->
  let v := fun k => Re (u k) in
  (forall k, (k < n)%nat -> Im (u k) = 0)
  /\ (forall dt, exists q', minsr_step dt q n u = Ok q' /\ good q' /\ real_parameters q' /\ get_parameters q' = Some (map (moved theta v dt) (seq 0 n)))
  /\ downhill n energy theta v
  /\ forall c o, c_imag c = false -> c_prefactor c = C1 -> c_shift c = 0 ->
     forall k, (k < n)%nat -> apply n (fst (snd (get_tdvp_equation c o E G))) (real v) k = snd (snd (get_tdvp_equation c o E G)) k.
Proof.
  intros Hr Hgr Hel v. assert (CR : forall f h, (forall s, In s basis -> Im (f s) = 0) -> (forall s, In s basis -> Im (h s) = 0) -> Im (cov B f h) = 0).
  { intros f h Hf Hh. assert (XR : forall k, (forall s, In s basis -> Im (k s) = 0) -> Im (expect B k) = 0).
    { intros k Hk. apply expect_real. intros px Hpx. apply Hk. unfold B, born_list in Hpx. apply in_map_iff in Hpx. destruct Hpx as (s & <- & Hs). exact Hs. }
    unfold cov. pose proof (XR f Hf) as Q1. pose proof (XR h Hh) as Q2.
    assert (Q3 : Im (expect B (fun s => (Cconj (f s) * h s)%C)) = 0). { apply XR. intros s Hs. specialize (Hf s Hs). specialize (Hh s Hs). destruct (f s), (h s). cbn in *. subst. ring. }
    destruct (expect B f), (expect B h), (expect B (fun s => (Cconj (f s) * h s)%C)). cbn in *. subst. ring. }
  assert (UR : forall k, (k < n)%nat -> Im (u k) = 0).
  { unfold u. rewrite E88. change G with (init gL w). apply (real_update n pinv w gL eL g88 e88 Hinv).
    - intros k l. rewrite gg88. apply CR; intros s Hs; now apply Hgr.
    - intros k. rewrite ge88. apply CR; [intros s Hs; now apply Hgr|exact Hel]. }
  assert (R : forall k, (k < n)%nat -> csumn n (fun l => (covar (init gL w) (init gL w) (k, l) * RtoC (v l))%C) = (- covar (init gL w) (init eL w) (k, tt))%C).
  { intros k Hk. rewrite <- (minsr_rel n pinv w gL eL g88 e88 Hinv k Hk). apply csumn_ext. intros l Hl'. f_equal. specialize (UR l Hl'). unfold v, u in *. rewrite E88 in *. change G with (init gL w) in *.
    destruct (minsr_solve n pinv (init eL w) (init gL w) l) as [x y]. cbn in *. subst y. reflexivity. }
  split; [exact UR|]. split; [|split; [exact (downhill88 v R)|intros c o H1 H2 H3; exact (equation88 c o v H1 H2 H3 R)]].
  intros dt. destruct (good_get q Hq) as [GP GL]. rewrite Htheta in GP. injection GP as GP.
  assert (Ln : length (map (moved theta v dt) (seq 0 n)) = flat_size q). { rewrite <- GL, <- GP, !map_length. reflexivity. }
  destruct (set_get q (map (moved theta v dt) (seq 0 n)) (proj1 Hq) Ln) as (q' & S1 & S2 & S3 & _ & _ & S4). exists q'.
  split; [|split; [exact S3|split; [apply S3; now rewrite S4|exact S2]]].
  unfold minsr_step. rewrite Htheta. unfold euler_cpx. rewrite map2_same. rewrite <- S1, <- set_cpx_real, map_map. f_equal. apply map_ext_in. intros k Hk. apply in_seq in Hk.
  specialize (UR k ltac:(lia)). unfold moved, v. destruct (u k) as [x y]. cbn in UR. subst y. apply C_eq; cbn; ring.
Qed.
End Step.
Print Assumptions C88_holomorphic_partial.
Print Assumptions C88_real_partial.

(** ** one spin, Hamiltonian Sz, parameters zero, log-amplitudes that are multiples of s *)
Definition zero_theta : nat -> R := fun _ => 0.
Definition spin_grads (c : nat -> C) (s : config) (k : nat) : C := (c k * RtoC (INR (nth 0 s 0%nat)))%C.
Section OneSpin.
Variables (lp : (nat -> R) -> config -> C) (c : nat -> C).
Hypothesis H0 : forall s, lp zero_theta s = C0.
Let G := gradient_obs 2 1 2 1 0 (lp zero_theta) (spin_grads c).
Let phi : wavefun := fun s => Cexp (lp zero_theta s).
Let eloc (s : config) : C := (apply_strings z1 [C1] phi s / phi s)%C.
Let w := probs 2 1 2 1 0 (lp zero_theta).
Let gL := lmap (spin_grads c) (configs 2 1 2 1).
Let eL := lmap (fun s (_ : unit) => eloc s) (configs 2 1 2 1).
Lemma fit1 : forall r, (0 <= r < 2)%Z -> fits (2 ^ Z.of_nat 1) 2 1 r.
Proof. exact (proj1 (enumerates_iff 1 2 2 1 ltac:(lia) ltac:(lia) ltac:(lia)) z1_complete). Qed.
Lemma energy1 : energy_obs 2 1 2 1 0 (lp zero_theta) (map to_opstr z1) [] 0 = Ok (init eL w).
Proof. exact (energy_obs_ok 2 1 2 1 0 (lp zero_theta) ltac:(lia) ltac:(lia) ltac:(lia) ltac:(lia) fit1 ltac:(cbn; lia) z1 [] [C1] 0 z1_wf ltac:(repeat constructor) z1_clean). Qed.
Lemma phi1 s : phi s = C1. Proof. unfold phi. rewrite H0. apply Cexp_C0. Qed.
Lemma born1 : born_list (all_configs (Z.to_nat 2) 1) phi = [(1/2, [0%nat]); (1/2, [1%nat])].
Proof. change (Z.to_nat 2) with 2%nat. unfold born_list, norm2. cbn -[phi]. rewrite !phi1. unfold Cnorm2; cbn. repeat f_equal; field. Qed.
Lemma cov1 (h1 h2 : config -> C) : cov (born_list (all_configs (Z.to_nat 2) 1) phi) h1 h2 = (RtoC (1/2) * (Cconj (h1 [0%nat]) * h2 [0%nat] + Cconj (h1 [1%nat]) * h2 [1%nat])
     - RtoC (1/2) * Cconj (h1 [0%nat] + h1 [1%nat]) * (RtoC (1/2) * (h2 [0%nat] + h2 [1%nat])))%C.
Proof. rewrite born1. unfold cov, expect. cbn [map fst snd]. rewrite !csum_cons, !csum_nil, !Cscal_RtoC, !Cconj_add, !Cconj_mul, !Cconj_RtoC, Cconj_C0. ring. Qed.
Lemma eloc1 : eloc [0%nat] = (- C1)%C /\ eloc [1%nat] = C1.
Proof.
  unfold eloc. split; unfold apply_strings; cbn [combine map z1 fst snd]; rewrite csum_cons, csum_nil; cbn -[phi Cmul Cadd Cdiv]; rewrite !phi1; field; exact C1_neq_C0.
Qed.
Lemma shape1 {D} (h : config -> D) : shape_eq (lmap h (configs 2 1 2 1)) w.
Proof. apply shape_of; try lia. exact fit1. Qed.
Lemma gg1 k l : covar (init gL w) (init gL w) (k, l) = (RtoC (1/4) * (Cconj (c k) * c l))%C.
Proof.
  transitivity (cov (born_list (all_configs (Z.to_nat 2) 1) phi) (fun s => spin_grads c s k) (fun s => spin_grads c s l)); [apply cov_of; try lia; exact fit1|].
  rewrite cov1. unfold spin_grads. cbn [nth INR]. destruct (c k), (c l). apply C_eq; cbn; field.
Qed.
Lemma ge1 k : covar (init gL w) (init eL w) (k, tt) = (RtoC (1/2) * Cconj (c k))%C.
Proof.
  transitivity (cov (born_list (all_configs (Z.to_nat 2) 1) phi) (fun s => spin_grads c s k) eloc); [exact (cov_of 2 1 2 1 0 (lp zero_theta) ltac:(lia) ltac:(lia) ltac:(lia) ltac:(lia) fit1 (spin_grads c) (fun s (_ : unit) => eloc s) k tt)|].
  rewrite cov1. destruct eloc1 as [-> ->]. unfold spin_grads. cbn [nth INR]. destruct (c k). apply C_eq; cbn; field.
Qed.
Lemma hol1 z : c 1%nat = (z * c 0%nat)%C -> forall x, In x (flat gL) -> hol z [1%nat] x.
Proof.
  intros Hz x Hx. unfold gL in Hx. rewrite flat_lmap in Hx. apply in_map_iff in Hx. destruct Hx as (s & <- & _). cbn [hol]. split; [|exact I].
  intros j Hj. assert (j = 0)%nat as -> by lia. unfold spin_grads. cbn [Nat.add]. rewrite Hz. ring.
Qed.
(** the kernel has rank one *)
Lemma pinv_one : pseudo_inverse (length (gathered G)) (tangent_kernel 1 G) (pinv1 (length (gathered G)) (tangent_kernel 1 G)).
Proof.
  apply (pinv1_correct _ _ (fun i => nth i (gathered G) (fun _ => C0) 0%nat)). intros i j _ _. unfold tangent_kernel, csumn. cbn [seq map]. rewrite csum_cons, csum_nil. ring.
Qed.
Lemma pinv_two z : c 1%nat = (z * c 0%nat)%C -> Cnorm2 z = 1 ->
  pseudo_inverse (length (gathered G)) (tangent_kernel 2 G) (pinv1 (length (gathered G)) (tangent_kernel 2 G)).
Proof.
  intros Hz Nz. apply (pinv1_correct _ _ (fun i => (RtoC (sqrt 2) * nth i (gathered G) (fun _ => C0) 0%nat)%C)). intros i j _ _. unfold tangent_kernel, csumn. cbn [seq map]. rewrite !csum_cons, csum_nil.
  assert (Q : forall i, nth i (gathered G) (fun _ => C0) 1%nat = (z * nth i (gathered G) (fun _ => C0) 0%nat)%C).
  { intros i'. pose proof (gathered_hol 2 pinv1 w gL eL (shape1 (spin_grads c)) [1%nat] z (hol1 z Hz) i') as U. cbn [hol] in U. exact (proj1 U 0%nat ltac:(lia)). }
  rewrite !Q, !Cconj_mul, Cconj_RtoC. set (x := nth i (gathered G) (fun _ => C0) 0%nat). set (y := nth j (gathered G) (fun _ => C0) 0%nat).
  assert (S2 : RtoC 2 = (RtoC (sqrt 2) * RtoC (sqrt 2))%C) by (rewrite <- RtoC_mul, sqrt_sqrt by lra; reflexivity).
  transitivity (RtoC 2 * (x * Cconj y))%C; [|rewrite S2; ring].
  transitivity ((C1 + Cconj z * z) * (x * Cconj y))%C; [ring|]. rewrite Cmul_conj, Nz. f_equal. apply C_eq; cbn; ring.
Qed.
Lemma update_one : Cnorm2 (c 0%nat) = 1 -> minsr_solve 1 pinv1 (init eL w) G 0%nat = (- (RtoC 2 * Cconj (c 0%nat)))%C.
Proof.
  intros H. pose proof (minsr_rel 1 pinv1 w gL eL (shape1 _) (shape1 _) pinv_one 0%nat ltac:(lia)) as Q. unfold csumn in Q. cbn [seq map] in Q. rewrite csum_cons, csum_nil, gg1, ge1, Cmul_conj, H in Q.
  change (minsr_solve 1 pinv1 (init eL w) (init gL w)) with (minsr_solve 1 pinv1 (init eL w) G) in Q. destruct (minsr_solve 1 pinv1 (init eL w) G 0%nat) as [a b], (c 0%nat) as [x y]. 
  pose proof (f_equal fst Q) as Q1. pose proof (f_equal snd Q) as Q2. cbn in Q1, Q2. apply C_eq; cbn; lra.
Qed.
Lemma update_two z : c 0%nat = C1 -> c 1%nat = (z * c 0%nat)%C -> Cnorm2 z = 1 ->
  minsr_solve 2 pinv1 (init eL w) G 0%nat = (- C1)%C /\ minsr_solve 2 pinv1 (init eL w) G 1%nat = (- Cconj z)%C.
Proof.
  intros H Hz Nz. pose proof (minsr_rel 2 pinv1 w gL eL (shape1 _) (shape1 _) (pinv_two z Hz Nz) 0%nat ltac:(lia)) as Q. unfold csumn in Q. cbn [seq map] in Q. rewrite !csum_cons, csum_nil, !gg1, ge1 in Q.
  pose proof (update_hol 2 pinv1 w gL eL (shape1 _) [1%nat] z (hol1 z Hz)) as U. cbn [hol] in U. destruct U as [U _]. specialize (U 0%nat ltac:(lia)). cbn [Nat.add] in U.
  change (minsr_solve 2 pinv1 (init eL w) (init gL w)) with (minsr_solve 2 pinv1 (init eL w) G) in Q, U. rewrite U in *. rewrite Hz, H, Cconj_C1 in Q. set (a := minsr_solve 2 pinv1 (init eL w) G 0%nat) in *.
  assert (R0 : (RtoC (1/4) * ((C1 + z * Cconj z) * a))%C = (- RtoC (1/2))%C).
  { transitivity (- (RtoC (1/2) * C1))%C; [|ring]. rewrite <- Q. ring. }
  rewrite Cmul_conj_r, Nz in R0. assert (a = (- C1)%C) as ->; [|split; ring].
  destruct a as [x y]. pose proof (f_equal fst R0) as Q1. pose proof (f_equal snd R0) as Q2. cbn in Q1, Q2. apply C_eq; cbn; lra.
Qed.
End OneSpin.

(** The theorems apply to the network log psi(s) = W s with one complex parameter, and to log psi(s) = W s with
    one real parameter: the amplitude moves to smaller values. *)
Definition complex_net : nqs := mk_nqs true false [1%nat] [[C0]] 0.
Definition real_net : nqs := mk_nqs true true [1%nat] [[C0]] 0.
Definition lp_real (theta : nat -> R) (s : config) : C := (RtoC (theta 0%nat) * RtoC (INR (nth 0 s 0%nat)))%C.
Lemma scaled_deriv (F : (nat -> R) -> R) (v : nat -> R) x a b : (forall t, F (moved zero_theta v t) = a + t * b) ->
  derivable_pt_lim (fun t => F (moved zero_theta v t) * x) 0 (b * x).
Proof.
  intros H. apply (deriv_ext (fun t => a * x + (b * x) * t)); [intros t; rewrite H; ring|].
  eapply deriv_value; [apply (derivable_pt_lim_plus (fun _ => a * x) (fun t => (b * x) * t)); [apply derivable_pt_lim_const|apply (derivable_pt_lim_scal (fun t => t)); apply derivable_pt_lim_id]|ring].
Qed.
Lemma lp_real_gradient : log_gradient 1 lp_real zero_theta (spin_grads (fun _ => C1)).
Proof.
  intros s v. unfold lp_real, spin_grads. set (x := INR (nth 0 s 0%nat)). split.
  - eapply deriv_value; [eapply (deriv_ext (fun t => moved zero_theta v t 0%nat * x)); [intros t; cbn; ring|apply (scaled_deriv (fun th => th 0%nat) v x 0 (v 0%nat)); intros; unfold moved, zero_theta; ring]|]. cbn. ring.
  - eapply deriv_value; [eapply (deriv_ext (fun t => 0)); [intros t; cbn; ring|apply derivable_pt_lim_const]|]. cbn. ring.
Qed.
Lemma some1 (a b : R) : a = b -> Some [a] = Some [b]. Proof. now intros ->. Qed.
Lemma some2 (a b x y : R) : a = b -> x = y -> Some [a; x] = Some [b; y]. Proof. now intros -> ->. Qed.
Example C88_case dt :
  (exists E q', energy_obs 2 1 2 1 0 (lp1 zero_theta) (map to_opstr z1) [] 0 = Ok E
    /\ log_gradient 2 lp1 zero_theta (spin_grads (fun k => if Nat.eqb k 0 then C1 else Ci)) /\ good complex_net
    /\ (forall s k, (k < 2)%nat -> spin_grads (fun k => if Nat.eqb k 0 then C1 else Ci) s k = nth k (gradients false true [[RtoC (INR (nth 0 s 0%nat))]] []) C0)
    /\ (let G := gradient_obs 2 1 2 1 0 (lp1 zero_theta) (spin_grads (fun k => if Nat.eqb k 0 then C1 else Ci)) in
        pseudo_inverse (length (gathered G)) (tangent_kernel 2 G) (pinv1 (length (gathered G)) (tangent_kernel 2 G))
        /\ minsr_step dt complex_net 2 (minsr_solve 2 pinv1 E G) = Ok q' /\ get_parameters q' = Some [-2 * dt; 0]))
  /\ (exists E q', energy_obs 2 1 2 1 0 (lp_real zero_theta) (map to_opstr z1) [] 0 = Ok E
    /\ log_gradient 1 lp_real zero_theta (spin_grads (fun _ => C1)) /\ good real_net
    /\ (forall s k, In s (all_configs 2 1) -> Im (spin_grads (fun _ => C1) s k) = 0)
    /\ (let phi := fun s => Cexp (lp_real zero_theta s) in forall s, In s (all_configs 2 1) -> Im (apply_strings z1 [C1] phi s / phi s)%C = 0)
    /\ (let G := gradient_obs 2 1 2 1 0 (lp_real zero_theta) (spin_grads (fun _ => C1)) in
        pseudo_inverse (length (gathered G)) (tangent_kernel 1 G) (pinv1 (length (gathered G)) (tangent_kernel 1 G))
        /\ minsr_step dt real_net 1 (minsr_solve 1 pinv1 E G) = Ok q' /\ get_parameters q' = Some [-2 * dt])).
Proof.
  set (c := fun k : nat => if Nat.eqb k 0 then C1 else Ci). split.
  - assert (H0 : forall s, lp1 zero_theta s = C0) by (intros s; unfold lp1, zero_theta; rewrite RtoC_0; ring).
    assert (Hz : c 1%nat = (Ci * c 0%nat)%C) by (unfold c; cbn [Nat.eqb]; ring). assert (Nz : Cnorm2 Ci = 1) by (unfold Cnorm2; cbn; ring).
    eexists. eexists. split; [exact (energy1 lp1)|]. split; [exact (lp1_gradient zero_theta)|].
    split; [split; [reflexivity|split; [reflexivity|discriminate]]|]. split.
    + intros s k Hk. unfold spin_grads, c, gradients, flat_gradient_holo, two_blocks. destruct k as [|[|k]]; [| |lia]; cbn [Nat.eqb map concat app nth]; ring.
    + split; [exact (pinv_two lp1 c H0 Ci Hz Nz)|]. unfold minsr_step, euler_cpx. cbn [get_parameters complex_net nq_init nq_real nq_params flatten map concat app seq].
      destruct (update_two lp1 c H0 Ci eq_refl Hz Nz) as [-> ->]. split; [reflexivity|]. apply some2; cbn; ring.
  - assert (H0 : forall s, lp_real zero_theta s = C0) by (intros s; unfold lp_real, zero_theta; rewrite RtoC_0; ring).
    eexists. eexists. split; [exact (energy1 lp_real)|]. split; [exact lp_real_gradient|].
    split; [split; [reflexivity|split; [reflexivity|intros _; repeat constructor]]|].
    split; [intros s k _; unfold spin_grads; cbn; ring|]. split.
    { intros phi s [<-|[<-|[]]]; destruct (eloc1 lp_real H0) as [E1 E2]; unfold phi; [etransitivity; [exact (f_equal Im E1)|]|etransitivity; [exact (f_equal Im E2)|]]; cbn; ring. }
    split; [exact (pinv_one lp_real (fun _ => C1))|]. unfold minsr_step, euler_cpx. cbn [get_parameters real_net nq_init nq_real nq_params flatten map concat app seq].
    rewrite (update_one lp_real (fun _ => C1) H0) by (unfold Cnorm2; cbn; ring). split; [reflexivity|]. apply some1; cbn; ring.
Qed.

(** Networks with real parameters and complex log-amplitudes, here log psi(s) = i W s: the update is imaginary, and after
    one step the network holds parameters that are not real. *)
Definition lp_phase (theta : nat -> R) (s : config) : C := (Ci * RtoC (theta 0%nat) * RtoC (INR (nth 0 s 0%nat)))%C.
Definition phase_amplitude (t : tree) (s : config) : C := (Ci * entry t 0 0 * RtoC (INR (nth 0 s 0%nat)))%C.
Theorem C88_real_refuted : exists q lp grads E pinv,
  let G := gradient_obs 2 1 2 1 0 (lp zero_theta) grads in
  good q /\ nq_real q = true /\ get_parameters q = Some (map zero_theta (seq 0 1))
  /\ (forall theta q', set_parameters q (PVec (map theta (seq 0 1))) = Ok q' -> forall s, lp theta s = phase_amplitude (nq_params q') s)
  /\ log_gradient 1 lp zero_theta grads
  /\ energy_obs 2 1 2 1 0 (lp zero_theta) (map to_opstr z1) [] 0 = Ok E
  /\ pseudo_inverse (length (gathered G)) (tangent_kernel 1 G) (pinv (length (gathered G)) (tangent_kernel 1 G))
  /\ forall dt, dt <> 0 -> exists q', minsr_step dt q 1 (minsr_solve 1 pinv E G) = Ok q' /\ ~ real_parameters q'.
Proof.
  exists real_net, lp_phase, (spin_grads (fun _ => Ci)). eexists. exists pinv1. cbv zeta.
  assert (H0 : forall s, lp_phase zero_theta s = C0) by (intros s; unfold lp_phase, zero_theta; rewrite RtoC_0; ring).
  split; [split; [reflexivity|split; [reflexivity|intros _; repeat constructor]]|]. split; [reflexivity|]. split; [reflexivity|]. split.
  { intros theta q' H s. cbn in H. injection H as <-. reflexivity. }
  split.
  { intros s v. unfold lp_phase, spin_grads. set (x := INR (nth 0 s 0%nat)). split.
    - eapply deriv_value; [eapply (deriv_ext (fun t => 0)); [intros t; cbn; ring|apply derivable_pt_lim_const]|]. cbn. ring.
    - eapply deriv_value; [eapply (deriv_ext (fun t => moved zero_theta v t 0%nat * x)); [intros t; cbn; ring|apply (scaled_deriv (fun th => th 0%nat) v x 0 (v 0%nat)); intros; unfold moved, zero_theta; ring]|]. cbn. ring. }
  split; [exact (energy1 lp_phase)|]. split; [exact (pinv_one lp_phase (fun _ => Ci))|].
  intros dt Hdt. unfold minsr_step, euler_cpx. cbn [get_parameters real_net nq_init nq_real nq_params flatten map concat app seq].
  rewrite (update_one lp_phase (fun _ => Ci) H0) by (unfold Cnorm2; cbn; ring). eexists. split; [reflexivity|]. unfold real_parameters. cbn -[Rmult].
  intros H. inversion H as [|x1 x2 H1 H2 [H3 H4]]. inversion H1 as [|y1 y2 H5 H6 [H7 H8]]. cbn in H5. apply Hdt. lra.
Qed.
Print Assumptions C88_real_refuted.

(** Networks with complex parameters that are not holomorphic, here log psi(s) = conj(W) s: the
    contributions to the two real numbers of a parameter cancel.  The step leaves the parameters
    unchanged although the energy has a slope. *)
Definition lp_anti (theta : nat -> R) (s : config) : C := ((RtoC (theta 0%nat) - Ci * RtoC (theta 1%nat)) * RtoC (INR (nth 0 s 0%nat)))%C.
Definition anti_amplitude (t : tree) (s : config) : C := (Cconj (entry t 0 0) * RtoC (INR (nth 0 s 0%nat)))%C.
Theorem C88_nonholomorphic_refuted : exists q lp grads gr gi E pinv,
  let G := gradient_obs 2 1 2 1 0 (lp zero_theta) grads in
  let energy := energy_at (all_configs 2 1) (apply_strings z1 [C1]) lp in
  good q /\ nq_real q = false /\ get_parameters q = Some (map zero_theta (seq 0 2))
  /\ (forall theta q', set_parameters q (PVec (map theta (seq 0 2))) = Ok q' -> forall s, lp theta s = anti_amplitude (nq_params q') s)
  /\ log_gradient 2 lp zero_theta grads
  /\ (forall s, map (@length C) (gr s) = nq_shapes q) /\ (forall s k, (k < 2)%nat -> grads s k = nth k (gradients false false (gr s) (gi s)) C0)
  /\ energy_obs 2 1 2 1 0 (lp zero_theta) (map to_opstr z1) [] 0 = Ok E
  /\ pseudo_inverse (length (gathered G)) (tangent_kernel 2 G) (pinv (length (gathered G)) (tangent_kernel 2 G))
  /\ (exists dE, gradient_of 2 energy zero_theta dE /\ dE 0%nat = 1)
  /\ forall dt, minsr_step dt q 2 (minsr_solve 2 pinv E G) = Ok q.
Proof.
  set (c := fun k : nat => if Nat.eqb k 0 then C1 else (- Ci)%C). exists complex_net, lp_anti, (spin_grads c), (fun s => [[RtoC (INR (nth 0 s 0%nat))]]), (fun s => [[(Ci * RtoC (INR (nth 0 s 0%nat)))%C]]). eexists. exists pinv1. cbv zeta.
  assert (H0 : forall s, lp_anti zero_theta s = C0) by (intros s; unfold lp_anti, zero_theta; rewrite RtoC_0; ring).
  assert (Hz : c 1%nat = (- Ci * c 0%nat)%C) by (unfold c; cbn [Nat.eqb]; ring). assert (Nz : Cnorm2 (- Ci)%C = 1) by (unfold Cnorm2; cbn; ring).
  assert (LG : log_gradient 2 lp_anti zero_theta (spin_grads c)).
  { intros s v. unfold lp_anti, spin_grads, c. set (x := INR (nth 0 s 0%nat)). split.
    - eapply deriv_value; [eapply (deriv_ext (fun t => moved zero_theta v t 0%nat * x)); [intros t; cbn; ring|apply (scaled_deriv (fun th => th 0%nat) v x 0 (v 0%nat)); intros; unfold moved, zero_theta; ring]|]. cbn. ring.
    - eapply deriv_value; [eapply (deriv_ext (fun t => (- moved zero_theta v t 1%nat) * x)); [intros t; cbn; ring|apply (scaled_deriv (fun th => - th 1%nat) v x 0 (- v 1%nat)); intros; unfold moved, zero_theta; ring]|]. cbn. ring. }
  split; [split; [reflexivity|split; [reflexivity|discriminate]]|]. split; [reflexivity|]. split; [reflexivity|]. split.
  { intros theta q' H s. cbn in H. injection H as <-. unfold lp_anti, anti_amplitude, entry. cbn [nth nq_params set_params]. apply (f_equal (fun X => (X * _)%C)). apply C_eq; cbn; ring. }
  split; [exact LG|]. split; [reflexivity|]. split.
  { intros s k Hk. unfold spin_grads, c, gradients, flat_gradient_cpx_nonholo, two_blocks. destruct k as [|[|k]]; [| |lia]; cbn; apply C_eq; cbn; ring. }
  split; [exact (energy1 lp_anti)|]. split; [exact (pinv_two lp_anti c H0 (- Ci)%C Hz Nz)|]. split.
  - exists (slope 2 1 lp_anti zero_theta (spin_grads c) z1 [C1]). split.
    + apply (slope_gradient 2 1 2 1); first [exact fit1|exact LG|exact z1_wf|exact z1_hermitian|lia].
    + unfold slope. rewrite (cov1 lp_anti H0). destruct (eloc1 lp_anti H0) as [-> ->]. unfold spin_grads, c. cbn. field.
  - intros dt. unfold minsr_step, euler_cpx. cbn [get_parameters complex_net nq_init nq_real nq_params flatten map concat app seq].
    destruct (update_two lp_anti c H0 (- Ci)%C eq_refl Hz Nz) as [-> ->]. cbn. unfold complex_net, set_params. cbn. repeat f_equal. apply C_eq; cbn; ring.
Qed.
Print Assumptions C88_nonholomorphic_refuted.
