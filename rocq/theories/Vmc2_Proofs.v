(** Derivative of the energy with respect to the parameters. *)
From Coq Require Import ZArith List Reals Lra Lia FunctionalExtensionality.
From Verif Require Import Base Cplx Stats_Spec Stats_Proofs BranchFree_Model BranchFree_Spec Sampler_Spec Exact_Proofs Vmc_Spec Vmc_Proofs.
Import ListNotations.
Local Open Scope R_scope.

(** ** complex functions of a real variable *)
Lemma cderiv_const c t : cderiv (fun _ => c) t C0.
Proof. split; apply derivable_pt_lim_const. Qed.
Lemma cderiv_add f g t a b : cderiv f t a -> cderiv g t b -> cderiv (fun x => (f x + g x)%C) t (a + b)%C.
Proof.
  intros [F1 F2] [G1 G2]. split; cbn; [apply (derivable_pt_lim_plus (fun x => Re (f x)) (fun x => Re (g x)))|apply (derivable_pt_lim_plus (fun x => Im (f x)) (fun x => Im (g x)))]; assumption.
Qed.
Lemma deriv_value f t a b : derivable_pt_lim f t a -> a = b -> derivable_pt_lim f t b.
Proof. now intros H <-. Qed.
Lemma cderiv_mul f g t a b : cderiv f t a -> cderiv g t b -> cderiv (fun x => (f x * g x)%C) t (a * g t + f t * b)%C.
Proof.
  intros [F1 F2] [G1 G2]. split; cbn.
  - eapply deriv_value; [apply (derivable_pt_lim_minus (fun x => Re (f x) * Re (g x)) (fun x => Im (f x) * Im (g x)));
      [apply (derivable_pt_lim_mult (fun x => Re (f x)) (fun x => Re (g x)))|apply (derivable_pt_lim_mult (fun x => Im (f x)) (fun x => Im (g x)))]; eassumption|]. unfold Re, Im. ring.
  - eapply deriv_value; [apply (derivable_pt_lim_plus (fun x => Re (f x) * Im (g x)) (fun x => Im (f x) * Re (g x)));
      [apply (derivable_pt_lim_mult (fun x => Re (f x)) (fun x => Im (g x)))|apply (derivable_pt_lim_mult (fun x => Im (f x)) (fun x => Re (g x)))]; eassumption|]. unfold Re, Im. ring.
Qed.
Lemma cderiv_conj f t a : cderiv f t a -> cderiv (fun x => Cconj (f x)) t (Cconj a).
Proof. intros [F1 F2]. split; cbn; [exact F1|]. apply (derivable_pt_lim_opp (fun x => Im (f x))). exact F2. Qed.
Lemma cderiv_exp f t a : cderiv f t a -> cderiv (fun x => Cexp (f x)) t (a * Cexp (f t))%C.
Proof.
  intros [F1 F2]. unfold Cexp. split; cbn.
  - eapply deriv_value; [apply (derivable_pt_lim_mult (fun x => exp (Re (f x))) (fun x => cos (Im (f x))));
      [apply (derivable_pt_lim_comp (fun x => Re (f x)) exp); [exact F1|apply derivable_pt_lim_exp]
      |apply (derivable_pt_lim_comp (fun x => Im (f x)) cos); [exact F2|apply derivable_pt_lim_cos]]|]. unfold Re, Im. ring.
  - eapply deriv_value; [apply (derivable_pt_lim_mult (fun x => exp (Re (f x))) (fun x => sin (Im (f x))));
      [apply (derivable_pt_lim_comp (fun x => Re (f x)) exp); [exact F1|apply derivable_pt_lim_exp]
      |apply (derivable_pt_lim_comp (fun x => Im (f x)) sin); [exact F2|apply derivable_pt_lim_sin]]|]. unfold Re, Im. ring.
Qed.
Lemma cderiv_csum {X} (l : list X) (f : X -> R -> C) (d : X -> C) t : (forall s, In s l -> cderiv (f s) t (d s)) ->
  cderiv (fun x => csum (map (fun s => f s x) l)) t (csum (map d l)).
Proof.
  induction l as [|a l IH]; intros H; [exact (cderiv_const C0 t)|]. cbn [map]. rewrite csum_cons.
  apply (cderiv_add (f a) (fun x => csum (map (fun s => f s x) l))); [apply H; now left|apply IH; intros; apply H; now right].
Qed.

Section Energy.
Context {A : Type}.
Variables (basis : list config) (sts : list (ostring A)) (vals : list C).
Let O := apply_strings sts vals.
(** the family of wave functions and its log-derivative *)
Variables (phi : R -> wavefun) (t0 : R) (g : config -> C).
Hypothesis Hne : basis <> [].
Hypothesis Hphi : forall s, phi t0 s <> C0.
Hypothesis Hclosed : forall s sv, In s basis -> In sv (combine sts vals) -> In (fst (act (snd (fst sv)) s)) basis.
Hypothesis Hd : forall s, In s basis -> cderiv (fun t => phi t s) t0 (g s * phi t0 s)%C.
Hypothesis Hherm : hermitian_on basis O.
Let gphi : wavefun := fun s => (g s * phi t0 s)%C.

Lemma O_deriv s : In s basis -> cderiv (fun t => O (phi t) s) t0 (O gphi s).
Proof.
  intros Hs. unfold O, apply_strings. apply (cderiv_csum (combine sts vals) (fun sv t => (snd sv * snd (act (snd (fst sv)) s) * phi t (fst (act (snd (fst sv)) s)))%C)).
  intros sv Hsv. set (c := (snd sv * snd (act (snd (fst sv)) s))%C). set (s' := fst (act (snd (fst sv)) s)).
  change (cderiv (fun t => (c * phi t s')%C) t0 (c * gphi s')%C). replace (c * gphi s')%C with (C0 * phi t0 s' + c * gphi s')%C by ring.
  apply (cderiv_mul (fun _ => c) (fun t => phi t s')); [apply cderiv_const|]. apply Hd. now apply Hclosed.
Qed.
Let N' := (braket basis gphi (O (phi t0)) + braket basis (phi t0) (O gphi))%C.
Lemma N_deriv : cderiv (fun t => braket basis (phi t) (O (phi t))) t0 N'.
Proof.
  unfold N', braket. rewrite <- csum_map_add. apply (cderiv_csum basis (fun s t => (Cconj (phi t s) * O (phi t) s)%C)).
  intros s Hs. apply (cderiv_mul (fun t => Cconj (phi t s)) (fun t => O (phi t) s)); [|now apply O_deriv]. apply cderiv_conj. now apply Hd.
Qed.
Let G := csum (map (fun s => (RtoC (Cnorm2 (phi t0 s)) * g s)%C) basis).
Lemma Z_deriv : derivable_pt_lim (fun t => norm2 basis (phi t)) t0 (2 * Re G).
Proof.
  unfold G. rewrite Re_csum, map_map, <- rsum_scal. unfold norm2. apply (deriv_rsum basis (fun s t => Cnorm2 (phi t s))). intros s Hs.
  destruct (Hd s Hs) as [D1 D2]. unfold Cnorm2. eapply deriv_value.
  - apply (derivable_pt_lim_plus (fun t => Re (phi t s) * Re (phi t s)) (fun t => Im (phi t s) * Im (phi t s)));
    [apply (derivable_pt_lim_mult (fun t => Re (phi t s)) (fun t => Re (phi t s)))|apply (derivable_pt_lim_mult (fun t => Im (phi t s)) (fun t => Im (phi t s)))]; eassumption.
  - cbn. unfold Re, Im. ring.
Qed.
Lemma energy_real : Im (expectation basis O (phi t0)) = 0.
Proof.
  unfold expectation. pose proof (norm2_pos basis (phi t0) Hne Hphi) as HZ. unfold Cdiv. rewrite <- Cinv_RtoC_ by lra.
  assert (E : Im (braket basis (phi t0) (O (phi t0))) = 0) by (pose proof (Hherm (phi t0) (phi t0)) as H; destruct (braket basis (phi t0) (O (phi t0))) as [b1 b2]; apply (f_equal snd) in H; cbn in H |- *; lra).
  destruct (braket basis (phi t0) (O (phi t0))) as [b1 b2]. cbn in E |- *. rewrite E. ring.
Qed.
Lemma cov_value : cov (born_list basis (phi t0)) g (fun s => (O (phi t0) s / phi t0 s)%C)
  = (braket basis gphi (O (phi t0)) / RtoC (norm2 basis (phi t0)) - Cconj (G / RtoC (norm2 basis (phi t0))) * expectation basis O (phi t0))%C.
Proof.
  unfold cov. rewrite (born_local basis (phi t0) O Hne Hphi). rewrite !(born_expect basis (phi t0) Hne Hphi). fold G. do 2 f_equal.
  unfold braket. apply csum_ext. intros s _. unfold gphi. rewrite Cconj_mul, <- Cmul_conj. field. apply Hphi.
Qed.
Lemma energy_deriv : derivable_pt_lim (fun t => Re (expectation basis O (phi t))) t0 (2 * Re (cov (born_list basis (phi t0)) g (fun s => (O (phi t0) s / phi t0 s)%C))).
Proof.
  pose proof (norm2_pos basis (phi t0) Hne Hphi) as HZ. destruct N_deriv as [DN _].
  assert (EQ : forall t, norm2 basis (phi t) <> 0 -> Re (expectation basis O (phi t)) = Re (braket basis (phi t) (O (phi t))) / norm2 basis (phi t)).
  { intros t Ht. unfold expectation, Cdiv. rewrite <- Cinv_RtoC_ by assumption. cbn. unfold Re, Rdiv. ring. }
  assert (EQ0 : forall t, Re (expectation basis O (phi t)) = Re (braket basis (phi t) (O (phi t))) / norm2 basis (phi t)).
  { intros t. destruct (Req_dec (norm2 basis (phi t)) 0) as [E0|E0]; [|now apply EQ]. unfold expectation, Cdiv. rewrite E0. cbn. unfold Rdiv, Re. rewrite !Rmult_0_l, !Ropp_0, Rmult_0_l.
    assert (BZ : braket basis (phi t) (O (phi t)) = C0).
    { unfold braket. rewrite (csum_ext _ (fun _ => C0)); [apply csum_zero|]. intros s Hs. unfold norm2 in E0. pose proof (rsum_nonneg_eq0 _ basis (fun x _ => Cnorm2_ge _) E0 s Hs) as Z0. cbn beta in Z0. apply Cnorm2_eq0 in Z0. rewrite Z0. rewrite Cconj_C0. ring. }
    rewrite BZ. cbn. ring. }
  apply (deriv_ext (fun t => Re (braket basis (phi t) (O (phi t))) / norm2 basis (phi t))); [intros; now rewrite EQ0|].
  eapply deriv_value; [apply (derivable_pt_lim_div (fun t => Re (braket basis (phi t) (O (phi t)))) (fun t => norm2 basis (phi t))); [exact DN|exact Z_deriv|exact (Rgt_not_eq _ _ HZ)]|].
  rewrite cov_value. unfold N'. rewrite (Hherm (phi t0) gphi).
  set (B := braket basis gphi (O (phi t0))). set (Zn := norm2 basis (phi t0)) in *. fold Zn.
  assert (E : expectation basis O (phi t0) = RtoC (Re (braket basis (phi t0) (O (phi t0))) / Zn)).
  { apply C_eq; [|exact energy_real]. change (Re (expectation basis O (phi t0)) = Re (braket basis (phi t0) (O (phi t0))) / Zn). apply EQ. exact (Rgt_not_eq _ _ HZ). }
  rewrite E. unfold Cdiv. rewrite <- Cinv_RtoC_ by (exact (Rgt_not_eq _ _ HZ)). generalize (Re (braket basis (phi t0) (O (phi t0)))). intros b. clearbody Zn B G. destruct B as [b1 b2], G as [g1 g2]. cbn. unfold Rsqr. field. lra.
Qed.
End Energy.
