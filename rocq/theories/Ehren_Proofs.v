(** Lemmas for the accuracy of the motion in the variational manifold. *)
From Coq Require Import ZArith List Reals Lra Lia FunctionalExtensionality.
From Verif Require Import Base Cplx Stats_Spec Stats_Proofs BranchFree_Model BranchFree_Spec Sampler_Spec Exact_Proofs Tdvp5_Proofs Vmc_Spec Vmc_Proofs Vmc2_Proofs Ehren_Spec.
Import ListNotations.
Local Open Scope R_scope.

(** ** Cauchy-Schwarz for complex functions with weights *)
Section CS.
Context {X : Type}.
Variables (xs : list (R * X)) (f g : X -> C).
Hypothesis Hp : forall p, In p (map fst xs) -> 0 <= p.
Let P := expect xs (fun a => (Cconj (f a) * g a)%C).
Let A := rsum (map (fun px => fst px * Cnorm2 (f (snd px))) xs).
Let B := rsum (map (fun px => fst px * Cnorm2 (g (snd px))) xs).
Lemma weight_nonneg px : In px xs -> 0 <= fst px.
Proof. intros H. apply Hp. apply in_map_iff. now exists px. Qed.
Lemma square_expand : rsum (map (fun px => fst px * Cnorm2 (RtoC B * f (snd px) - Cconj P * g (snd px))%C) xs) = B * (A * B - Cnorm2 P).
Proof.
  assert (E : forall px, fst px * Cnorm2 (RtoC B * f (snd px) - Cconj P * g (snd px))%C
     = (B * B) * (fst px * Cnorm2 (f (snd px))) + (Cnorm2 P * (fst px * Cnorm2 (g (snd px))) + (- (2 * B)) * Re (Cconj P * Cscal (fst px) (Cconj (f (snd px)) * g (snd px)))%C)).
  { intros [p a]. cbn [fst snd]. destruct P as [p1 p2], (f a) as [f1 f2], (g a) as [g1 g2]. unfold Cnorm2, Csub, Copp. cbn. ring. }
  rewrite (rsum_ext _ (fun px => (B * B) * (fst px * Cnorm2 (f (snd px))) + (Cnorm2 P * (fst px * Cnorm2 (g (snd px))) + (- (2 * B)) * Re (Cconj P * Cscal (fst px) (Cconj (f (snd px)) * g (snd px)))%C))) by (intros; apply E).
  rewrite !rsum_map_add, !rsum_scal. fold A B.
  assert (EP : rsum (map (fun px => Re (Cconj P * Cscal (fst px) (Cconj (f (snd px)) * g (snd px)))%C) xs) = Cnorm2 P).
  { rewrite <- (map_map (fun px => (Cconj P * Cscal (fst px) (Cconj (f (snd px)) * g (snd px)))%C) Re), <- Re_csum, csum_scal.
    change (Re (Cconj P * P)%C = Cnorm2 P). rewrite Cmul_conj. reflexivity. }
  rewrite EP. ring.
Qed.
Lemma expect_cs : Cnorm2 P <= A * B.
Proof.
  assert (HB : 0 <= B) by (apply rsum_map_nonneg; intros px Hx; apply Rmult_le_pos; [now apply weight_nonneg|apply Cnorm2_ge]).
  assert (G : 0 <= B * (A * B - Cnorm2 P)).
  { rewrite <- square_expand. apply rsum_map_nonneg. intros px Hx. apply Rmult_le_pos; [now apply weight_nonneg|apply Cnorm2_ge]. }
  destruct (Rle_lt_or_eq_dec 0 B HB) as [Hb|H0].
  - assert (0 <= A * B - Cnorm2 P) by (apply (Rmult_le_reg_l B); [exact Hb|lra]). lra.
  - assert (Z : P = C0).
    { unfold P, expect. rewrite (csum_ext _ (fun _ => C0)); [apply csum_zero|]. intros px Hx.
      pose proof (rsum_nonneg_eq0 (fun px => fst px * Cnorm2 (g (snd px))) xs ltac:(intros y Hy; apply Rmult_le_pos; [now apply weight_nonneg|apply Cnorm2_ge]) (eq_sym H0) px Hx) as Q. cbn beta in Q.
      apply Rmult_integral in Q as [Q|Q]; [rewrite Q; destruct (Cconj (f (snd px)) * g (snd px))%C as [a b]; unfold Cscal; apply C_eq; cbn; ring|]. apply Cnorm2_eq0 in Q. rewrite Q, Cscal_RtoC. ring. }
    rewrite Z, Cnorm2_C0, <- H0. lra.
Qed.
End CS.

Lemma cov_cs {X} (xs : list (R * X)) f g : rsum (map fst xs) = 1 -> (forall p, In p (map fst xs) -> 0 <= p) -> Cnorm2 (cov xs f g) <= variance xs f * variance xs g.
Proof.
  intros H1 Hp. rewrite <- cov_centred by exact H1. exact (expect_cs xs (fun a => (f a - expect xs f)%C) (fun a => (g a - expect xs g)%C) Hp).
Qed.
Lemma braket_cs basis (f g : wavefun) : Cnorm2 (braket basis f g) <= norm2 basis f * norm2 basis g.
Proof.
  pose proof (expect_cs (map (fun s => (1, s)) basis) f g) as H. rewrite !map_map in H. cbn [fst snd] in H. unfold braket, norm2.
  assert (E : expect (map (fun s => (1, s)) basis) (fun a => (Cconj (f a) * g a)%C) = csum (map (fun s => (Cconj (f s) * g s)%C) basis)).
  { unfold expect. rewrite map_map. apply csum_ext. intros s _. cbn [fst snd]. rewrite Cscal_RtoC, RtoC_1. ring. }
  rewrite E in H. rewrite (rsum_ext (fun s => 1 * Cnorm2 (f s)) (fun s => Cnorm2 (f s))) in H by (intros; ring).
  rewrite (rsum_ext (fun s => 1 * Cnorm2 (g s)) (fun s => Cnorm2 (g s))) in H by (intros; ring).
  apply H. intros p Hin. apply in_map_iff in Hin as (s & <- & _). lra.
Qed.

Lemma Re_sq_le z : Re z * Re z <= Cnorm2 z.
Proof. destruct z as [a b]. unfold Cnorm2. cbn. nra. Qed.

(** ** rate of an observable *)
Section Rate.
Context {A : Type}.
Variables (basis : list config) (sts : list (ostring A)) (vals : list C).
Let Aop := apply_strings sts vals.
Variables (x : C) (H : wavefun -> wavefun) (phi chi : R -> wavefun) (t0 : R) (g : config -> C).
Hypothesis Hne : basis <> [].
Hypothesis Hphi : forall s, phi t0 s <> C0.
Hypothesis Hclosed : forall s sv, In s basis -> In sv (combine sts vals) -> In (fst (act (snd (fst sv)) s)) basis.
Hypothesis Hd : forall s, In s basis -> cderiv (fun t => phi t s) t0 (g s * phi t0 s)%C.
Hypothesis Hherm : hermitian_on basis Aop.
Hypothesis Hsame : forall s, chi t0 s = phi t0 s.
Hypothesis Hflow : flows basis x H chi t0.
Lemma rates_differ d r :
  derivable_pt_lim (fun t => Re (expectation basis Aop (phi t))) t0 d ->
  derivable_pt_lim (fun t => Re (expectation basis Aop (chi t))) t0 r ->
  (d - r) * (d - r) <= 4 * (spread basis Aop (phi t0) * variance (born_list basis (phi t0)) (fun s => (g s + x * (H (phi t0) s / phi t0 s))%C)).
Proof.
  intros D1 D2. set (el := fun s => (H (phi t0) s / phi t0 s)%C). set (al := fun s => (Aop (phi t0) s / phi t0 s)%C).
  pose proof (uniqueness_limite _ _ _ _ D1 (energy_deriv basis sts vals phi t0 g Hne Hphi Hclosed Hd Hherm)) as E1.
  assert (F : chi t0 = phi t0) by (now apply functional_extensionality).
  pose proof (uniqueness_limite _ _ _ _ D2 (energy_deriv basis sts vals chi t0 (fun s => (- x * el s)%C) Hne ltac:(intros s; rewrite Hsame; apply Hphi) Hclosed
     ltac:(intros s Hs; rewrite Hsame; unfold el; replace (- x * (H (phi t0) s / phi t0 s) * phi t0 s)%C with (- x * H (phi t0) s)%C by (field; apply Hphi); rewrite <- F; now apply Hflow) Hherm)) as E2.
  rewrite F in E2. fold Aop al in E1, E2.
  set (L := born_list basis (phi t0)) in *. set (res := fun s => (g s + x * el s)%C).
  assert (ED : d - r = 2 * Re (cov L res al)).
  { rewrite E1, E2. unfold res. rewrite cov_add_l, !cov_scal_l. rewrite Cconj_opp. destruct (cov L g al) as [a1 a2], (Cconj x) as [x1 x2], (cov L el al) as [b1 b2]. cbn. ring. }
  rewrite ED. pose proof (born_variance basis (phi t0) Aop Hne Hphi) as V. fold al L in V. rewrite <- V.
  pose proof (cov_cs L res al (born_total basis (phi t0) Hne Hphi) (born_weights_nonneg basis (phi t0) Hne Hphi)) as CS.
  pose proof (Re_sq_le (cov L res al)) as RS. assert (G : 2 * Re (cov L res al) * (2 * Re (cov L res al)) <= 4 * (variance L al * variance L res)) by (rewrite (Rmult_comm (variance L al)); lra). exact G.
Qed.
End Rate.

(** ** brackets *)
Lemma braket_add_r basis f g h : braket basis f (fun s => (g s + h s)%C) = (braket basis f g + braket basis f h)%C.
Proof. unfold braket. rewrite <- csum_map_add. apply csum_ext. intros. ring. Qed.
Lemma braket_scal_r basis f c h : braket basis f (fun s => (c * h s)%C) = (c * braket basis f h)%C.
Proof. unfold braket. rewrite <- csum_scal. apply csum_ext. intros. ring. Qed.
Lemma braket_conj basis f g : braket basis f g = Cconj (braket basis g f).
Proof. unfold braket. rewrite csum_conj, map_map. apply csum_ext. intros. rewrite Cconj_mul, Cconj_conj. ring. Qed.
Lemma braket_add_l basis f g h : braket basis (fun s => (g s + h s)%C) f = (braket basis g f + braket basis h f)%C.
Proof. rewrite braket_conj, braket_add_r, Cconj_add, <- !braket_conj. reflexivity. Qed.
Lemma braket_scal_l basis f c h : braket basis (fun s => (c * h s)%C) f = (Cconj c * braket basis h f)%C.
Proof. rewrite braket_conj, braket_scal_r, Cconj_mul, <- braket_conj. reflexivity. Qed.
Lemma braket_self basis f : braket basis f f = RtoC (norm2 basis f).
Proof. unfold braket, norm2. rewrite <- csum_RtoC, map_map. apply csum_ext. intros. apply Cmul_conj. Qed.
Lemma braket_ext basis f f' g g' : (forall s, In s basis -> f s = f' s) -> (forall s, In s basis -> g s = g' s) -> braket basis f g = braket basis f' g'.
Proof. intros E1 E2. unfold braket. apply csum_ext. intros s Hs. now rewrite E1, E2. Qed.
Lemma norm2_nonneg basis f : 0 <= norm2 basis f.
Proof. apply rsum_map_nonneg. intros. apply Cnorm2_ge. Qed.

Lemma braket_deriv basis (a b : R -> wavefun) t (a' b' : wavefun) : (forall s, In s basis -> cderiv (fun t => a t s) t (a' s)) -> (forall s, In s basis -> cderiv (fun t => b t s) t (b' s)) ->
  cderiv (fun t => braket basis (a t) (b t)) t (braket basis a' (b t) + braket basis (a t) b')%C.
Proof.
  intros Ha Hb. unfold braket. rewrite <- csum_map_add. apply (cderiv_csum basis (fun s t => (Cconj (a t s) * b t s)%C)).
  intros s Hs. apply (cderiv_mul (fun t => Cconj (a t s)) (fun t => b t s)); [|now apply Hb]. apply cderiv_conj. now apply Ha.
Qed.
Lemma norm2_deriv basis (a : R -> wavefun) t (a' : wavefun) : (forall s, In s basis -> cderiv (fun t => a t s) t (a' s)) ->
  derivable_pt_lim (fun t => norm2 basis (a t)) t (2 * Re (braket basis (a t) a')).
Proof.
  intros Ha. destruct (braket_deriv basis a a t a' a' Ha Ha) as [D _]. apply (deriv_ext (fun t => Re (braket basis (a t) (a t)))); [intros; rewrite braket_self; reflexivity|].
  eapply deriv_value; [exact D|]. rewrite (braket_conj basis a'). cbn. destruct (braket basis (a t) a') as [p q]. cbn. ring.
Qed.

(** ** the distance from the exact state *)
Section Distance.
Variables (basis : list config) (H : wavefun -> wavefun) (phi chi : R -> wavefun) (t0 : R) (g : config -> C).
Hypothesis Hne : basis <> [].
Hypothesis Hphi : forall s, phi t0 s <> C0.
Hypothesis Hchi : 0 < norm2 basis (chi t0).
Hypothesis Hherm : hermitian_on basis H.
Hypothesis Hd : forall s, In s basis -> cderiv (fun t => phi t s) t0 (g s * phi t0 s)%C.
Hypothesis Hflow : flows basis Ci H chi t0.
Notation br := (braket basis).
Let f := phi t0.
Let c := chi t0.
Let rho : wavefun := fun s => (g s * f s + Ci * H f s)%C.
Let Nf := norm2 basis f.
Let Nc := norm2 basis c.
Let o := br c f.
Let m := (br f rho / RtoC Nf)%C.
Let eta : wavefun := fun s => (rho s + (- m) * f s)%C.
Let V := variance (born_list basis f) (fun s => (g s + Ci * (H f s / f s))%C).
Lemma Nf_pos : 0 < Nf. Proof. exact (norm2_pos basis f Hne Hphi). Qed.
Lemma RtoC_ne r : r <> 0 -> RtoC r <> C0.
Proof. intros Hr E. apply Hr. apply (f_equal Re) in E. exact E. Qed.
Lemma eta_norm : norm2 basis eta = Nf * V.
Proof.
  unfold V, variance. pose proof Nf_pos as HP. unfold born_list at 2. rewrite map_map. cbn [fst snd]. rewrite <- rsum_scal. unfold norm2 at 1. apply rsum_ext. intros s _. fold Nf.
  assert (EM : expect (born_list basis f) (fun s => (g s + Ci * (H f s / f s))%C) = m).
  { rewrite (born_expect basis f Hne Hphi). unfold m. fold Nf. f_equal. unfold braket. apply csum_ext. intros s' _. unfold rho. rewrite <- Cmul_conj. field. apply Hphi. }
  rewrite EM. replace (Nf * (Cnorm2 (f s) / Nf * Cnorm2 (g s + Ci * (H f s / f s) - m)%C)) with (Cnorm2 (f s) * Cnorm2 (g s + Ci * (H f s / f s) - m)%C) by (field; lra).
  rewrite <- Cnorm2_mul. f_equal. unfold eta, rho. field. apply Hphi.
Qed.
Lemma eta_orth : br f eta = C0.
Proof.
  unfold eta. rewrite (braket_add_r basis f rho (fun s => (- m * f s)%C)), braket_scal_r, braket_self. fold Nf. unfold m. field. apply RtoC_ne. pose proof Nf_pos. lra.
Qed.
Let dF := 2 * Re (Cconj o * br c eta)%C / (Nc * Nf).
Lemma herm_real : Im (br f (H f)) = 0.
Proof. pose proof (Hherm f f) as E. destruct (br f (H f)) as [a b]. apply (f_equal snd) in E. cbn in E |- *. lra. Qed.
Lemma fidelity_deriv : derivable_pt_lim (fun t => fidelity basis (chi t) (phi t)) t0 dF.
Proof.
  assert (Hrho : br f (fun s => (g s * f s)%C) = (br f rho - Ci * br f (H f))%C).
  { unfold rho. rewrite (braket_add_r basis f (fun s => (g s * f s)%C) (fun s => (Ci * H f s)%C)), (braket_scal_r basis f Ci (H f)). ring. }
  assert (DN : derivable_pt_lim (fun t => norm2 basis (phi t)) t0 (2 * Re m * Nf)).
  { eapply deriv_value; [exact (norm2_deriv basis phi t0 _ Hd)|]. fold f. rewrite Hrho. pose proof herm_real as HR. pose proof Nf_pos as HP.
    assert (EM : br f rho = (m * RtoC Nf)%C) by (unfold m; field; apply RtoC_ne; lra). rewrite EM. destruct (br f (H f)) as [a b]. destruct m as [m1 m2]. cbn in HR |- *. rewrite HR. ring. }
  assert (DC : derivable_pt_lim (fun t => norm2 basis (chi t)) t0 0).
  { eapply deriv_value; [exact (norm2_deriv basis chi t0 _ Hflow)|]. fold c. rewrite (braket_scal_r basis c (- Ci)%C (H c)).
    pose proof (Hherm c c) as E. destruct (br c (H c)) as [a b]. apply (f_equal snd) in E. cbn in E |- *. assert (b = 0) by lra. subst b. ring. }
  assert (DO : cderiv (fun t => br (chi t) (phi t)) t0 (br c eta + m * o)%C).
  { pose proof (braket_deriv basis chi phi t0 _ _ Hflow Hd) as D. fold c f in D.
    match type of D with cderiv _ _ ?v => replace (br c eta + m * o)%C with v; [exact D|] end.
    rewrite (braket_scal_l basis f (- Ci)%C (H c)). rewrite (braket_conj basis (H c) f). rewrite (Hherm f c), Cconj_conj.
    unfold eta. rewrite (braket_add_r basis c rho (fun s => (- m * f s)%C)), (braket_scal_r basis c (- m)%C f). fold o. unfold rho.
    rewrite (braket_add_r basis c (fun s => (g s * f s)%C) (fun s => (Ci * H f s)%C)), (braket_scal_r basis c Ci (H f)).
    rewrite Cconj_opp. replace (Cconj Ci) with (- Ci)%C by (apply C_eq; cbn; ring). ring. }
  destruct DO as [D1 D2]. unfold fidelity. pose proof Nf_pos as HP. pose proof Hchi as HC. fold c in HC. fold Nc in HC.
  apply (deriv_ext (fun t => (Re (br (chi t) (phi t)) * Re (br (chi t) (phi t)) + Im (br (chi t) (phi t)) * Im (br (chi t) (phi t))) / (norm2 basis (chi t) * norm2 basis (phi t)))).
  { reflexivity. }
  eapply deriv_value.
  - apply (derivable_pt_lim_div (fun t => Re (br (chi t) (phi t)) * Re (br (chi t) (phi t)) + Im (br (chi t) (phi t)) * Im (br (chi t) (phi t))) (fun t => norm2 basis (chi t) * norm2 basis (phi t))).
    + apply (derivable_pt_lim_plus (fun t => Re (br (chi t) (phi t)) * Re (br (chi t) (phi t))) (fun t => Im (br (chi t) (phi t)) * Im (br (chi t) (phi t))));
      [apply (derivable_pt_lim_mult (fun t => Re (br (chi t) (phi t))) (fun t => Re (br (chi t) (phi t))))|apply (derivable_pt_lim_mult (fun t => Im (br (chi t) (phi t))) (fun t => Im (br (chi t) (phi t))))]; eassumption.
    + apply (derivable_pt_lim_mult (fun t => norm2 basis (chi t)) (fun t => norm2 basis (phi t))); eassumption.
    + fold c f Nc Nf. apply Rgt_not_eq. now apply Rmult_lt_0_compat.
  - unfold dF. fold c f Nc Nf o. revert HP HC. generalize (br c eta). generalize m. generalize o. generalize Nf. generalize Nc. clear.
    intros n1 n2 [o1 o2] [m1 m2] [e1 e2] HP HC. cbn. unfold Rsqr. field. lra.
Qed.
Lemma fidelity_range : 0 <= fidelity basis c f <= 1.
Proof.
  pose proof Nf_pos as HP. pose proof Hchi as HC. fold c in HC. fold Nc in HC. unfold fidelity. fold Nc Nf. assert (0 < Nc * Nf) by (now apply Rmult_lt_0_compat). split.
  - apply Rmult_le_pos; [apply Cnorm2_ge|]. left. now apply Rinv_0_lt_compat.
  - apply (Rmult_le_reg_r (Nc * Nf)); [assumption|]. replace (Cnorm2 (br c f) / (Nc * Nf) * (Nc * Nf)) with (Cnorm2 (br c f)) by (field; lra). rewrite Rmult_1_l. apply braket_cs.
Qed.
Lemma fidelity_rate : dF * dF <= 4 * ((1 - fidelity basis c f) * V).
Proof.
  pose proof Nf_pos as HP. pose proof Hchi as HC. fold c in HC. fold Nc in HC. pose proof fidelity_range as [F0 F1]. set (F := fidelity basis c f) in *.
  assert (EO : Cnorm2 o = F * (Nc * Nf)) by (unfold F, fidelity; fold Nc Nf o; field; lra).
  (* the part of chi orthogonal to phi *)
  set (q := (- (br f c / RtoC Nf))%C). set (perp := fun s => (c s + q * f s)%C).
  assert (E1 : br c eta = br perp eta).
  { unfold perp. rewrite (braket_add_l basis eta c (fun s => (q * f s)%C)), (braket_scal_l basis eta q f), eta_orth. ring. }
  assert (E2 : norm2 basis perp = Nc * (1 - F)).
  { apply RtoC_inj. rewrite <- braket_self. unfold perp. rewrite (braket_add_l basis _ c (fun s => (q * f s)%C)), !(braket_add_r basis _ c (fun s => (q * f s)%C)), !(braket_scal_l basis _ q f), !(braket_scal_r basis _ q f), !braket_self.
    fold Nc Nf. rewrite (braket_conj basis f c) in *. fold o.
    assert (Eq : q = (- (Cconj o * RtoC (/ Nf)))%C) by (unfold q; rewrite (braket_conj basis f c); fold o; unfold Cdiv; rewrite Cinv_RtoC_ by lra; reflexivity).
    rewrite Eq. replace (Nc * (1 - F)) with (Nc - Cnorm2 o / Nf) by (rewrite EO; field; lra). clear - HP. destruct o as [o1 o2]. unfold Cnorm2. Cunf. apply C_eq; cbn; field; lra. }
  pose proof (braket_cs basis perp eta) as CS. rewrite <- E1, E2, eta_norm in CS.
  pose proof (Re_sq_le (Cconj o * br c eta)%C) as RS. rewrite Cnorm2_mul, Cnorm2_conj, EO in RS.
  set (P := Re (Cconj o * br c eta)%C) in *. set (Q := Cnorm2 (br c eta)) in *.
  assert (HV : 0 <= V) by (apply variance_nonneg, (born_weights_nonneg basis f Hne Hphi)).
  unfold dF. fold P.
  replace (2 * P / (Nc * Nf) * (2 * P / (Nc * Nf))) with (4 * (P * P) / ((Nc * Nf) * (Nc * Nf))) by (field; lra).
  assert (K : P * P <= (1 - F) * V * ((Nc * Nf) * (Nc * Nf))).
  { assert (HN : 0 < Nc * Nf) by (now apply Rmult_lt_0_compat). eapply Rle_trans; [exact RS|].
    apply Rle_trans with (F * (Nc * Nf) * (Nc * (1 - F) * (Nf * V))); [apply Rmult_le_compat_l; [apply Rmult_le_pos; lra|exact CS]|].
    replace (F * (Nc * Nf) * (Nc * (1 - F) * (Nf * V))) with (F * ((1 - F) * V * (Nc * Nf * (Nc * Nf)))) by ring.
    rewrite <- (Rmult_1_l ((1 - F) * V * (Nc * Nf * (Nc * Nf)))) at 2. apply Rmult_le_compat_r; [|exact F1].
    apply Rmult_le_pos; [apply Rmult_le_pos; lra|]. apply Rmult_le_pos; lra. }
  assert (HN : 0 < Nc * Nf) by (now apply Rmult_lt_0_compat). assert (HN2 : 0 < (Nc * Nf) * (Nc * Nf)) by (now apply Rmult_lt_0_compat).
  apply (Rmult_le_reg_r ((Nc * Nf) * (Nc * Nf))); [exact HN2|].
  replace (4 * (P * P) / (Nc * Nf * (Nc * Nf)) * (Nc * Nf * (Nc * Nf))) with (4 * (P * P)) by (field; lra). lra.
Qed.
End Distance.

(** ** a square root cannot grow faster than its rate *)
Lemma sqrt_growth (y y' b B : R -> R) T : 0 <= T ->
  (forall t, 0 <= t <= T -> derivable_pt_lim y t (y' t)) -> (forall t, 0 <= t <= T -> derivable_pt_lim B t (b t)) ->
  (forall t, 0 <= t <= T -> 0 <= y t /\ 0 <= b t /\ y' t * y' t <= 4 * (y t * (b t * b t))) ->
  sqrt (y T) <= sqrt (y 0) + (B T - B 0).
Proof.
  intros HT Dy DB Hb. apply le_epsilon. intros eps He.
  destruct HT as [HT|<-]; [|pose proof (sqrt_pos (y 0)); lra].
  set (k := eps * eps). assert (Hk : 0 < k) by (unfold k; nra).
  set (h := fun t => sqrt (y t + k) - B t). set (h' := fun t => y' t * / (2 * sqrt (y t + k)) - b t).
  assert (DH : forall t, 0 <= t <= T -> derivable_pt_lim h t (h' t)).
  { intros t Ht. destruct (Hb t Ht) as (Y0 & _). apply (derivable_pt_lim_minus (fun t => sqrt (y t + k)) B); [|now apply DB].
    eapply deriv_value; [apply (derivable_pt_lim_comp (fun t => y t + k) sqrt); [apply (derivable_pt_lim_plus y (fun _ => k)); [now apply Dy|apply derivable_pt_lim_const]|apply derivable_pt_lim_sqrt; lra]|]. ring. }
  destruct (MVT_cor2 h h' 0 T HT DH) as (c & E & Hc1 & Hc2).
  assert (Hneg : h' c <= 0).
  { destruct (Hb c ltac:(lra)) as (Y0 & B0 & YB). unfold h'. set (q := sqrt (y c + k)). assert (Hq : 0 < q) by (apply sqrt_lt_R0; lra).
    assert (Q2 : q * q = y c + k) by (apply sqrt_sqrt; lra).
    assert (y' c <= 2 * q * b c).
    { apply Rnot_lt_le. intros L. assert (0 <= 2 * q * b c) by (apply Rmult_le_pos; lra). assert ((2 * q * b c) * (2 * q * b c) < y' c * y' c) by (apply Rmult_le_0_lt_compat; lra).
      replace (2 * q * b c * (2 * q * b c)) with (4 * ((y c + k) * (b c * b c))) in H0 by (rewrite <- Q2; ring). assert (0 <= k * (b c * b c)) by (apply Rmult_le_pos; nra). nra. }
    apply (Rmult_le_reg_r (2 * q)); [lra|]. rewrite Rmult_0_l. replace ((y' c * / (2 * q) - b c) * (2 * q)) with (y' c - 2 * q * b c) by (field; lra). lra. }
  assert (HL : h T <= h 0) by (assert (h' c * (T - 0) <= 0) by nra; lra). unfold h in HL.
  assert (S1 : sqrt (y T) <= sqrt (y T + k)) by (destruct (Hb T ltac:(lra)); apply sqrt_le_1_alt; lra).
  assert (S2 : sqrt (y 0 + k) <= sqrt (y 0) + eps).
  { destruct (Hb 0 ltac:(lra)) as (Y0 & _). pose proof (sqrt_pos (y 0)). rewrite <- (sqrt_square (sqrt (y 0) + eps)) by lra. apply sqrt_le_1_alt.
    pose proof (sqrt_sqrt (y 0) Y0). unfold k. nra. }
  lra.
Qed.

(** ** states that are close have close expectation values *)
Section Close.
Variables (basis : list config) (Aop : wavefun -> wavefun) (a : R).
Hypothesis Hherm : hermitian_on basis Aop.
Hypothesis Ha : 0 <= a.
Hypothesis Hbound : forall f h, Cnorm2 (braket basis f (Aop h)) <= a * a * (norm2 basis f * norm2 basis h).
Notation br := (braket basis).
Lemma norm2_scal z f : norm2 basis (fun s => (z * f s)%C) = Cnorm2 z * norm2 basis f.
Proof. unfold norm2. rewrite <- rsum_scal. apply rsum_ext. intros. apply Cnorm2_mul. Qed.
Lemma value_real f : Im (br f (Aop f)) = 0.
Proof. pose proof (Hherm f f) as E. destruct (br f (Aop f)) as [p q]. apply (f_equal snd) in E. cbn in E |- *. lra. Qed.
Lemma value_scal z f : br (fun s => (z * f s)%C) (Aop (fun s => (z * f s)%C)) = (RtoC (Cnorm2 z) * br f (Aop f))%C.
Proof.
  rewrite (braket_scal_l basis _ z f), (Hherm f (fun s => (z * f s)%C)), (braket_scal_l basis _ z f), Cconj_mul, Cconj_conj, <- (Hherm f f), <- Cmul_conj. ring.
Qed.
Lemma value_difference f h : (Re (br f (Aop f)) - Re (br h (Aop h))) * (Re (br f (Aop f)) - Re (br h (Aop h)))
  <= a * a * (norm2 basis (fun s => f s + (- C1) * h s)%C * norm2 basis (fun s => f s + h s)%C).
Proof.
  eapply Rle_trans; [|apply Hbound]. eapply Rle_trans; [|apply Re_sq_le]. apply Req_le.
  assert (E : Re (br (fun s => f s + (- C1) * h s)%C (Aop (fun s => f s + h s)%C)) = Re (br f (Aop f)) - Re (br h (Aop h))).
  { rewrite (braket_add_l basis _ f (fun s => (- C1) * h s)%C), (braket_scal_l basis _ (- C1)%C h).
    rewrite (Hherm f (fun s => f s + h s)%C), (Hherm h (fun s => f s + h s)%C), !(braket_add_l basis _ f h). rewrite (Hherm f h). destruct (br f (Aop f)) as [p1 p2], (br h (Aop f)) as [q1 q2], (br h (Aop h)) as [r1 r2]. cbn. ring. }
  rewrite E. reflexivity.
Qed.
Lemma close_values f chi : 0 < norm2 basis f -> 0 < norm2 basis chi ->
  Rabs (Re (expectation basis Aop f) - Re (expectation basis Aop chi)) <= 2 * a * trace_distance basis chi f.
Proof.
  intros Hf Hc. set (Nf := norm2 basis f) in *. set (Nc := norm2 basis chi) in *. set (o := br chi f).
  set (ab := sqrt (Cnorm2 o)). assert (AB : ab * ab = Cnorm2 o) by (apply sqrt_sqrt, Cnorm2_ge). assert (AB0 : 0 <= ab) by apply sqrt_pos.
  set (r := sqrt (Nf / Nc)). assert (RP : 0 < Nf / Nc) by (apply Rmult_lt_0_compat; [assumption|now apply Rinv_0_lt_compat]). assert (RR : r * r = Nf / Nc) by (apply sqrt_sqrt; lra). assert (R0 : 0 < r) by (now apply sqrt_lt_R0).
  (* the phase that makes the overlap real *)
  assert (PH : exists w, Cnorm2 w = 1 /\ (w * Cconj o)%C = RtoC ab).
  { destruct (Req_dec ab 0) as [Z|Z].
    - exists C1. split; [unfold Cnorm2; cbn; ring|]. rewrite Z in AB. rewrite Rmult_0_l in AB. symmetry in AB. apply Cnorm2_eq0 in AB. rewrite AB, Z, Cconj_C0, RtoC_0. ring.
    - exists (o * RtoC (/ ab))%C. split.
      + rewrite Cnorm2_mul, Cnorm2_RtoC, <- AB. field. exact Z.
      + replace (o * RtoC (/ ab) * Cconj o)%C with (RtoC (/ ab) * (Cconj o * o))%C by ring. rewrite Cmul_conj, <- AB, <- RtoC_mul. f_equal. field. exact Z. }
  destruct PH as (w & W1 & W2). set (z := (RtoC r * w)%C). assert (ZN : Cnorm2 z = Nf / Nc) by (unfold z; rewrite Cnorm2_mul, Cnorm2_RtoC, W1, RR; ring).
  set (h := fun s => (z * chi s)%C). assert (HN : norm2 basis h = Nf) by (unfold h; rewrite norm2_scal, ZN; fold Nc; field; lra).
  assert (OV : br f h = RtoC (r * ab)). { unfold h. rewrite (braket_scal_r basis f z chi), (braket_conj basis f chi). fold o. unfold z. rewrite RtoC_mul, <- W2. ring. }
  assert (EX : forall k, 0 < norm2 basis k -> Re (expectation basis Aop k) = Re (br k (Aop k)) / norm2 basis k).
  { intros k Hk. unfold expectation, Cdiv. rewrite <- Cinv_RtoC_ by lra. cbn. unfold Re, Rdiv. ring. }
  assert (EH : Re (br h (Aop h)) = Nf / Nc * Re (br chi (Aop chi))).
  { unfold h. rewrite value_scal, ZN. destruct (br chi (Aop chi)) as [p q]. cbn. ring. }
  pose proof (value_difference f h) as VD.
  assert (NM : norm2 basis (fun s => f s + (- C1) * h s)%C = 2 * Nf - 2 * (r * ab)).
  { apply RtoC_inj. rewrite <- braket_self, (braket_add_l basis _ f (fun s => (- C1) * h s)%C), !(braket_add_r basis _ f (fun s => (- C1) * h s)%C), !(braket_scal_l basis _ (- C1)%C h), !(braket_scal_r basis _ (- C1)%C h), !braket_self, HN. fold Nf.
    rewrite (braket_conj basis h f), OV. apply C_eq; cbn; ring. }
  assert (NPl : norm2 basis (fun s => f s + h s)%C = 2 * Nf + 2 * (r * ab)).
  { apply RtoC_inj. rewrite <- braket_self, (braket_add_l basis _ f h), !(braket_add_r basis _ f h), !braket_self, HN. fold Nf. rewrite (braket_conj basis h f), OV. apply C_eq; cbn; ring. }
  rewrite NM, NPl, EH in VD.
  set (D := trace_distance basis chi f). assert (D0 : 0 <= D) by apply sqrt_pos.
  assert (FR : 0 <= 1 - fidelity basis chi f).
  { unfold fidelity. fold Nc Nf. assert (Cnorm2 (br chi f) / (Nc * Nf) <= 1); [|lra]. assert (P : 0 < Nc * Nf) by (now apply Rmult_lt_0_compat). apply (Rmult_le_reg_r (Nc * Nf)); [exact P|].
    replace (Cnorm2 (br chi f) / (Nc * Nf) * (Nc * Nf)) with (Cnorm2 (br chi f)) by (field; lra). rewrite Rmult_1_l. apply braket_cs. }
  assert (DD : D * D = 1 - fidelity basis chi f) by (apply sqrt_sqrt; exact FR).
  assert (FO : ab * ab = fidelity basis chi f * (Nc * Nf)) by (rewrite AB; unfold fidelity; fold o Nc Nf; field; lra).
  rewrite (EX f Hf), (EX chi Hc). fold Nf Nc. set (A1 := Re (br f (Aop f))) in *. set (A2 := Re (br chi (Aop chi))) in *.
  apply Rsqr_incr_0_var; [|apply Rmult_le_pos; [lra|exact D0]]. rewrite <- Rsqr_abs. unfold Rsqr.
  replace (2 * a * D * (2 * a * D)) with (4 * (a * a) * (D * D)) by ring. rewrite DD.
  assert (E1 : (A1 / Nf - A2 / Nc) = (A1 - Nf / Nc * A2) / Nf) by (field; lra). rewrite E1.
  apply (Rmult_le_reg_r (Nf * Nf)); [now apply Rmult_lt_0_compat|].
  replace ((A1 - Nf / Nc * A2) / Nf * ((A1 - Nf / Nc * A2) / Nf) * (Nf * Nf)) with ((A1 - Nf / Nc * A2) * (A1 - Nf / Nc * A2)) by (field; lra).
  eapply Rle_trans; [exact VD|]. apply Req_le.
  replace ((2 * Nf - 2 * (r * ab)) * (2 * Nf + 2 * (r * ab))) with (4 * (Nf * Nf - (r * r) * (ab * ab))) by ring. rewrite RR, FO. field. lra.
Qed.
End Close.
