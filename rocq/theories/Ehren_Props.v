(** C94, C95: how far the motion in the variational manifold departs from the exact motion (tdvp.py,
    sampler.py, operator/ and stats.py together, exact sampler). *)
From Coq Require Import ZArith List Reals Lra Lia Bool Arith Permutation FunctionalExtensionality.
From Verif Require Import Base Cplx Mpi_Model Povm_Spec Povm_Proofs Stats_Model Stats_Spec Stats_Proofs BranchFree_Model BranchFree_Spec BranchFree_Proofs BranchFree2_Proofs OpBase_Model OpBase_Spec
  Sampler_Spec Sampler2_Proofs Exact_Model Exact_Spec Exact_Proofs Exact_Props Stepper_Model Vqs_Model Tdvp_Model Tdvp_Spec Tdvp_Proofs Tdvp2_Proofs Tdvp3_Proofs Tdvp4_Proofs Tdvp5_Proofs Tdvp6_Proofs Tdvp7_Proofs Tdvp_Props Vmc_Model Vmc_Spec Vmc_Proofs Vmc2_Proofs Vmc3_Proofs Vmc_Props Ehren_Spec Ehren_Proofs.
Import ListNotations.
Local Open Scope R_scope.

Section Motion.
Variables (lDim : Z) (N : nat) (commSize devices : Z).
Hypothesis Hl : (0 < lDim)%Z.
Hypothesis HN : (0 < N)%nat.
Hypothesis Hc : (0 < commSize <= lDim ^ Z.of_nat N)%Z.
Hypothesis Hd : (0 < devices)%Z.
Hypothesis He : complete_enumeration N lDim commSize devices.
Context {A Cfg : Type}.
(** log-amplitudes and their derivatives as functions of n parameters *)
Variables (n : nat) (lp : (nat -> R) -> config -> C) (g : (nat -> R) -> config -> nat -> C).
(** the Hamiltonian, whose prefactors may depend on the time *)
Variables (sts : list (ostring A)) (args : R -> list A) (vals : R -> list C) (bs : nat).
Hypothesis Hw : Forall (wf_string (Z.to_nat lDim) N) sts.
Hypothesis Hp : forall t, Forall2 (prefactor_is (args t)) sts (vals t).
Hypothesis Hclean : forall t s els, wf_config (Z.to_nat lDim) N s -> operator_elements (Z.to_nat lDim) N (map to_opstr sts) (args t) s = Ok els -> clean els.
Let basis := all_configs (Z.to_nat lDim) N.
Let H t := apply_strings sts (vals t).
Let phi (theta : nat -> R) : wavefun := fun s => Cexp (lp theta s).
Let el t theta := fun s => (H t (phi theta) s / phi theta s)%C.

Variables (ej en : (nat -> nat -> C) -> result ((nat -> R) * (nat -> nat -> C))) (c : settings) (smp : sampler).
Variables (draw : nqs -> result (Cfg * layout R)) (markov : tree * nat -> result Cfg) (coeffs : nqs -> Cfg -> result (Cfg * layout R))
  (oloc : nqs -> Cfg -> R -> result (layout (unit -> C))) (grads : nqs -> Cfg -> result (layout (nat -> C))) (fuel : nat).

(** a call of the TDVP object in the first stage of a step, at the time t and the parameters theta,
    returns u and records the metadata m and the variance v of the energy; sampler, Hamiltonian and
    network give it the probabilities, local energies and gradients of the wave function lp theta
    (lastNorm is what earlier calls of the sampler left) *)
Definition evaluation (t : R) (theta u : nat -> R) (m : metadata) (v : R) : Prop :=
  exists w P w' q1 cfg e lastNorm,
    tdvp_call n ej en c smp draw markov coeffs oloc grads fuel w P t (Some 0%nat) = (w', Ok (Some u))
    /\ set_parameters (w_psi w) P = Ok q1
    /\ snd (do_sample smp draw markov coeffs q1) = Ok (cfg, probs lDim N commSize devices lastNorm (lp theta))
    /\ local_energies lDim N commSize devices (lp theta) (map to_opstr sts) (args t) bs = Ok e /\ oloc q1 cfg t = Ok (lmap (fun x (_ : unit) => x) e)
    /\ grads q1 cfg = Ok (lmap (g theta) (configs lDim N commSize devices))
    /\ o_meta (w_obj w') = Some m /\ o_var0 (w_obj w') = Some v.

Lemma fit_m : forall r, (0 <= r < commSize)%Z -> fits (lDim ^ Z.of_nat N) commSize devices r.
Proof. destruct Hc. now apply enumerates_iff. Qed.
Lemma basis_ne_m : basis <> [].
Proof. destruct Hc. exact (basis_ne lDim N commSize devices Hl HN fit_m). Qed.
Lemma phi_ne_m theta s : phi theta s <> C0. Proof. apply Cexp_neq0. Qed.
Lemma closed_m {B} (os : list (ostring B)) (vs : list C) : Forall (wf_string (Z.to_nat lDim) N) os -> forall s sv, In s basis -> In sv (combine os vs) -> In (fst (act (snd (fst sv)) s)) basis.
Proof. intros Ho. now apply strings_closed. Qed.
Lemma triples_variance {B D} lastNorm theta (h : config -> B) (k : config -> D) (F : B * D -> C) :
  variance (wtriples (probs lDim N commSize devices lastNorm (lp theta)) (lmap h (configs lDim N commSize devices)) (lmap k (configs lDim N commSize devices))) F
  = variance (born_list basis (phi theta)) (fun s => F (h s, k s)).
Proof.
  destruct Hc as [Hc1 Hc2]. rewrite triples_of. rewrite (variance_map (fun s => (h s, k s)) (wpairs (probs lDim N commSize devices lastNorm (lp theta)) (configs lDim N commSize devices))).
  apply RtoC_inj. rewrite !variance_expect.
  rewrite (probs_expect lDim N commSize devices lastNorm (lp theta) Hl HN Hc1 Hd fit_m (fun s => F (h s, k s))).
  exact (probs_expect lDim N commSize devices lastNorm (lp theta) Hl HN Hc1 Hd fit_m (fun a => RtoC (Cnorm2 (F (h a, k a) - expect (born_list basis (phi theta)) (fun s => F (h s, k s)))%C))).
Qed.

(** the residual motion *)
Let residue t theta (u : nat -> R) : config -> C := fun s => (csumn n (fun k => g theta s k * RtoC (u k)) + c_prefactor c * el t theta s)%C.
Lemma evaluation_records t theta u m v : evaluation t theta u m v -> Cnorm2 (c_prefactor c) = 1 ->
  v = spread basis (H t) (phi theta) /\ (0 < v -> m_error m = Fin (variance (born_list basis (phi theta)) (residue t theta u) / v)).
Proof.
  intros (w & P & w' & q1 & cfg & e & lastNorm & HT & E1 & E2 & E3 & E4 & E5 & HM & HVv) Hx. destruct Hc as [Hc1 Hc2].
  rewrite (local_energies_ok lDim N commSize devices (lp theta) Hl HN Hc1 Hd fit_m Hc2 sts (args t) (vals t) bs Hw (Hp t) (Hclean t)) in E3. injection E3 as <-.
  set (cf := configs lDim N commSize devices) in *. set (pr := probs lDim N commSize devices lastNorm (lp theta)) in *.
  match type of E4 with _ = Ok ?x => set (eloc := x) in * end.
  assert (EL : eloc = lmap (fun s (_ : unit) => el t theta s) cf).
  { unfold eloc, lmap. rewrite map_map. apply map_ext. intros r. rewrite map_map. apply map_ext. intros l. now rewrite map_map. }
  assert (VE : variance (wtriples pr (lmap (g theta) cf) eloc) (fun s : (nat -> C) * (unit -> C) => snd s tt) = spread basis (H t) (phi theta)).
  { rewrite EL. rewrite <- (born_variance basis (phi theta) (H t) basis_ne_m (phi_ne_m theta)).
    exact (triples_variance lastNorm theta (g theta) (fun s (_ : unit) => el t theta s) (fun s => snd s tt)). }
  assert (VD : variance (wtriples pr (lmap (g theta) cf) eloc) (fun s : (nat -> C) * (unit -> C) => csumn n (fun j => RtoC (u j) * fst s j) + c_prefactor c * snd s tt)%C
     = variance (born_list basis (phi theta)) (residue t theta u)).
  { rewrite EL. etransitivity; [exact (triples_variance lastNorm theta (g theta) (fun s (_ : unit) => el t theta s) (fun s => csumn n (fun j => RtoC (u j) * fst s j) + c_prefactor c * snd s tt)%C)|].
    apply variance_ext. intros px _. unfold residue. cbn [fst snd]. apply f_equal2; [|reflexivity]. apply csumn_ext. intros. ring. }
  assert (SG : shape_eq (lmap (g theta) cf) pr) by (apply shape_of; try assumption; exact fit_m).
  assert (SE : shape_eq eloc pr) by (rewrite EL; apply shape_of; try assumption; exact fit_m).
  assert (WK : weights_ok (flat pr)) by (apply probs_ok; try assumption; exact fit_m).
  assert (MV : o_var0 (w_obj w') = Some (spread basis (H t) (phi theta))).
  { pose proof HT as HT'. apply call_ok in HT' as (q1' & configs' & p' & eloc' & g' & o1 & u' & res & cut & F1 & F2 & F3 & F4 & F5 & F6 & F7 & F8).
    rewrite E1 in F1. injection F1 as <-. rewrite E2 in F2. injection F2 as <- <-. rewrite E4 in F3. injection F3 as <-. rewrite E5 in F4. injection F4 as <-.
    pose proof (solve_stores _ _ _ _ _ _ _ _ _ _ _ F5) as (T1 & _ & _).
    apply (record_ok _ _ _ _ _ _ _ _ _ _ _ _ _ _ _ F5) in F8 as (<- & _ & _ & _ & q & sp & m' & A4 & A5 & A6 & A7 & A8 & A9 & _).
    rewrite A4 in T1. unfold get_tdvp_equation in T1. cbn [fst o_eq] in T1. injection T1 as ->. cbn [e_mean e_var] in *. rewrite A7. f_equal. rewrite EL.
    rewrite <- (born_variance basis (phi theta) (H t) basis_ne_m (phi_ne_m theta)).
    exact (var_of lDim N commSize devices lastNorm (lp theta) Hl HN Hc1 Hd fit_m (fun s (_ : unit) => el t theta s) tt). }
  rewrite HVv in MV. injection MV as ->. split; [reflexivity|]. intros HV.
  destruct (C68_recorded n ej en c smp draw markov coeffs oloc grads fuel w P t w' u q1 cfg pr eloc (lmap (g theta) cf) HT E1 E2 E4 E5 SG SE WK Hx) as (m' & M1 & M2 & M3 & M4). { rewrite VE. exact HV. }
  rewrite HM in M1. injection M1 as <-. rewrite VD, VE in M4. exact M4.
Qed.

(** log-derivative of the moving wave function *)
Lemma amplitude_rate (theta' : R -> nat -> R) t0 u (gr : config -> nat -> C) s :
  cderiv (fun t => lp (theta' t) s) t0 (csumn n (fun k => (gr s k * RtoC (u k))%C)) ->
  cderiv (fun t => phi (theta' t) s) t0 (csumn n (fun k => gr s k * RtoC (u k)) * phi (theta' t0) s)%C.
Proof. intros D. exact (cderiv_exp (fun t => lp (theta' t) s) t0 _ D). Qed.

(** Every observable.  Let the parameters move with the returned velocity u and let chi be a state
    that agrees with the network now and moves exactly, with the velocity -x H chi.  The squared
    difference of the rates of an expectation value is at most four times the variance of the
    observable times the variance of the energy times the recorded error. *)
Theorem C94_recorded t theta u m v : evaluation t theta u m v -> Cnorm2 (c_prefactor c) = 1 -> 0 < v -> log_gradient n lp theta (g theta) ->
  exists e, m_error m = Fin e /\ 0 <= e /\
  forall B (os : list (ostring B)) (vs : list C) chi d r, let Aop := apply_strings os vs in
    Forall (wf_string (Z.to_nat lDim) N) os -> hermitian_on basis Aop ->
    (forall s, chi 0 s = phi theta s) -> flows basis (c_prefactor c) (H t) chi 0 ->
    derivable_pt_lim (fun tau => Re (expectation basis Aop (phi (moved theta u tau)))) 0 d ->
    derivable_pt_lim (fun tau => Re (expectation basis Aop (chi tau))) 0 r ->
    (d - r) ^ 2 <= 4 * spread basis Aop (phi theta) * v * e.
Proof.
  intros HE Hx HV Hg. destruct (evaluation_records t theta u m v HE Hx) as [Ev Em]. specialize (Em HV). eexists. split; [exact Em|].
  pose proof (variance_nonneg (born_list basis (phi theta)) (residue t theta u) (born_weights_nonneg basis (phi theta) basis_ne_m (phi_ne_m theta))) as VN.
  split; [apply Rmult_le_pos; [exact VN|left; now apply Rinv_0_lt_compat]|].
  intros B os vs chi d r Aop Ho Hh Hs Hf D1 D2.
  assert (M0 : moved theta u 0 = theta) by (apply functional_extensionality; intros k; unfold moved; ring).
  pose proof (rates_differ basis os vs (c_prefactor c) (H t) (fun tau => phi (moved theta u tau)) chi 0 (fun s => csumn n (fun k => (g theta s k * RtoC (u k))%C)) basis_ne_m ltac:(intros s; apply phi_ne_m)
    (closed_m os vs Ho) ltac:(intros s _; apply amplitude_rate; apply Hg) Hh ltac:(intros s; cbv beta; rewrite M0; apply Hs) Hf d r D1 D2) as Q.
  cbv beta in Q. rewrite M0 in Q. fold Aop in Q. change (variance (born_list basis (phi theta)) _) with (variance (born_list basis (phi theta)) (residue t theta u)) in Q.
  cbn [pow]. rewrite Rmult_1_r. eapply Rle_trans; [exact Q|]. apply Req_le. field. lra.
Qed.

(** If the recorded error vanishes all rates are exact. *)
Theorem C94_zero t theta u m v : evaluation t theta u m v -> Cnorm2 (c_prefactor c) = 1 -> 0 < v -> log_gradient n lp theta (g theta) -> m_error m = Fin 0 ->
  forall B (os : list (ostring B)) (vs : list C) chi d r, let Aop := apply_strings os vs in
    Forall (wf_string (Z.to_nat lDim) N) os -> hermitian_on basis Aop ->
    (forall s, chi 0 s = phi theta s) -> flows basis (c_prefactor c) (H t) chi 0 ->
    derivable_pt_lim (fun tau => Re (expectation basis Aop (phi (moved theta u tau)))) 0 d ->
    derivable_pt_lim (fun tau => Re (expectation basis Aop (chi tau))) 0 r -> d = r.
Proof.
  intros HE Hx HV Hg HM B os vs chi d r Aop H1 H2 H3 H4 H5 H6. destruct (C94_recorded t theta u m v HE Hx HV Hg) as (e & E & _ & K). rewrite HM in E. injection E as <-.
  specialize (K B os vs chi d r H1 H2 H3 H4 H5 H6). rewrite Rmult_0_r in K. cbn [pow] in K. rewrite Rmult_1_r in K. assert (d - r = 0); [|lra]. apply Rsqr_0_uniq. unfold Rsqr. apply Rle_antisym; [exact K|apply Rle_0_sqr].
Qed.

(** A network that can follow does follow.  The velocity y of the parameters would reproduce the exact
    motion up to norm and phase; then every solution of the equation without diagonal shift gives
    all observables their exact rates.  With makeReal = 'imag' the tangent space must be complex:
    i times each log-derivative is a combination of log-derivatives. *)
Lemma cov_const_l {X} (xs : list (R * X)) z f : rsum (map fst xs) = 1 -> cov xs (fun _ => z) f = C0.
Proof. intros H1. unfold cov. rewrite expect_scal, expect_const, H1, RtoC_1, Cconj_mul, Cconj_C1. ring. Qed.
Theorem C94_follows lastNorm t theta u y (const : C) o E : log_gradient n lp theta (g theta) ->
  energy_obs lDim N commSize devices lastNorm (lp theta) (map to_opstr sts) (args t) bs = Ok E ->
  let eq := snd (get_tdvp_equation c o E (gradient_obs lDim N commSize devices lastNorm (lp theta) (g theta))) in
  c_shift c <= / 10 ^ 10 ->
  (c_imag c = true -> forall k, (k < n)%nat -> exists J : nat -> R, forall s, In s basis -> (Ci * g theta s k)%C = csumn n (fun l => RtoC (J l) * g theta s l)%C) ->
  (forall k, (k < n)%nat -> apply n (fst eq) (real u) k = snd eq k) ->
  (forall s, In s basis -> csumn n (fun k => g theta s k * RtoC (y k))%C = (- c_prefactor c * (H t (phi theta) s / phi theta s) + const)%C) ->
  forall B (os : list (ostring B)) (vs : list C) chi d r, let Aop := apply_strings os vs in
    Forall (wf_string (Z.to_nat lDim) N) os -> hermitian_on basis Aop ->
    (forall s, chi 0 s = phi theta s) -> flows basis (c_prefactor c) (H t) chi 0 ->
    derivable_pt_lim (fun tau => Re (expectation basis Aop (phi (moved theta u tau)))) 0 d ->
    derivable_pt_lim (fun tau => Re (expectation basis Aop (chi tau))) 0 r -> d = r.
Proof.
  intros Hg HE eq Hs HJ HQ HY B os vs chi d r Aop Ho Hh Hsame Hf D1 D2. destruct Hc as [Hc1 Hc2].
  set (L := born_list basis (phi theta)). pose proof (born_total basis (phi theta) basis_ne_m (phi_ne_m theta)) as TW. fold L in TW.
  set (res := residue t theta u).
  assert (CE : forall f1 f2 h1 h2 : config -> C, (forall s, In s basis -> f1 s = f2 s) -> (forall s, In s basis -> h1 s = h2 s) -> cov L f1 h1 = cov L f2 h2).
  { intros f1 f2 h1 h2 Q1 Q2. assert (IN : forall px, In px L -> In (snd px) basis) by (intros px Hpx; unfold L, born_list in Hpx; apply in_map_iff in Hpx as (s & <- & Hs'); exact Hs').
    unfold cov. rewrite (expect_ext L f1 f2), (expect_ext L h1 h2), (expect_ext L _ (fun a => (Cconj (f2 a) * h2 a)%C)); [reflexivity| | |]; intros px Hpx; rewrite ?Q1, ?Q2; auto. }
  (* the rows of the equation *)
  assert (RW : forall k, (k < n)%nat -> part (c_imag c) (cov L (fun s => g theta s k) res) = C0).
  { intros k Hk. specialize (HQ k Hk). unfold eq, gradient_obs, get_tdvp_equation in HQ. cbn [fst snd] in HQ. destruct (Rlt_dec (/ 10 ^ 10) (c_shift c)) as [Hbad|_]; [lra|].
    rewrite (energy_obs_ok lDim N commSize devices lastNorm (lp theta) Hl HN Hc1 Hd fit_m Hc2 sts (args t) (vals t) bs Hw (Hp t) (Hclean t)) in HE. injection HE as <-.
    rewrite (cov_of lDim N commSize devices lastNorm (lp theta) Hl HN Hc1 Hd fit_m (g theta) (fun s (_ : unit) => (apply_strings sts (vals t) (fun s0 => Cexp (lp theta s0)) s / Cexp (lp theta s))%C)) in HQ.
    unfold apply in HQ. rewrite (csumn_ext n _ (fun l => (part (c_imag c) (cov L (fun s => g theta s k) (fun s => g theta s l)) * RtoC (u l))%C)) in HQ.
    2: { intros l Hl'. rewrite makeReal_part. do 2 f_equal. exact (cov_of lDim N commSize devices lastNorm (lp theta) Hl HN Hc1 Hd fit_m (g theta) (g theta) k l). }
    rewrite makeReal_part in HQ. fold basis in HQ. change (born_list basis (fun s => Cexp (lp theta s))) with L in HQ. change (cov L (fun s => g theta s k) (fun s => (apply_strings sts (vals t) (fun s0 => Cexp (lp theta s0)) s / Cexp (lp theta s))%C)) with (cov L (fun s => g theta s k) (el t theta)) in HQ.
    assert (ER : cov L (fun s => g theta s k) res = (csumn n (fun l => cov L (fun s => g theta s k) (fun s => g theta s l) * RtoC (u l)) + c_prefactor c * cov L (fun s => g theta s k) (el t theta))%C).
    { unfold res, residue. rewrite cov_add_r, cov_scal_r. f_equal. rewrite (CE _ (fun s => g theta s k) _ (fun s => csum (map (fun l => (RtoC (u l) * g theta s l)%C) (seq 0 n)))) by (try reflexivity; intros; unfold csumn; apply csum_ext; intros; ring).
      rewrite cov_csum_r. unfold csumn. apply csum_ext. intros; ring. }
    assert (PA : forall a b, part (c_imag c) (a + b)%C = (part (c_imag c) a + part (c_imag c) b)%C) by (intros [a1 a2] [b1 b2]; unfold part; destruct (c_imag c); apply C_eq; cbn; ring).
    assert (PS : forall f, part (c_imag c) (csumn n (fun l => f l * RtoC (u l))%C) = csumn n (fun l => part (c_imag c) (f l) * RtoC (u l))%C).
    { intros f. unfold csumn. induction (seq 0 n) as [|x l IH]; [unfold part; destruct (c_imag c); apply C_eq; cbn; ring|]. cbn [map]. rewrite !csum_cons, PA, IH. f_equal. destruct (f x) as [a b]. unfold part. destruct (c_imag c); apply C_eq; cbn; ring. }
    rewrite ER, PA, PS. unfold part in HQ |- *. rewrite HQ. destruct (c_prefactor c * cov L (fun s => g theta s k) (el t theta))%C as [a b] eqn:EZ.
    replace (- c_prefactor c * cov L (fun s => g theta s k) (el t theta))%C with (- (a, b))%C by (rewrite <- EZ; ring). destruct (c_imag c); apply C_eq; cbn; ring. }
  assert (RE : forall k, (k < n)%nat -> Re (cov L (fun s => g theta s k) res) = 0).
  { intros k Hk. destruct (c_imag c) eqn:EI.
    - destruct (HJ eq_refl k Hk) as (J & EJ).
      assert (IM : forall l, (l < n)%nat -> Im (cov L (fun s => g theta s l) res) = 0) by (intros l Hl'; pose proof (RW l Hl') as Q; unfold part in Q; destruct (cov L (fun s => g theta s l) res) as [a b]; apply (f_equal Im) in Q; cbn in Q |- *; lra).
      assert (Q : (Cconj Ci * cov L (fun s => g theta s k) res)%C = csumn n (fun l => RtoC (J l) * cov L (fun s => g theta s l) res)%C).
      { rewrite <- cov_scal_l. rewrite (CE _ (fun s => csum (map (fun l => (RtoC (J l) * g theta s l)%C) (seq 0 n))) _ res) by (try reflexivity; exact EJ).
        rewrite cov_herm, cov_csum_r, csum_conj, map_map. unfold csumn. apply csum_ext. intros l _. rewrite Cconj_mul, Cconj_RtoC, <- cov_herm. reflexivity. }
      assert (QI : Im (Cconj Ci * cov L (fun s => g theta s k) res)%C = 0).
      { rewrite Q. unfold csumn. assert (QG : forall ls, (forall l, In l ls -> (l < n)%nat) -> Im (csum (map (fun l => (RtoC (J l) * cov L (fun s => g theta s l) res)%C) ls)) = 0); [|apply QG; intros l Hin; apply in_seq in Hin; lia].
        induction ls as [|l ls IH]; intros Hin; [reflexivity|]. cbn [map]. rewrite csum_cons. pose proof (IM l (Hin l (or_introl eq_refl))) as I1. specialize (IH ltac:(intros; apply Hin; now right)).
        destruct (cov L (fun s => g theta s l) res) as [a b]. destruct (csum _) as [p q]. cbn in I1, IH |- *. rewrite I1, IH. ring. }
      destruct (cov L (fun s => g theta s k) res) as [a b]. cbn in QI |- *. lra.
    - pose proof (RW k Hk) as Q. unfold part in Q. apply (f_equal Re) in Q. exact Q. }
  assert (V0 : variance L res = 0).
  { apply RtoC_inj. rewrite variance_cov by exact TW.
    assert (ED : forall s, In s basis -> res s = (csum (map (fun k => (RtoC (u k - y k) * g theta s k)%C) (seq 0 n)) + const)%C).
    { intros s Hs'. specialize (HY s Hs'). unfold res, residue, el. transitivity (csumn n (fun k => g theta s k * RtoC (u k)) - csumn n (fun k => g theta s k * RtoC (y k)) + const)%C; [rewrite HY; ring|].
      f_equal. unfold csumn. rewrite <- csum_sub. apply csum_ext. intros k _. unfold Rminus. rewrite RtoC_add, RtoC_opp. ring. }
    rewrite (CE res (fun s => csum (map (fun k => (RtoC (u k - y k) * g theta s k)%C) (seq 0 n)) + const)%C res res ED) by reflexivity.
    rewrite (cov_add_l L res (fun s => csum (map (fun k => (RtoC (u k - y k) * g theta s k)%C) (seq 0 n))) (fun _ => const)), cov_const_l by exact TW.
    rewrite cov_herm, cov_csum_r, csum_conj, map_map.
    assert (IR : Im (cov L res res) = 0) by (rewrite <- variance_cov by exact TW; reflexivity).
    assert (EC : cov L res res = csum (map (fun k => (RtoC (u k - y k) * cov L (fun s => g theta s k) res)%C) (seq 0 n))).
    { rewrite (CE res (fun s => csum (map (fun k => (RtoC (u k - y k) * g theta s k)%C) (seq 0 n)) + const)%C res res ED) at 1 by reflexivity.
      rewrite (cov_add_l L res (fun s => csum (map (fun k => (RtoC (u k - y k) * g theta s k)%C) (seq 0 n))) (fun _ => const)), cov_const_l by exact TW.
      rewrite cov_herm, cov_csum_r, csum_conj, map_map. replace (csum (map (fun k => RtoC (u k - y k) * cov L (fun s => g theta s k) res)%C (seq 0 n))) with (csum (map (fun k => RtoC (u k - y k) * cov L (fun s => g theta s k) res)%C (seq 0 n)) + C0)%C by ring.
      f_equal. apply csum_ext. intros k _. rewrite Cconj_mul, Cconj_RtoC, <- cov_herm. reflexivity. }
    rewrite (csum_ext _ (fun k => (RtoC (u k - y k) * cov L (fun s => g theta s k) res)%C)) by (intros k _; rewrite Cconj_mul, Cconj_RtoC, <- cov_herm; reflexivity).
    replace (csum (map (fun k => RtoC (u k - y k) * cov L (fun s => g theta s k) res)%C (seq 0 n)) + C0)%C with (cov L res res) by (rewrite EC; ring).
    rewrite EC in IR |- *.
    assert (R0 : Re (csum (map (fun k => (RtoC (u k - y k) * cov L (fun s => g theta s k) res)%C) (seq 0 n))) = 0).
    { rewrite Re_csum, map_map. rewrite (rsum_ext _ (fun _ => 0)); [apply rsum_zero|]. intros k Hk. apply in_seq in Hk. pose proof (RE k ltac:(lia)) as Q. destruct (cov L (fun s => g theta s k) res) as [a b]. cbn in Q |- *. rewrite Q. ring. }
    apply C_eq; [exact R0|exact IR]. }
  assert (M0 : moved theta u 0 = theta) by (apply functional_extensionality; intros k; unfold moved; ring).
  pose proof (rates_differ basis os vs (c_prefactor c) (H t) (fun tau => phi (moved theta u tau)) chi 0 (fun s => csumn n (fun k => (g theta s k * RtoC (u k))%C)) basis_ne_m ltac:(intros s; apply phi_ne_m)
    (closed_m os vs Ho) ltac:(intros s _; apply amplitude_rate; apply Hg) Hh ltac:(intros s; cbv beta; rewrite M0; apply Hsame) Hf d r D1 D2) as Q.
  cbv beta in Q. rewrite M0 in Q. change (variance (born_list basis (phi theta)) _) with (variance L res) in Q. rewrite V0, !Rmult_0_r in Q.
  assert (d - r = 0); [|lra]. apply Rsqr_0_uniq. unfold Rsqr. apply Rle_antisym; [exact Q|apply Rle_0_sqr].
Qed.

(** The state.  Real time evolution with a Hermitian Hamiltonian, which may depend on the time; the
    parameters move along a curve whose velocity is what the TDVP object returns at each time.  The
    trace distance from a solution of the Schroedinger equation grows at most by the integral of
    the square roots of (recorded error times recorded variance): B is a primitive of a bound b. *)
Theorem C95_distance theta u T chi (m : R -> metadata) (v b B : R -> R) : 0 <= T -> c_prefactor c = Ci ->
  (forall t, 0 <= t <= T -> hermitian_on basis (H t)) ->
  (forall t, 0 <= t <= T -> evaluation t (theta t) (u t) (m t) (v t) /\ 0 < v t) ->
  (forall t, 0 <= t <= T -> follows_chain_rule n lp theta (u t) (g (theta t)) t) ->
  (forall t, 0 <= t <= T -> flows basis Ci (H t) chi t /\ 0 < norm2 basis (chi t)) ->
  (forall t, 0 <= t <= T -> derivable_pt_lim B t (b t) /\ 0 <= b t /\ forall e, m_error (m t) = Fin e -> e * v t <= b t * b t) ->
  trace_distance basis (chi T) (phi (theta T)) <= trace_distance basis (chi 0) (phi (theta 0)) + (B T - B 0).
Proof.
  intros HT Hx Hh HE HC HF HB. unfold trace_distance.
  set (gs := fun t s => csumn n (fun k => (g (theta t) s k * RtoC (u t k))%C)).
  set (y' := fun t => - (2 * Re (Cconj (braket basis (chi t) (phi (theta t))) * braket basis (chi t) (fun s => gs t s * phi (theta t) s + Ci * H t (phi (theta t)) s
     + - (braket basis (phi (theta t)) (fun s => gs t s * phi (theta t) s + Ci * H t (phi (theta t)) s) / RtoC (norm2 basis (phi (theta t)))) * phi (theta t) s))%C / (norm2 basis (chi t) * norm2 basis (phi (theta t))))).
  assert (DD : forall t, 0 <= t <= T -> forall s, In s basis -> cderiv (fun t' => phi (theta t') s) t (gs t s * phi (theta t) s)%C).
  { intros t Ht s _. apply amplitude_rate. now apply HC. }
  apply (sqrt_growth (fun t => 1 - fidelity basis (chi t) (phi (theta t))) y' b B T HT).
  - intros t Ht. destruct (HF t Ht) as [F1 F2].
    pose proof (fidelity_deriv basis (H t) (fun t' => phi (theta t')) chi t (gs t) basis_ne_m (phi_ne_m (theta t)) F2 (Hh t Ht) (DD t Ht) F1) as D.
    eapply deriv_value; [apply (derivable_pt_lim_minus (fun _ => 1) (fun t => fidelity basis (chi t) (phi (theta t)))); [apply derivable_pt_lim_const|exact D]|]. unfold y'. ring.
  - intros t Ht. now apply HB.
  - intros t Ht. destruct (HF t Ht) as [F1 F2]. destruct (HE t Ht) as [E1 E2]. destruct (HB t Ht) as (_ & B0 & BE).
    destruct (fidelity_range basis (fun t' => phi (theta t')) chi t basis_ne_m (phi_ne_m (theta t)) F2) as [_ FR]. cbv beta in FR.
    split; [lra|]. split; [exact B0|].
    pose proof (fidelity_rate basis (H t) (fun t' => phi (theta t')) chi t (gs t) basis_ne_m (phi_ne_m (theta t)) F2) as FQ. cbv beta zeta in FQ.
    assert (Hx1 : Cnorm2 (c_prefactor c) = 1) by (rewrite Hx; unfold Cnorm2; cbn; ring).
    destruct (evaluation_records t (theta t) (u t) (m t) (v t) E1 Hx1) as [_ Em]. specialize (BE _ (Em E2)). unfold Rdiv in BE. rewrite Rmult_assoc, Rinv_l, Rmult_1_r in BE by lra.
    assert (EV : variance (born_list basis (phi (theta t))) (residue t (theta t) (u t)) = variance (born_list basis (phi (theta t))) (fun s => (gs t s + Ci * (H t (phi (theta t)) s / phi (theta t) s))%C)).
    { apply variance_ext. intros px _. unfold residue, gs, el. now rewrite Hx. }
    rewrite EV in BE. unfold y'. match type of FQ with ?x * ?x <= _ => replace (- x * - x) with (x * x) by ring end. eapply Rle_trans; [exact FQ|].
    apply Rmult_le_compat_l; [lra|]. apply Rmult_le_compat_l; [lra|exact BE].
Qed.
(** Hence every observable: with a bound a of its matrix elements (|<f|A|h>| <= a |f| |h|), and started
    from the same state, the expectation values differ by at most 2 a times that integral. *)
Theorem C95_observables theta u T chi (m : R -> metadata) (v b B : R -> R) : 0 <= T -> c_prefactor c = Ci ->
  (forall t, 0 <= t <= T -> hermitian_on basis (H t)) ->
  (forall t, 0 <= t <= T -> evaluation t (theta t) (u t) (m t) (v t) /\ 0 < v t) ->
  (forall t, 0 <= t <= T -> follows_chain_rule n lp theta (u t) (g (theta t)) t) ->
  (forall t, 0 <= t <= T -> flows basis Ci (H t) chi t /\ 0 < norm2 basis (chi t)) ->
  (forall t, 0 <= t <= T -> derivable_pt_lim B t (b t) /\ 0 <= b t /\ forall e, m_error (m t) = Fin e -> e * v t <= b t * b t) ->
  (forall s, chi 0 s = phi (theta 0) s) ->
  forall (Aop : wavefun -> wavefun) a, 0 <= a -> hermitian_on basis Aop -> (forall f h, Cnorm2 (braket basis f (Aop h)) <= a * a * (norm2 basis f * norm2 basis h)) ->
  Rabs (Re (expectation basis Aop (phi (theta T))) - Re (expectation basis Aop (chi T))) <= 2 * a * (B T - B 0).
Proof.
  intros HT Hx Hh HE HC HF HB Hs Aop a Ha HA Hbd.
  pose proof (C95_distance theta u T chi m v b B HT Hx Hh HE HC HF HB) as Q.
  assert (PZ : 0 < norm2 basis (phi (theta 0))) by (apply norm2_pos; [exact basis_ne_m|apply phi_ne_m]).
  assert (D0 : trace_distance basis (chi 0) (phi (theta 0)) = 0).
  { assert (EC : chi 0 = phi (theta 0)) by (now apply functional_extensionality). rewrite EC. unfold trace_distance, fidelity. rewrite braket_self, Cnorm2_RtoC. etransitivity; [|exact sqrt_0]. f_equal. field. exact (Rgt_not_eq _ _ PZ). }
  rewrite D0 in Q. eapply Rle_trans; [apply (close_values basis Aop a HA Ha Hbd)|].
  - apply norm2_pos; [exact basis_ne_m|apply phi_ne_m].
  - apply HF. lra.
  - apply Rmult_le_compat_l; lra.
Qed.
End Motion.
Print Assumptions C94_recorded.
Print Assumptions C94_zero.
Print Assumptions C94_follows.
Print Assumptions C95_distance.
Print Assumptions C95_observables.

(** One spin whose relative phase is the only parameter, log psi(s) = i theta s, and the Hamiltonian Sz.
    The object is called with the exact sampler on two ranks and never needs more than [fuel] steps. *)
Definition lpP (theta : nat -> R) (s : config) : C := (Ci * RtoC (theta 0%nat * INR (nth 0 s 0%nat)))%C.
Definition gP (theta : nat -> R) (s : config) (k : nat) : C := (Ci * RtoC (INR (nth 0 s 0%nat)))%C.
Definition setP : settings := mk_settings true 2 (/ 10 ^ 14) (/ 10 ^ 8) false Ci 0 false true.
Definition phase_of (q : nqs) (k : nat) : R := Re (nth 0 (nth 0 (nq_params q) []) C0).
Notation prP theta := (probs 2 1 2 1 0 (lpP theta)).
Notation callsP fuel := (evaluation 2 1 2 1 1 lpP gP z1 (fun _ => []) 0 eigh1 eigh1 setP Exact
  (fun q => Ok (tt, prP (phase_of q))) (fun _ => Ok tt) (fun _ _ => Err AttributeError)
  (fun q _ _ => do e <- local_energies 2 1 2 1 (lpP (phase_of q)) (map to_opstr z1) [] 0; Ok (lmap (fun x (_ : unit) => x) e))
  (fun q _ => Ok (lmap (gP (phase_of q)) (configs 2 1 2 1))) fuel).
Lemma fitP : forall r, (0 <= r < 2)%Z -> fits (2 ^ Z.of_nat 1) 2 1 r.
Proof. exact (proj1 (enumerates_iff 1 2 2 1 ltac:(lia) ltac:(lia) ltac:(lia)) z1_complete). Qed.
Lemma phaseP theta s : Cnorm2 (Cexp (lpP theta s)) = 1.
Proof.
  unfold lpP, Cexp, Cnorm2. cbn. set (x := theta 0%nat * INR (nth 0 s 0%nat)). replace (0 * x - 1 * 0) with 0 by ring. replace (0 * 0 + 1 * x) with x by ring. rewrite exp_0. pose proof (sin2_cos2 x) as Q. unfold Rsqr in Q. lra.
Qed.
Lemma normP theta : norm2 (all_configs (Z.to_nat 2) 1) (fun s => Cexp (lpP theta s)) = 2.
Proof. unfold norm2. rewrite (rsum_ext _ (fun _ => 1)) by (intros; apply phaseP). change (all_configs (Z.to_nat 2) 1) with [[0%nat]; [1%nat]]. cbn [map]. rewrite !rsum_cons, rsum_nil. ring. Qed.
Lemma probsP theta : prP theta = prP (fun _ => 0).
Proof.
  rewrite !(probs_form 2 1 2 1 0) by (try lia; exact fitP). apply map_ext. intros r. apply map_ext. intros d.
  rewrite !dev_probs_form. f_equal. apply map_ext. intros s. rewrite !phaseP, !normP. reflexivity.
Qed.
Lemma localP theta : local_energies 2 1 2 1 (lpP theta) (map to_opstr z1) [] 0 = Ok [[[(- C1)%C]]; [[C1]]].
Proof.
  rewrite (local_energies_ok 2 1 2 1 (lpP theta) ltac:(lia) ltac:(lia) ltac:(lia) ltac:(lia) fitP ltac:(cbn; lia) z1 [] [C1] 0 z1_wf ltac:(repeat constructor) z1_clean). f_equal.
  change (configs 2 1 2 1) with [[[[0%nat]]]; [[[1%nat]]]]. unfold lmap. cbn [map].
  set (phi := fun s => Cexp (lpP theta s)).
  assert (E0 : forall x, (x < 2)%nat -> (apply_strings z1 [C1] phi [x] / phi [x])%C = (if Nat.eqb x 0 then (- C1)%C else C1)).
  { intros x Hx. unfold apply_strings. cbn [combine map z1 fst snd]. rewrite csum_cons, csum_nil. assert (P : phi [x] <> C0) by apply Cexp_neq0.
    destruct x as [|[|x]]; [| |lia]; cbn -[Cexp lpP Cmul Cadd Cdiv phi]; field; exact P. }
  rewrite !E0 by lia. reflexivity.
Qed.
Lemma bornP theta (h1 h2 : config -> C) : cov (born_list (all_configs (Z.to_nat 2) 1) (fun s => Cexp (lpP theta s))) h1 h2 = (RtoC (1/2) * (Cconj (h1 [0%nat]) * h2 [0%nat] + Cconj (h1 [1%nat]) * h2 [1%nat])
     - RtoC (1/2) * Cconj (h1 [0%nat] + h1 [1%nat]) * (RtoC (1/2) * (h2 [0%nat] + h2 [1%nat])))%C.
Proof.
  unfold born_list. change (all_configs (Z.to_nat 2) 1) with [[0%nat]; [1%nat]]. cbn [map]. rewrite !phaseP. pose proof (normP theta) as NP. change (all_configs (Z.to_nat 2) 1) with [[0%nat]; [1%nat]] in NP. rewrite NP.
  unfold cov, expect. cbn [map fst snd]. rewrite !csum_cons, !csum_nil, !Cscal_RtoC, !Cconj_add, !Cconj_mul, !Cconj_RtoC, Cconj_C0. ring.
Qed.
Lemma gradP theta : log_gradient 1 lpP theta (gP theta).
Proof.
  intros s v. unfold lpP, moved, gP, csumn. cbn [seq map]. rewrite csum_cons, csum_nil. set (x := INR (nth 0 s 0%nat)). split.
  - eapply deriv_value; [apply (deriv_ext (fun _ => 0)); [intros t; cbn; ring|apply derivable_pt_lim_const]|cbn; ring].
  - eapply deriv_value; [apply (deriv_ext (fun t => theta 0%nat * x + (v 0%nat * x) * t)); [intros t; cbn; ring|]; apply (derivable_pt_lim_plus (fun _ => theta 0%nat * x) (fun t => (v 0%nat * x) * t)); [apply derivable_pt_lim_const|apply (derivable_pt_lim_scal (fun t => t)); apply derivable_pt_lim_id]|cbn; ring].
Qed.
(** the calls return the same velocity and record the same numbers at all parameters *)
Lemma runsP : exists fuel u m v, v = 1 /\ forall t x, callsP fuel t (fun _ => x) u m v.
Proof.
  assert (P8 : 0 < / 10 ^ 8 < 1/100).
  { split; [apply Rinv_0_lt_compat, pow_lt; lra|]. apply (Rmult_lt_reg_l (10 ^ 8)); [apply pow_lt; lra|]. rewrite Rinv_r by (apply pow_nonzero; lra).
    assert (10 ^ 3 <= 10 ^ 8) by (apply Rle_pow; [lra|lia]). lra. }
  assert (P14 : / 10 ^ 14 < 1).
  { apply (Rmult_lt_reg_l (10 ^ 14)); [apply pow_lt; lra|]. rewrite Rinv_r by (apply pow_nonzero; lra). rewrite Rmult_1_r. apply Rlt_pow_R1; [lra|lia]. }
  set (pr := prP (fun _ => 0)). set (el := [[[(- C1)%C]]; [[C1]]] : layout C). set (gr := lmap (gP (fun _ => 0)) (configs 2 1 2 1)).
  destruct (C53_partial 1 eigh1 eigh1 setP 0 o4 (init (lmap (fun x (_ : unit) => x) el) pr) (init gr pr) eigh1_works P8 P14) as (f & o' & u & res & cut & K1 & _ & _ & K2).
  pose proof (K1 f ltac:(lia)) as K. assert (KU : u <> None).
  { clear K1. pose proof K as K'. unfold solve in K'. destruct (get_tdvp_equation setP o4 (init (lmap (fun x (_ : unit) => x) el) pr) (init gr pr)) as [o1 [A F]] eqn:EQ.
    change (eigenbasis eigh1 eigh1 setP A) with (Ok (fun _ : nat => Re (A 0%nat 0%nat), fun _ _ : nat => C1)) in K'. cbv beta iota zeta in K'. apply (f_equal fst) in K'. cbn [fst] in K'.
    eapply K2; [rewrite <- K'; reflexivity| |left; reflexivity]. cbn [s_ev Nat.sub]. unfold get_tdvp_equation in EQ. apply (f_equal (fun x => fst (snd x) 0%nat 0%nat)) in EQ. cbn [fst snd] in EQ. rewrite <- EQ.
    destruct (Rlt_dec (/ 10 ^ 10) (c_shift setP)) as [Hbad|_]; [exfalso; revert Hbad; cbn [setP c_shift]; apply Rle_not_lt; left; apply Rinv_0_lt_compat, pow_lt; lra|].
    unfold gr, pr. rewrite (cov_of 2 1 2 1 0 (lpP (fun _ => 0)) ltac:(lia) ltac:(lia) ltac:(lia) ltac:(lia) fitP (gP (fun _ => 0)) (gP (fun _ => 0))). rewrite bornP. unfold gP. cbn. lra. }
  destruct u as [u|]; [|congruence].
  assert (RUN : forall t x, exists w', tdvp_call 1 eigh1 eigh1 setP Exact (fun q => Ok (tt, prP (phase_of q))) (fun _ => Ok tt) (fun _ _ => Err AttributeError)
     (fun q _ _ => do e <- local_energies 2 1 2 1 (lpP (phase_of q)) (map to_opstr z1) [] 0; Ok (lmap (fun x (_ : unit) => x) e)) (fun q _ => Ok (lmap (gP (phase_of q)) (configs 2 1 2 1))) f (mk_world psi1 o4 0) (PVec [x]) t (Some 0%nat) = (w', Ok (Some u))
     /\ w_obj w' = fst (record_step 1 eigh1 eigh1 setP f 0 o' (Some u) res cut (init (lmap (fun x (_ : unit) => x) el) pr) (init gr pr))).
  { intros t x. set (q1 := set_params psi1 [[(x, 0)]]).
    assert (E1 : set_parameters psi1 (PVec [x]) = Ok q1) by reflexivity.
    unfold tdvp_call. cbn [w_psi w_obj w_glob]. rewrite E1. unfold do_sample, sample_exact.
    cbn -[probs local_energies configs lmap solve record_step lpP gP init el pr gr psi1].
    rewrite probsP, localP. cbn -[probs configs lmap solve record_step lpP gP init el pr gr psi1]. fold el pr. change (lmap (gP (phase_of q1)) (configs 2 1 2 1)) with gr. rewrite K.
    pose proof (solve_stores _ _ _ _ _ _ _ _ _ _ _ K) as (T1 & T2 & T3).
    cbn -[probs configs lmap solve record_step lpP gP init el pr gr].
    destruct (record_step 1 eigh1 eigh1 setP f 0 o' (Some u) res cut (init (lmap (fun x (_ : unit) => x) el) pr) (init gr pr)) as [o2 r2] eqn:ER.
    exists (mk_world psi1 o2 0). split; [|reflexivity]. f_equal. apply (f_equal snd) in ER. cbn [snd] in ER. rewrite <- ER. unfold record_step. rewrite T1. unfold get_tdvp_equation at 1. cbn [fst o_eq]. destruct (o_sp o'); [|congruence]. reflexivity. }
  set (ob := fst (record_step 1 eigh1 eigh1 setP f 0 o' (Some u) res cut (init (lmap (fun x (_ : unit) => x) el) pr) (init gr pr))) in *.
  assert (HM : exists m, o_meta ob = Some m /\ o_var0 ob = Some (var (init (lmap (fun x (_ : unit) => x) el) pr) tt)).
  { pose proof (solve_stores _ _ _ _ _ _ _ _ _ _ _ K) as (T1 & T2 & T3). unfold ob, record_step. rewrite T1. unfold get_tdvp_equation at 1. cbn [fst o_eq]. destruct (o_sp o'); [|congruence]. eexists. split; reflexivity. }
  destruct HM as (m & HM & HV). exists f, u, m, 1. split; [reflexivity|]. intros t x. destruct (RUN t x) as (w' & R1 & R2).
  exists (mk_world psi1 o4 0), (PVec [x]), w', (set_params psi1 [[(x, 0)]]), tt, el, 0.
  split; [exact R1|]. split; [reflexivity|]. split; [reflexivity|]. split; [apply localP|]. split; [cbv beta; rewrite localP; reflexivity|]. split; [reflexivity|].
  rewrite R2. split; [exact HM|]. rewrite HV. f_equal.
  assert (EV : lmap (fun x (_ : unit) => x) el = lmap (fun (s : config) (_ : unit) => if Nat.eqb (nth 0 s 0%nat) 0 then (- C1)%C else C1) (configs 2 1 2 1)) by reflexivity.
  rewrite EV. unfold pr. rewrite (var_of 2 1 2 1 0 (lpP (fun _ => 0)) ltac:(lia) ltac:(lia) ltac:(lia) ltac:(lia) fitP (fun s (_ : unit) => if Nat.eqb (nth 0 s 0%nat) 0 then (- C1)%C else C1) tt).
  apply RtoC_inj. rewrite variance_cov by (apply born_total; [discriminate|intros; apply Cexp_neq0]). rewrite bornP. cbn [nth Nat.eqb]. apply C_eq; cbn; field.
Qed.
Example C94_case : exists fuel u m v, callsP fuel 0 (fun _ => 3) u m v /\ Cnorm2 (c_prefactor setP) = 1 /\ 0 < v /\ log_gradient 1 lpP (fun _ => 3) (gP (fun _ => 3))
  /\ Forall (wf_string 2 1) z1 /\ hermitian_on (all_configs 2 1) (apply_strings z1 [C1])
  /\ exists chi, (forall s, chi 0 s = Cexp (lpP (fun _ => 3) s)) /\ flows (all_configs 2 1) Ci (apply_strings z1 [C1]) chi 0.
Proof.
  destruct runsP as (fuel & u & m & v & -> & HR). exists fuel, u, m, 1. split; [apply HR|]. split; [unfold Cnorm2; cbn; ring|]. split; [lra|]. split; [apply gradP|].
  split; [exact z1_wf|]. split; [exact z1_hermitian|].
  set (phi := fun s => Cexp (lpP (fun _ => 3) s)). exists (fun t s => (phi s + RtoC t * (- Ci * apply_strings z1 [C1] phi s))%C).
  split; [intros s; rewrite RtoC_0; unfold phi; ring|]. intros s _.
  assert (E0 : (fun s => (phi s + RtoC 0 * (- Ci * apply_strings z1 [C1] phi s))%C) = phi) by (apply functional_extensionality; intros; rewrite RtoC_0; ring).
  rewrite E0. set (z := (- Ci * apply_strings z1 [C1] phi s)%C). destruct (phi s) as [p q], z as [a b].
  assert (LD : forall x y, derivable_pt_lim (fun t => x + y * t) 0 y) by (intros x y; eapply deriv_value; [apply (derivable_pt_lim_plus (fun _ => x) (fun t => y * t)); [apply derivable_pt_lim_const|apply (derivable_pt_lim_scal (fun t => t)); apply derivable_pt_lim_id]|ring]).
  split; cbn; [apply (deriv_ext (fun t => p + a * t))|apply (deriv_ext (fun t => q + b * t))]; try (intros; ring); apply LD.
Qed.
(** the exact velocity -2 solves the equation and reproduces the motion *)
Example C94_follows_case o : exists E, energy_obs 2 1 2 1 0 (lpP (fun _ => 3)) (map to_opstr z1) [] 0 = Ok E /\
  (let eq := snd (get_tdvp_equation setP o E (gradient_obs 2 1 2 1 0 (lpP (fun _ => 3)) (gP (fun _ => 3)))) in forall k, (k < 1)%nat -> apply 1 (fst eq) (real (fun _ => -2)) k = snd eq k) /\
  forall s, In s (all_configs 2 1) -> let phi := fun s => Cexp (lpP (fun _ => 3) s) in
    csumn 1 (fun k => gP (fun _ => 3) s k * RtoC (-2))%C = (- c_prefactor setP * (apply_strings z1 [C1] phi s / phi s) + (- Ci))%C.
Proof.
  set (th := fun _ : nat => 3). set (phi := fun s => Cexp (lpP th s)).
  assert (E0 : forall x, (x < 2)%nat -> (apply_strings z1 [C1] phi [x] / phi [x])%C = (if Nat.eqb x 0 then (- C1)%C else C1)).
  { intros x Hx. unfold apply_strings. cbn [combine map z1 fst snd]. rewrite csum_cons, csum_nil. assert (P : phi [x] <> C0) by apply Cexp_neq0.
    destruct x as [|[|x]]; [| |lia]; cbn -[Cexp lpP Cmul Cadd Cdiv phi]; field; exact P. }
  eexists. split; [exact (energy_obs_ok 2 1 2 1 0 (lpP th) ltac:(lia) ltac:(lia) ltac:(lia) ltac:(lia) fitP ltac:(cbn; lia) z1 [] [C1] 0 z1_wf ltac:(repeat constructor) z1_clean)|]. split.
  - intros eq k Hk. assert (k = 0%nat) by lia. subst k. unfold eq, gradient_obs, get_tdvp_equation. cbn [fst snd]. destruct (Rlt_dec (/ 10 ^ 10) (c_shift setP)) as [Hbad|_]; [exfalso; revert Hbad; cbn [setP c_shift]; apply Rle_not_lt; left; apply Rinv_0_lt_compat, pow_lt; lra|].
    rewrite (cov_of 2 1 2 1 0 (lpP th) ltac:(lia) ltac:(lia) ltac:(lia) ltac:(lia) fitP (gP th) (fun s (_ : unit) => (apply_strings z1 [C1] phi s / phi s)%C)).
    unfold apply, csumn. cbn [seq map]. rewrite csum_cons, csum_nil. rewrite (cov_of 2 1 2 1 0 (lpP th) ltac:(lia) ltac:(lia) ltac:(lia) ltac:(lia) fitP (gP th) (gP th)).
    rewrite !makeReal_part, !bornP. rewrite (E0 0%nat), (E0 1%nat) by lia. unfold gP, part, real. apply C_eq; cbn; field.
  - intros s Hs. cbv zeta. fold phi. cbn in Hs. destruct Hs as [<-|[<-|[]]]; rewrite E0 by lia; unfold csumn, gP; cbn [seq map nth Nat.eqb]; rewrite csum_cons, csum_nil; apply C_eq; cbn; ring.
Qed.
(** a whole trajectory and the exact state that starts with it *)
Example C95_case T : 0 <= T -> exists fuel u m v (b : R) chi,
  (forall t, 0 <= t <= T -> callsP fuel t (fun _ => t * u 0%nat) u m v /\ 0 < v)
  /\ (forall t, 0 <= t <= T -> follows_chain_rule 1 lpP (fun t _ => t * u 0%nat) u (gP (fun _ => t * u 0%nat)) t)
  /\ (forall t, 0 <= t <= T -> flows (all_configs 2 1) Ci (apply_strings z1 [C1]) chi t /\ 0 < norm2 (all_configs 2 1) (chi t))
  /\ (forall t, 0 <= t <= T -> derivable_pt_lim (fun t => b * t) t b /\ 0 <= b /\ forall e, m_error m = Fin e -> e * v <= b * b)
  /\ trace_distance (all_configs 2 1) (chi T) (fun s => Cexp (lpP (fun _ => T * u 0%nat) s)) <= trace_distance (all_configs 2 1) (chi 0) (fun s => Cexp (lpP (fun _ => 0 * u 0%nat) s)) + (b * T - b * 0).
Proof.
  intros HT. destruct runsP as (fuel & u & m & v & -> & HR).
  set (b := match m_error m with Fin e => sqrt (Rabs e) | _ => 0 end).
  set (chi := fun t (s : config) => Cexp (Ci * RtoC (t * (if Nat.eqb (nth 0 s 0%nat) 0 then 1 else -1)))%C).
  assert (LD : forall x t, derivable_pt_lim (fun t => x * t) t x) by (intros x t; eapply deriv_value; [apply (derivable_pt_lim_scal (fun t => t)); apply derivable_pt_lim_id|ring]).
  assert (H1 : forall t, 0 <= t <= T -> callsP fuel t (fun _ => t * u 0%nat) u m 1 /\ 0 < 1) by (intros t _; split; [apply HR|lra]).
  assert (H2 : forall t, 0 <= t <= T -> follows_chain_rule 1 lpP (fun t _ => t * u 0%nat) u (gP (fun _ => t * u 0%nat)) t).
  { intros t _ s. unfold lpP, gP, csumn. cbn [seq map]. rewrite csum_cons, csum_nil. set (x := INR (nth 0 s 0%nat)). split.
    - eapply deriv_value; [apply (deriv_ext (fun _ => 0)); [intros t'; cbn; ring|apply derivable_pt_lim_const]|cbn; ring].
    - eapply deriv_value; [apply (deriv_ext (fun t => (u 0%nat * x) * t)); [intros t'; cbn; ring|apply LD]|cbn; ring]. }
  assert (H3 : forall t, 0 <= t <= T -> flows (all_configs 2 1) Ci (apply_strings z1 [C1]) chi t /\ 0 < norm2 (all_configs 2 1) (chi t)).
  { intros t _. split.
    - intros s Hs. assert (AS : apply_strings z1 [C1] (chi t) s = ((if Nat.eqb (nth 0 s 0%nat) 0 then (- C1)%C else C1) * chi t s)%C).
      { unfold apply_strings. cbn [combine map z1 fst snd]. rewrite csum_cons, csum_nil. cbn in Hs. destruct Hs as [<-|[<-|[]]]; cbn -[Cexp Cmul Cadd chi]; ring. }
      rewrite AS. set (k := if Nat.eqb (nth 0 s 0%nat) 0 then 1 else -1).
      replace (- Ci * ((if Nat.eqb (nth 0 s 0%nat) 0 then (- C1)%C else C1) * chi t s))%C with ((Ci * RtoC k) * chi t s)%C.
      2: { unfold k. destruct (Nat.eqb (nth 0 s 0%nat) 0); destruct (chi t s) as [p q]; apply C_eq; cbn; ring. }
      unfold chi. fold k. apply (cderiv_exp (fun t => (Ci * RtoC (t * k))%C)). split.
      + eapply deriv_value; [apply (deriv_ext (fun _ => 0)); [intros t'; cbn; ring|apply derivable_pt_lim_const]|cbn; ring].
      + eapply deriv_value; [apply (deriv_ext (fun t => k * t)); [intros t'; cbn; ring|apply LD]|cbn; ring].
    - apply norm2_pos; [discriminate|intros; apply Cexp_neq0]. }
  assert (H4 : forall t, 0 <= t <= T -> derivable_pt_lim (fun t => b * t) t b /\ 0 <= b /\ forall e, m_error m = Fin e -> e * 1 <= b * b).
  { intros t _. split; [apply LD|]. unfold b. split; [destruct (m_error m); [apply sqrt_pos|lra|lra|lra]|]. intros e ->. rewrite sqrt_sqrt by apply Rabs_pos. pose proof (Rle_abs e). lra. }
  exists fuel, u, m, 1, b, chi. split; [exact H1|]. split; [exact H2|]. split; [exact H3|]. split; [exact H4|].
  exact (C95_distance 2 1 2 1 ltac:(lia) ltac:(lia) ltac:(cbn; lia) ltac:(lia) z1_complete 1 lpP gP z1 (fun _ => []) (fun _ => [C1]) 0 z1_wf ltac:(intros; repeat constructor) (fun _ => z1_clean) eigh1 eigh1 setP Exact
    _ _ _ _ _ fuel (fun t _ => t * u 0%nat) (fun _ => u) T chi (fun _ => m) (fun _ => 1) (fun _ => b) (fun t => b * t) HT eq_refl (fun _ _ => z1_hermitian) H1 H2 H3 H4).
Qed.
(** the matrix elements of Sz are bounded by 1 *)
Example C95_bound_case : hermitian_on (all_configs 2 1) (apply_strings z1 [C1])
  /\ forall f h, Cnorm2 (braket (all_configs 2 1) f (apply_strings z1 [C1] h)) <= 1 * 1 * (norm2 (all_configs 2 1) f * norm2 (all_configs 2 1) h).
Proof.
  split; [exact z1_hermitian|]. intros f h. rewrite !Rmult_1_l. eapply Rle_trans; [apply braket_cs|]. apply Rmult_le_compat_l; [apply norm2_nonneg|]. apply Req_le.
  unfold norm2. apply rsum_ext. intros s Hs. unfold apply_strings. cbn [combine map z1 fst snd]. rewrite csum_cons, csum_nil.
  cbn in Hs. destruct Hs as [<-|[<-|[]]]; cbn -[Cmul Cadd Cnorm2]; destruct (h _) as [p q]; unfold Cnorm2; cbn; ring.
Qed.
