(** Hermitian operator strings; the TDVP equation evaluated exactly. *)
From Coq Require Import ZArith List Reals Lra Lia Bool Arith Permutation FunctionalExtensionality.
From Verif Require Import Base Cplx Mpi_Model Povm_Spec Povm_Proofs Stats_Model Stats_Spec Stats_Proofs BranchFree_Model BranchFree_Spec BranchFree_Proofs BranchFree2_Proofs OpBase_Model OpBase_Spec
  Sampler_Spec Sampler2_Proofs Exact_Model Exact_Proofs Stepper_Model Tdvp_Model Tdvp_Spec Tdvp_Proofs Tdvp2_Proofs Tdvp3_Proofs Tdvp4_Proofs Tdvp7_Proofs Tdvp_Props Vmc_Model Vmc_Spec Vmc_Proofs Vmc2_Proofs.
Import ListNotations.
Local Open Scope R_scope.

(** ** the basis is closed under the strings *)
Lemma basis_wf d n s : (0 < n)%nat -> In s (all_configs d n) <-> wf_config d n s.
Proof.
  intros Hn. rewrite in_all_configs. unfold wf_config. rewrite Forall_forall. tauto.
Qed.
Lemma strings_closed {A} d n (sts : list (ostring A)) (vals : list C) : (0 < n)%nat -> Forall (wf_string d n) sts ->
  forall s sv, In s (all_configs d n) -> In sv (combine sts vals) -> In (fst (act (snd (fst sv)) s)) (all_configs d n).
Proof.
  intros Hn Hw s [st v] Hs Hin. apply basis_wf in Hs; [|exact Hn]. apply basis_wf; [exact Hn|]. cbn [fst snd].
  apply in_combine_l in Hin. rewrite Forall_forall in Hw. destruct (Hw _ Hin) as [W _]. apply (act_ok d n n (snd st) s C1 W Hs).
  unfold dim_ok. now left.
Qed.

(** ** strings that equal their adjoints *)
Definition self_adjoint (basis : list config) (ops : list localop) : Prop :=
  forall s, In s basis -> In (fst (act ops s)) basis /\ act ops (fst (act ops s)) = (s, Cconj (snd (act ops s))).

Lemma involution_perm (basis : list config) (f : config -> config) : NoDup basis -> (forall s, In s basis -> In (f s) basis /\ f (f s) = s) ->
  Permutation (map f basis) basis.
Proof.
  intros ND H. apply NoDup_Permutation_bis.
  - assert (I : forall l, NoDup l -> (forall x, In x l -> In x basis) -> NoDup (map f l)); [|now apply I].
    induction l as [|x l IH]; intros NDl Hin; cbn; [constructor|]. inversion NDl; subst. constructor; [|apply IH; [assumption|intros; apply Hin; now right]].
    intros Hx. apply in_map_iff in Hx as (y & E & Hy). assert (y = x); [|now subst].
    rewrite <- (proj2 (H y (Hin y (or_intror Hy)))), E. apply H. apply Hin. now left.
  - rewrite map_length. apply le_n.
  - intros x Hx. apply in_map_iff in Hx as (y & <- & Hy). now apply H.
Qed.

Lemma string_hermitian basis ops (v : R) phi chi : NoDup basis -> self_adjoint basis ops ->
  csum (map (fun s => (Cconj (phi s) * (RtoC v * snd (act ops s) * chi (fst (act ops s))))%C) basis)
  = Cconj (csum (map (fun s => (Cconj (chi s) * (RtoC v * snd (act ops s) * phi (fst (act ops s))))%C) basis)).
Proof.
  intros ND H. rewrite <- (csum_perm _ _ (Permutation_map _ (involution_perm basis (fun s => fst (act ops s)) ND ltac:(intros s Hs; destruct (H s Hs) as [I E]; rewrite E; auto)))).
  rewrite map_map, csum_conj, map_map. apply csum_ext. intros s Hs. destruct (H s Hs) as [_ E]. rewrite E. cbn [fst snd].
  rewrite !Cconj_mul, Cconj_conj, Cconj_RtoC. ring.
Qed.
Lemma strings_hermitian {A} basis (sts : list (ostring A)) (vals : list C) : NoDup basis -> (forall v, In v vals -> Im v = 0) ->
  Forall (fun st => self_adjoint basis (snd st)) sts -> hermitian_on basis (apply_strings sts vals).
Proof.
  intros ND Hv Hs phi chi. unfold braket, apply_strings.
  rewrite (csum_ext _ (fun s => csum (map (fun sv : ostring A * C => (Cconj (phi s) * (snd sv * snd (act (snd (fst sv)) s) * chi (fst (act (snd (fst sv)) s))))%C) (combine sts vals)))) by (intros s _; now rewrite csum_scal).
  rewrite csum_swap, csum_conj, map_map. symmetry.
  rewrite (csum_ext (fun s => Cconj _) (fun s => csum (map (fun sv : ostring A * C => Cconj (Cconj (chi s) * (snd sv * snd (act (snd (fst sv)) s) * phi (fst (act (snd (fst sv)) s))))%C) (combine sts vals))))
    by (intros s _; rewrite <- csum_scal, csum_conj, map_map; reflexivity).
  rewrite csum_swap. symmetry. apply csum_ext. intros [st v] Hin. cbn [fst snd].
  assert (Ev : v = RtoC (Re v)) by (apply Im0_RtoC, Hv; now apply in_combine_r in Hin).
  rewrite Ev. rewrite (string_hermitian basis (snd st) (Re v) phi chi ND); [now rewrite csum_conj, map_map|].
  apply in_combine_l in Hin. rewrite Forall_forall in Hs. now apply Hs.
Qed.

(** products of Pauli matrices on different sites *)
Definition pauli_string (n : nat) (l : list (opname * nat)) : Prop :=
  NoDup (map snd l) /\ Forall (fun oi => (snd oi < n)%nat /\ fst oi <> NP /\ fst oi <> NM) l.
Lemma op_idx o i : lo_idx (op_of o i) = i. Proof. now destruct o. Qed.
Lemma op_fermi o i : lo_fermi (op_of o i) = false. Proof. now destruct o. Qed.
Lemma pauli_self_adjoint n l : (0 < n)%nat -> pauli_string n l -> self_adjoint (all_configs 2 n) (map (fun oi => op_of (fst oi) (snd oi)) l).
Proof.
  intros Hn [HN HF] s Hs. apply basis_wf in Hs; [|exact Hn].
  assert (W : forall l : list (opname * nat), Forall (fun oi => (snd oi < n)%nat /\ fst oi <> NP /\ fst oi <> NM) l -> Forall (wf_op 2 n) (map (fun oi => op_of (fst oi) (snd oi)) l)).
  { intros l0 H0. apply Forall_map. eapply Forall_impl; [|exact H0]. intros [o i] (Hi & _). now apply wf_2. }
  split.
  - apply basis_wf; [exact Hn|]. apply (act_ok 2 n n _ s C1 (W l HF) Hs). unfold dim_ok. now left.
  - revert s Hs HN HF. induction l as [|[o i] l IH]; intros s Hs HN HF; [cbn; now rewrite Cconj_C1|].
    cbn [map snd] in HN. inversion HN as [|? ? Hni HN']; subst. inversion HF as [|? ? (Hi & HP & HM) HF']; subst. cbn [fst snd map] in *.
    specialize (IH s Hs HN' HF'). set (ops := map (fun oi : opname * nat => op_of (fst oi) (snd oi)) l) in *. cbn [act].
    assert (Ls : length s = n) by apply Hs.
    assert (Fo : forall t : config, length t = n -> Forall (fun o => lo_fermi o = false /\ lo_idx o <> i /\ (lo_idx o < length t)%nat) ops).
    { intros t Ht. apply Forall_forall. intros x Hx. unfold ops in Hx. apply in_map_iff in Hx as ([o' i'] & <- & Hin). cbn [fst snd].
      rewrite op_fermi, op_idx. rewrite Forall_forall in HF'. specialize (HF' _ Hin). cbn in HF'. split; [reflexivity|]. split; [|lia]. intros ->. apply Hni. apply (in_map snd) in Hin. exact Hin. }
    destruct (act_other ops s i 0 (Fo s Ls) ltac:(lia)) as (_ & N0 & L0).
    destruct (act ops s) as [s1 c1]. cbn [fst snd] in *. unfold act1. rewrite op_idx, op_fermi. cbn [fst snd].
    destruct (act_other ops s1 i (nth (nth i s1 0%nat) (lo_map (op_of o i)) 0%nat) (Fo s1 ltac:(lia)) ltac:(lia)) as (E1 & N1 & L1).
    rewrite E1, IH. cbn [fst snd]. rewrite N0. rewrite nth_put_same by lia. rewrite put_put_same by lia.
    assert (B : nth i s 0%nat = 0%nat \/ nth i s 0%nat = 1%nat) by (eapply bit; eauto).
    apply f_equal2.
    + destruct B as [B|B]; rewrite B; destruct o; cbn; try (now elim HP); try (now elim HM); (apply (put_self n); [exact Hs|exact Hi|]); congruence.
    + destruct B as [B|B]; rewrite B; destruct o; cbn -[Cconj Cmul]; try (now elim HP); try (now elim HM); rewrite !Cconj_mul; destruct c1 as [x1 x2]; Cunf; apply C_eq; cbn; ring.
Qed.

(** ** Cauchy-Schwarz *)
Lemma cauchy_schwarz n (x y : nat -> R) : rsumn n (fun k => x k * y k) * rsumn n (fun k => x k * y k) <= rsumn n (fun k => x k * x k) * rsumn n (fun k => y k * y k).
Proof.
  set (P := rsumn n (fun k => x k * y k)). set (X := rsumn n (fun k => x k * x k)). set (Y := rsumn n (fun k => y k * y k)).
  assert (HY : 0 <= Y) by (apply rsumn_nonneg; intros; nra).
  assert (E : rsumn n (fun k => (Y * x k - P * y k) * (Y * x k - P * y k)) = Y * (X * Y - P * P)).
  { rewrite (rsumn_ext n _ (fun k => (Y * Y) * (x k * x k) + ((- (2 * Y * P)) * (x k * y k) + (P * P) * (y k * y k)))) by (intros; ring).
    unfold rsumn. rewrite !rsum_map_add, !rsum_scal. fold (rsumn n (fun k => x k * x k)) (rsumn n (fun k => x k * y k)) (rsumn n (fun k => y k * y k)). fold X P Y. ring. }
  assert (G : 0 <= Y * (X * Y - P * P)) by (rewrite <- E; apply rsumn_nonneg; intros; apply Rle_0_sqr).
  destruct (Rle_lt_or_eq_dec 0 Y HY) as [Hp|H0].
  - assert (0 <= X * Y - P * P) by (apply (Rmult_le_reg_l Y); [exact Hp|]; lra). lra.
  - assert (Z : forall k, (k < n)%nat -> y k * y k = 0) by (apply rsumn_eq0; [intros; nra|unfold Y in H0; now symmetry]).
    replace P with 0; [rewrite <- H0; lra|]. symmetry. unfold P. rewrite (rsumn_ext n _ (fun k => 0 * 0)); [rewrite rsumn_scal; ring|]. intros k Hk. specialize (Z k Hk). assert (y k = 0) by nra. rewrite H. ring.
Qed.
Lemma abs_overlap n (a : nat -> C) (u : nat -> R) : Rabs (rsumn n (fun k => Im (a k) * u k)) <= len n a * len n (real u).
Proof.
  apply Rsqr_incr_0_var; [|apply Rmult_le_pos; apply len_ge]. rewrite <- Rsqr_abs. unfold Rsqr. eapply Rle_trans; [apply (cauchy_schwarz n (fun k => Im (a k)) u)|].
  replace (len n a * len n (real u) * (len n a * len n (real u))) with ((len n a * len n a) * (len n (real u) * len n (real u))) by ring. rewrite !len_sq.
  apply Rmult_le_compat; [apply rsumn_nonneg; intros; apply Rle_0_sqr|apply rsumn_nonneg; intros; apply Rle_0_sqr|apply rsumn_le; intros k _; pose proof (Rle_0_sqr (Re (a k))) as Q; destruct (a k) as [a1 a2]; unfold Cnorm2; cbn in *; unfold Rsqr in *; lra|].
  apply rsumn_le. intros k _. unfold real. rewrite Cnorm2_RtoC. lra.
Qed.

(** ** the update of stochastic reconfiguration *)
Lemma real_update_zero n ej en c w g e s fuel N o o' u res cut :
  solves_eigenproblem n ej -> solves_eigenproblem n en -> shape_eq g w -> shape_eq e w -> weights_ok (flat w) -> applied_shift (c_shift c) s ->
  solve n ej en c fuel N o (init e w) (init g w) = (o', Ok (Some u, res, cut)) -> c_imag c = false ->
  let F := force false (c_prefactor c) w g e in
  0 <= Re (inner n F (real u)) /\ (Re (inner n F (real u)) = 0 -> forall k, (k < n)%nat -> u k = 0).
Proof.
  intros H1 H2 H3 H4 H5 H6 H7 H8 F.
  destruct (solution_form n ej en c w g e s H1 H2 H3 H4 H5 H6 fuel N o o' u res cut H7) as (ev & V & sp & Fm & cutoff & p & E & EV & Esp & EF & P1 & P3 & P4).
  rewrite H8 in E, EV, EF, P3. change (force false (c_prefactor c) w g e) with F in EF, P3.
  pose proof (range_ev n c w g e N ev V sp Fm cutoff p Esp P1) as PR.
  set (x := apply n V (fun j => (RtoC (p j) * apply n (dagger V) F j)%C)) in *.
  assert (XU : forall k, (k < n)%nat -> x k = real u k).
  { intros k Hk. unfold real. rewrite P3. apply (real_solution n F V p (EV eq_refl)); [|exact Hk]. intros l. unfold F. rewrite <- H8. now apply (force_real c w g e). }
  assert (EI : Re (inner n F (real u)) = rsumn n (fun j => p j * Cnorm2 (apply n (dagger V) F j))).
  { rewrite (inner_ext n F F (real u) x) by (auto; intros; symmetry; now apply XU). unfold x. rewrite (solution_overlap n F V p). reflexivity. }
  assert (PP : forall k, (k < n)%nat -> 0 <= p k * Cnorm2 (apply n (dagger V) F k)).
  { intros k Hk. apply Rmult_le_pos; [|apply Cnorm2_ge]. apply PR; [exact Hk|].
    eapply (eigenvalue_nonneg n _ ev V E); [|exact Hk]. pose proof (fisher_psd c w g s H3 H5 H6 n H8) as PS. rewrite H8 in PS. exact PS. }
  split; [rewrite EI; now apply rsumn_nonneg|]. rewrite EI. intros Z k Hk. pose proof (rsumn_eq0 n _ PP Z) as Z0.
  rewrite P3. unfold x, apply at 1. rewrite csumn_zero_; [reflexivity|]. intros j Hj. specialize (Z0 j Hj). cbn beta in Z0.
  apply Rmult_integral in Z0. destruct Z0 as [Z0|Z0]; [rewrite Z0, RtoC_0; ring|]. apply Cnorm2_eq0 in Z0. rewrite Z0. ring.
Qed.

(** ** the equation evaluated exactly *)
Section Exact.
Variables (lDim : Z) (N : nat) (commSize devices : Z) (lastNorm : R).
Hypothesis Hl : (0 < lDim)%Z.
Hypothesis HN : (0 < N)%nat.
Hypothesis Hc : (0 < commSize)%Z.
Hypothesis Hd : (0 < devices)%Z.
Hypothesis Hfit : forall r, (0 <= r < commSize)%Z -> fits (lDim ^ Z.of_nat N) commSize devices r.
Hypothesis Hst : (commSize <= lDim ^ Z.of_nat N)%Z.
Context {A : Type}.
Variables (n : nat) (lp : (nat -> R) -> config -> C) (theta : nat -> R) (grads : config -> nat -> C).
Hypothesis Hg : log_gradient n lp theta grads.
Let psi := lp theta.
Let basis := all_configs (Z.to_nat lDim) N.
Let phi : wavefun := fun s => Cexp (psi s).
Variables (sts : list (ostring A)) (vals : list C).
Hypothesis Hw : Forall (wf_string (Z.to_nat lDim) N) sts.
Let O := apply_strings sts vals.
Hypothesis Hherm : hermitian_on basis O.
Notation probs := (probs lDim N commSize devices lastNorm psi).
Notation configs := (configs lDim N commSize devices).
Let eloc (s : config) : C := (O phi s / phi s)%C.
Let e := lmap (fun s (_ : unit) => eloc s) configs.
Let g := lmap grads configs.
Let B := born_list basis phi.
(** the gradient of the energy *)
Definition slope (k : nat) : R := 2 * Re (cov B (fun s => grads s k) eloc).

Lemma cov_sum (v : nat -> R) : cov B (fun s => csumn n (fun k => (grads s k * RtoC (v k))%C)) eloc = csumn n (fun k => (RtoC (v k) * cov B (fun s => grads s k) eloc)%C).
Proof.
  unfold cov. rewrite (csumn_ext n _ (fun k => (RtoC (v k) * expect B (fun s => Cconj (grads s k) * eloc s) - RtoC (v k) * Cconj (expect B (fun s => grads s k)) * expect B eloc)%C)) by (intros; ring).
  rewrite csumn_sub. unfold expect, csumn. f_equal.
  - rewrite (csum_ext (fun k => (RtoC (v k) * csum _)%C) (fun k => csum (map (fun px : R * config => (RtoC (v k) * Cscal (fst px) (Cconj (grads (snd px) k) * eloc (snd px)))%C) B))) by (intros; now rewrite csum_scal).
    rewrite csum_swap. apply csum_ext. intros px _. rewrite csum_conj, map_map. rewrite !Cscal_RtoC.
    rewrite <- csum_scal_r, <- csum_scal. apply csum_ext. intros k _. rewrite Cconj_mul, Cconj_RtoC, Cscal_RtoC. ring.
  - rewrite csum_scal_r. f_equal. rewrite csum_conj, map_map.
    rewrite (csum_ext (fun k => (RtoC (v k) * Cconj (csum _))%C) (fun k => csum (map (fun px : R * config => (RtoC (v k) * Cconj (Cscal (fst px) (grads (snd px) k)))%C) B))) by (intros; now rewrite csum_conj, map_map, csum_scal).
    rewrite csum_swap. apply csum_ext. intros px _. rewrite Cconj_scal, Cscal_RtoC, csum_conj, map_map, <- csum_scal. apply csum_ext. intros k _. rewrite Cconj_mul, Cconj_scal, Cconj_RtoC, Cscal_RtoC. ring.
Qed.

Lemma moved_0 (v : nat -> R) : moved theta v 0 = theta.
Proof. apply functional_extensionality. intros k. unfold moved. ring. Qed.
Lemma slope_gradient : gradient_of n (energy_at basis O lp) theta slope.
Proof.
  intros v. unfold energy_at.
  eapply deriv_value; [apply (energy_deriv basis sts vals (fun t s => Cexp (lp (moved theta v t) s)) 0 (fun s => csumn n (fun k => (grads s k * RtoC (v k))%C)))|].
  - exact (basis_ne lDim N commSize devices Hl HN Hfit).
  - intros s. apply Cexp_neq0.
  - now apply strings_closed.
  - intros s _. apply (cderiv_exp (fun t => lp (moved theta v t) s)). apply Hg.
  - exact Hherm.
  - rewrite moved_0. change (born_list basis (fun s => Cexp (lp theta s))) with B. change (fun s => (apply_strings sts vals (fun s0 => Cexp (lp theta s0)) s / Cexp (lp theta s))%C) with eloc.
    rewrite cov_sum, Re_csumn, <- rsumn_scal. apply rsumn_ext. intros k _. unfold slope. rewrite Re_RtoC_mul. ring.
Qed.
Lemma gradient_unique f dE dE' : gradient_of n f theta dE -> gradient_of n f theta dE' -> forall v, rsumn n (fun k => dE k * v k) = rsumn n (fun k => dE' k * v k).
Proof. intros H1 H2 v. exact (uniqueness_limite _ _ _ _ (H1 v) (H2 v)). Qed.
Lemma gradient_entry f dE dE' k : (k < n)%nat -> gradient_of n f theta dE -> gradient_of n f theta dE' -> dE k = dE' k.
Proof.
  intros Hk H1 H2. pose proof (gradient_unique f dE dE' H1 H2 (fun j => if Nat.eqb k j then 1 else 0)) as H.
  assert (D : forall h : nat -> R, rsumn n (fun j => h j * (if Nat.eqb k j then 1 else 0)) = h k).
  { intros h. apply RtoC_inj. rewrite <- csumn_RtoC. rewrite (csumn_ext n _ (fun j => ((if Nat.eqb k j then C1 else C0) * RtoC (h j))%C)); [now apply (csumn_delta n k (fun j => RtoC (h j)))|].
    intros j _. destruct (Nat.eqb k j); rewrite RtoC_mul, ?RtoC_0, ?RtoC_1; ring. }
  now rewrite !D in H.
Qed.

Lemma force_born imag x k : force imag x probs g e k = part imag (- (x * cov B (fun s => grads s k) eloc))%C.
Proof.
  unfold force, g, e. do 3 f_equal. rewrite triples_of. rewrite (cov_map (fun s => (grads s, fun _ : unit => eloc s))). cbn [fst snd]. unfold cov.
  pose proof (fun F => probs_expect lDim N commSize devices lastNorm psi Hl HN Hc Hd Hfit F) as PE. cbv zeta in PE. rewrite !PE. reflexivity.
Qed.
Lemma antisymmetric s (u : nat -> R) : csumn n (fun k => (RtoC (u k) * apply n (fisher true s probs g) (real u) k)%C) = C0.
Proof.
  set (z := csumn n _).
  assert (E1 : Cconj z = (- z)%C).
  { unfold z. rewrite csumn_conj. replace (- csumn n _)%C with ((- C1) * csumn n (fun k => (RtoC (u k) * apply n (fisher true s probs g) (real u) k)%C))%C by ring.
    rewrite <- csumn_scal. apply csumn_ext. intros k _. unfold apply. rewrite Cconj_mul, Cconj_RtoC, csumn_conj.
    replace ((- C1) * (RtoC (u k) * csumn n _))%C with (RtoC (u k) * ((- C1) * csumn n (fun l => (fisher true s probs g k l * real u l)%C)))%C by ring.
    apply (f_equal (fun X => (RtoC (u k) * X)%C)). rewrite <- csumn_scal. apply csumn_ext. intros l _. unfold real. rewrite Cconj_mul, Cconj_RtoC.
    unfold fisher. rewrite Cconj_mul, part_imag. destruct (Nat.eqb k l); rewrite ?Cconj_RtoC, ?Cconj_C1; ring. }
  assert (E2 : Cconj z = z).
  { unfold z. rewrite csumn_conj. transitivity (csumn n (fun k => csumn n (fun l => (RtoC (u k) * fisher true s probs g l k * RtoC (u l))%C))).
    - apply csumn_ext. intros k _. unfold apply. rewrite Cconj_mul, Cconj_RtoC, csumn_conj, <- csumn_scal. apply csumn_ext. intros l _. unfold real. rewrite Cconj_mul, Cconj_RtoC.
      unfold fisher. rewrite Cconj_mul, <- part_conj, <- cov_herm. rewrite (Nat.eqb_sym l k). destruct (Nat.eqb k l); rewrite ?Cconj_RtoC, ?Cconj_C1; ring.
    - rewrite csumn_swap. apply csumn_ext. intros l _. unfold apply. rewrite <- csumn_scal. apply csumn_ext. intros k _. unfold real. ring. }
  rewrite E1 in E2. destruct z as [a b]. apply C_eq; [apply (f_equal fst) in E2|apply (f_equal snd) in E2]; cbn in *; lra.
Qed.
Lemma force_real_time k : force true Ci probs g e k = (Ci * RtoC (- (slope k / 2)))%C.
Proof. rewrite force_born. unfold part, slope. f_equal. apply (f_equal RtoC). destruct (cov B _ _) as [a b]. cbn. field. Qed.
Lemma force_descent k : force false C1 probs g e k = RtoC (- (slope k / 2)).
Proof. rewrite force_born. unfold part, slope. apply (f_equal RtoC). destruct (cov B _ _) as [a b]. cbn. field. Qed.
(** rate of change of the energy for the velocity u *)
Lemma energy_rate s (u : nat -> R) : rsumn n (fun k => slope k * u k) = 2 * rsumn n (fun k => Im (minus (apply n (fisher true s probs g) (real u)) (force true Ci probs g e) k) * u k).
Proof.
  pose proof (antisymmetric s u) as Z. apply (f_equal Im) in Z.
  assert (EI : forall f, Im (csumn n f) = rsumn n (fun k => Im (f k))).
  { intros f. unfold csumn, rsumn. generalize (seq 0 n). intros l. induction l as [|a l IH]; [reflexivity|]. cbn [map]. rewrite csum_cons, rsum_cons, <- IH. reflexivity. }
  rewrite EI in Z. rewrite (rsumn_ext n (fun k => Im (minus _ _ k) * u k) (fun k => Im (RtoC (u k) * apply n (fisher true s probs g) (real u) k)%C + (1/2) * (slope k * u k))).
  - unfold rsumn in *. rewrite rsum_map_add, Z, rsum_scal. cbn. field.
  - intros k _. unfold minus. rewrite force_real_time. destruct (apply _ _ _ _) as [a b]. cbn. field.
Qed.
Lemma rate_bound s (u : nat -> R) : Rabs (rsumn n (fun k => slope k * u k)) <= 2 * (len n (minus (apply n (fisher true s probs g) (real u)) (force true Ci probs g e)) * len n (real u)).
Proof.
  rewrite (energy_rate s u), Rabs_mult, (Rabs_right 2) by lra. apply Rmult_le_compat_l; [lra|]. apply abs_overlap.
Qed.
Lemma force_length : len n (force true Ci probs g e) = len n (real slope) / 2.
Proof.
  unfold len. rewrite (rsumn_ext n _ (fun k => (1/2 * (1/2)) * Cnorm2 (real slope k))).
  - rewrite rsumn_scal, sqrt_mult_alt by lra. rewrite sqrt_square by lra. field.
  - intros k _. rewrite force_real_time. unfold real. rewrite Cnorm2_mul, !Cnorm2_RtoC. unfold Cnorm2, Ci; cbn. field.
Qed.
End Exact.
