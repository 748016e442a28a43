(** What [solve] returns. *)
From Coq Require Import List Reals Lra Lia Arith ZArith Bool.
From Verif Require Import Base Cplx Povm_Spec Povm_Proofs Povm3_Proofs Stats_Model Stats_Spec Stats_Proofs Stepper_Model Tdvp_Model Tdvp_Spec
  Tdvp_Proofs Tdvp2_Proofs Tdvp3_Proofs.
Import ListNotations.
Local Open Scope R_scope.

Lemma spectral_same n A B ev V : same n A B -> spectral n A ev V -> spectral n B ev V.
Proof.
  intros H (U & E & O). split; [exact U|]. split; [|exact O]. intros i j Hi Hj. rewrite <- E by assumption. apply csumn_ext.
  intros k Hk. now rewrite H.
Qed.
Lemma eigenbasis_correct n ej en c A ev V : solves_eigenproblem n ej -> solves_eigenproblem n en -> hermitian n A ->
  eigenbasis ej en c A = Ok (ev, V) -> spectral n A ev V /\ (real_matrix n A -> real_matrix n V).
Proof.
  intros Hj Hn HA. unfold eigenbasis. destruct (c_onDevice c); [|now apply Hn]. destruct (ej A) as [[e v]|x] eqn:E.
  - intros Q. inversion Q; subst. now apply Hj.
  - destruct x; try discriminate. now apply Hn.
Qed.

(** ** odd regularised inverses *)
Lemma rel_ev_opp n ev j k : ev j = - ev k -> rel_ev n ev j = rel_ev n ev k.
Proof. intros H. unfold rel_ev. now rewrite H, Rabs_Ropp. Qed.
Lemma inv_ev_opp n ev j k : ev j = - ev k -> inv_ev n ev j = - inv_ev n ev k.
Proof.
  intros H. unfold inv_ev. rewrite (rel_ev_opp n ev j k H). destruct (xlt _ _) eqn:E; [|ring]. rewrite H.
  assert (Q : ev k <> 0); [|now field]. intros Q. destruct (inv_ev_cases n ev k) as [Z|[Z _]]; [|contradiction].
  unfold inv_ev in Z. rewrite E, Q in Z. revert E. unfold rel_ev. rewrite Q, Rabs_R0. cbn. destruct (Req_EM_T _ 0).
  - destruct (Rlt_dec 0 0); [lra|]. discriminate.
  - unfold Rdiv. rewrite Rmult_0_l. destruct (Rlt_dec _ 0); [|discriminate]. assert (0 < / 10 ^ 14) by (apply Rinv_0_lt_compat, pow_lt; lra). cbn in *. lra.
Qed.
Lemma pinv_odd n c sp cut j k pj pk : s_invEv sp = inv_ev n (s_ev sp) -> s_ev sp j = - s_ev sp k ->
  (c_exact c = true \/ s_ev sp k = 0 \/ s_snr sp j = s_snr sp k) ->
  pinv_ev n c sp cut j = Fin pj -> pinv_ev n c sp cut k = Fin pk -> pj = - pk.
Proof.
  intros Hi He Hc. unfold pinv_ev. rewrite Hi, (rel_ev_opp n (s_ev sp) j k He), (inv_ev_opp n (s_ev sp) j k He).
  set (q := soft_cutoff _ (rel_ev n (s_ev sp) k)).
  assert (Z : s_ev sp k = 0 -> inv_ev n (s_ev sp) k = 0) by (intros Z; destruct (inv_ev_cases n (s_ev sp) k) as [|[]]; [assumption|contradiction]).
  destruct (c_exact c).
  - destruct q; cbn; try discriminate. intros A B. inversion A. inversion B. ring.
  - destruct Hc as [Hc|[Hc|Hc]]; [discriminate| |].
    + rewrite (Z Hc). destruct (xmul q (soft_cutoff (c_snrTol c) (s_snr sp j))); cbn; try discriminate.
      destruct (xmul q (soft_cutoff (c_snrTol c) (s_snr sp k))); cbn; try discriminate. intros A B. inversion A. inversion B. ring.
    + rewrite Hc. destruct (xmul q _); cbn; try discriminate. intros A B. inversion A. inversion B. ring.
Qed.

(** ** variances of the force in the eigenbasis *)
Lemma variance_ext {A} xs (f h : A -> C) : (forall px, In px xs -> f (snd px) = h (snd px)) -> variance xs f = variance xs h.
Proof. intros H. unfold variance. rewrite (expect_ext xs f h H). apply rsum_ext. intros px Hp. now rewrite H. Qed.
Lemma variance_conj {A} xs (f : A -> C) q : Cnorm2 q = 1 -> variance xs (fun a => (q * Cconj (f a))%C) = variance xs f.
Proof.
  intros H. unfold variance. rewrite expect_scal, expect_conj. apply rsum_ext. intros px Hp. f_equal.
  replace (q * Cconj (f (snd px)) - q * Cconj (expect xs f))%C with (q * Cconj (f (snd px) - expect xs f))%C by (rewrite Cconj_sub; ring).
  rewrite Cnorm2_mul, Cnorm2_conj, H. ring.
Qed.

Lemma combine_map_r {A B D} (f : B -> D) (x : list A) (y : list B) :
  combine x (map f y) = map (fun ab => (fst ab, f (snd ab))) (combine x y).
Proof. revert y. induction x as [|a x IH]; intros [|b y]; cbn; [reflexivity..|]. now rewrite IH. Qed.

Section Rho.
  Variables (n : nat) (c : settings) (w : layout R) (g : layout (nat -> C)) (e : layout (unit -> C)).
  Hypotheses (Hg : shape_eq g w) (He : shape_eq e w) (Hw : weights_ok (flat w)) (Hpos : forall p, In p (flat w) -> 0 < p).
  Let obs := lmap2 (fun (xy : (nat -> C) * (unit -> C)) (p : R) (ij : nat * unit) => (Cconj (fst xy (fst ij)) * snd xy (snd ij) / RtoC p)%C)
              (lmap2 pair (so_data (init g w)) (so_data (init e w))) w.
  Lemma obs_shape : shape_eq obs w.
  Proof. apply shape_lmap2. eapply shape_trans; [|exact (init_data_shape e w He)]. apply shape_lmap2. now apply covar_shape. Qed.
  Lemma rhoVar_variance V k : get_rhoVar n c V (init e w) (init g w) k
    = variance (wpairs w obs) (fun x => csumn n (fun l => (Cconj (V l k) * transform_helper (c_prefactor c) (c_imag c) (x (l, tt)))%C)).
  Proof.
    unfold get_rhoVar, covar_data. change (so_w (init g w)) with w. fold obs. rewrite transform_linear_ok by (try assumption; apply obs_shape).
    set (f := fun (x : nat * unit -> C) (al : nat * unit) => csum (map (fun k0 => (conj_transpose V (fst al) k0 * transform_helper (c_prefactor c) (c_imag c) (x (k0, snd al)))%C) (seq 0 n))).
    change (var (init (lmap f obs) w) (k, tt) = variance (wpairs w obs) (fun x => f x (k, tt))).
    rewrite var_ok by (first [assumption | eapply shape_trans; [apply shape_lmap|apply obs_shape]]).
    rewrite <- (variance_map f (wpairs w obs) (fun x => x (k, tt))). f_equal. unfold wpairs. rewrite flat_lmap.
    apply combine_map_r.
  Qed.
  Lemma helper_imag z : c_imag c = true -> Cconj (transform_helper (c_prefactor c) (c_imag c) z) = (- transform_helper (c_prefactor c) (c_imag c) z)%C.
  Proof. intros H. unfold transform_helper. rewrite makeReal_part, H. apply part_imag. Qed.

  Lemma paired_rhoVar V j k q : c_imag c = true -> Cnorm2 q = 1 -> (forall i, (i < n)%nat -> V i j = (Cconj q * Cconj (V i k))%C) ->
    get_rhoVar n c V (init e w) (init g w) j = get_rhoVar n c V (init e w) (init g w) k.
  Proof.
    intros Hi Hq HV. rewrite !rhoVar_variance.
    etransitivity; [|apply (variance_conj (wpairs w obs) _ (- q)%C); now rewrite Cnorm2_opp].
    apply variance_ext. intros px _. cbv beta. rewrite csumn_conj, <- csumn_scal. apply csumn_ext. intros l Hl.
    rewrite HV by assumption. rewrite !Cconj_mul, !Cconj_conj, helper_imag by assumption. ring.
  Qed.
End Rho.
Lemma paired_VtF n (F : nat -> C) (V : mat) j k q : (forall i, Cconj (F i) = (- F i)%C) -> Cnorm2 q = 1 -> (forall i, (i < n)%nat -> V i j = (Cconj q * Cconj (V i k))%C) ->
  Cnorm2 (apply n (dagger V) F j) = Cnorm2 (apply n (dagger V) F k).
Proof.
  intros HF Hq HV. assert (E : apply n (dagger V) F j = (- q * Cconj (apply n (dagger V) F k))%C).
  { unfold apply, dagger. rewrite csumn_conj, <- csumn_scal. apply csumn_ext. intros l Hl. rewrite HV by assumption.
    rewrite !Cconj_mul, !Cconj_conj, HF. ring. }
  rewrite E, Cnorm2_mul, Cnorm2_conj, Cnorm2_opp, Hq. ring.
Qed.

(** ** the solver *)
Section SolveSpec.
  Variables (n : nat) (ej en : mat -> result ((nat -> R) * mat)) (c : settings).
  Variables (w : layout R) (g : layout (nat -> C)) (e : layout (unit -> C)) (s : R).
  Hypotheses (Hej : solves_eigenproblem n ej) (Hen : solves_eigenproblem n en).
  Hypotheses (Hg : shape_eq g w) (He : shape_eq e w) (Hw : weights_ok (flat w)) (Hs : applied_shift (c_shift c) s).
  Let Sm := fisher (c_imag c) s w g.
  Let F := force (c_imag c) (c_prefactor c) w g e.

  Lemma solve_spec fuel N o o' r : solve n ej en c fuel N o (init e w) (init g w) = (o', Ok r) ->
    exists ev V sp Fm, spectral n Sm ev V /\ (c_imag c = false -> real_matrix n V)
      /\ sp = mk_spectrum ev V (dot n (conj_transpose V) Fm) (get_rhoVar n c V (init e w) (init g w))
                (get_snr N (dot n (conj_transpose V) Fm) (get_rhoVar n c V (init e w) (init g w))) (inv_ev n ev)
      /\ o_sp o' = Some sp /\ (forall k, Fm k = F k) /\ (forall k l, Sm k l = match o_S o' with Some A => A k l | None => C0 end)
      /\ regularise n c fuel sp Fm = Ok r.
  Proof.
    unfold solve. set (q := get_tdvp_equation c o (init e w) (init g w)).
    pose proof (equation_S c w g e s Hg Hw Hs o) as QS. pose proof (equation_F c w g e Hg He Hw o) as QF. fold q in QS, QF.
    destruct q as [o1 [A Fm]]. cbn [fst snd] in QS, QF. fold Sm in QS. fold F in QF.
    destruct (eigenbasis ej en c A) as [[ev V]|x] eqn:EB; [|discriminate]. intros H. inversion H as [[H1 H2]]. clear H.
    assert (SA : same n A Sm) by (intros i j _ _; apply QS).
    assert (HA : hermitian n A). { intros i j Hi Hj. unfold dagger. rewrite !QS. now apply (fisher_hermitian c w g s n). }
    apply (eigenbasis_correct n) in EB; try assumption. destruct EB as [E1 E2].
    exists ev, V. eexists. exists Fm. split; [exact (spectral_same n A Sm ev V SA E1)|]. split.
    { intros Hc. apply E2. intros i j Hi Hj. rewrite QS. unfold Sm. now apply (fisher_real c w g s). }
    split; [reflexivity|]. split; [reflexivity|]. split; [exact QF|]. split; [cbn; intros; symmetry; apply QS|]. reflexivity.
  Qed.

  Variables (fuel : nat) (N : Z) (o o' : tdvp) (u : nat -> R) (res : xreal) (cut : R).
  Hypothesis Hsolve : solve n ej en c fuel N o (init e w) (init g w) = (o', Ok (Some u, res, cut)).

  (** the vector whose real part is returned *)
  Lemma solution_form : exists ev V sp Fm cutoff p, spectral n Sm ev V /\ (c_imag c = false -> real_matrix n V)
    /\ sp = mk_spectrum ev V (dot n (conj_transpose V) Fm) (get_rhoVar n c V (init e w) (init g w))
                (get_snr N (dot n (conj_transpose V) Fm) (get_rhoVar n c V (init e w) (init g w))) (inv_ev n ev)
    /\ (forall k, Fm k = F k)
    /\ (forall k, (k < n)%nat -> pinv_ev n c sp cutoff k = Fin (p k))
    /\ (forall k, u k = Re (apply n V (fun j => (RtoC (p j) * apply n (dagger V) F j)%C) k))
    /\ res = xdiv (len n (fun k => (RtoC (p k * ev k - 1) * apply n (dagger V) F k)%C)) (Fin (len n F)).
  Proof.
    destruct (solve_spec _ _ _ _ _ Hsolve) as (ev & V & sp & Fm & E & EV & Esp & Eo & EF & ES & HR).
    apply regularise_spec in HR. destruct HR as (cutoff & p & P1 & P2 & P3 & P4).
    assert (VF : forall k, dot n (conj_transpose V) Fm k = apply n (dagger V) F k).
    { intros k. unfold dot, conj_transpose, apply, dagger. apply csumn_ext. intros l Hl. now rewrite EF. }
    exists ev, V, sp, Fm, cutoff, p. split; [exact E|]. split; [exact EV|]. split; [exact Esp|]. split; [exact EF|]. split; [exact P1|].
    rewrite Esp in P3, P4. cbn [s_V s_VtF s_ev] in P3, P4. split.
    - intros k. rewrite P3. f_equal. apply apply_ext; [reflexivity|]. intros j Hj. now rewrite VF.
    - rewrite P4. assert (L1 : len n Fm = len n F) by (apply len_ext; auto). rewrite L1. f_equal. apply len_ext. intros k Hk. now rewrite VF.
  Qed.

  Lemma range_ev ev V sp Fm cutoff p : sp = mk_spectrum ev V (dot n (conj_transpose V) Fm) (get_rhoVar n c V (init e w) (init g w))
                (get_snr N (dot n (conj_transpose V) Fm) (get_rhoVar n c V (init e w) (init g w))) (inv_ev n ev) ->
    (forall k, (k < n)%nat -> pinv_ev n c sp cutoff k = Fin (p k)) -> forall k, (k < n)%nat -> 0 <= p k * ev k <= 1 /\ (0 <= ev k -> 0 <= p k).
  Proof.
    intros E H k Hk. specialize (H k Hk). apply pinv_ev_range in H; [|now rewrite E]. rewrite E in H. exact H.
  Qed.

  (** the residual is at most one *)
  Lemma residual_small ev V p : spectral n Sm ev V -> (forall k, (k < n)%nat -> 0 <= p k * ev k <= 1) ->
    len n (fun k => (RtoC (p k * ev k - 1) * apply n (dagger V) F k)%C) <= len n F.
  Proof.
    intros E H. rewrite <- (dagger_len n V (proj1 E) F). unfold len. apply sqrt_le_1_alt. apply rsumn_le. intros k Hk.
    rewrite Cnorm2_mul, Cnorm2_RtoC. specialize (H k Hk). pose proof (Cnorm2_ge (apply n (dagger V) F k)) as M.
    set (a := p k * ev k) in *. set (m := Cnorm2 _) in *. clearbody a m. assert (0 <= a * (2 - a) * m) by (apply Rmult_le_pos; [apply Rmult_le_pos; lra|exact M]). nra.
  Qed.

  Lemma real_residual : c_imag c = false -> nonzero n F ->
    res = Fin (rel_error n Sm (real u) F) /\ rel_error n Sm (real u) F <= 1 /\ 0 <= Re (inner n F (real u)).
  Proof.
    intros Hc HF. destruct solution_form as (ev & V & sp & Fm & cutoff & p & E & EV & Esp & EF & P1 & P3 & P4).
    pose proof (range_ev _ _ _ _ _ _ Esp P1) as PR. pose proof (len_nonzero n F HF) as LF.
    set (x := apply n V (fun j => (RtoC (p j) * apply n (dagger V) F j)%C)) in *.
    assert (XU : forall k, (k < n)%nat -> x k = real u k).
    { intros k Hk. unfold real. rewrite P3. apply (real_solution n F V p (EV Hc)); [|exact Hk]. intros l. now apply (force_real c w g e). }
    assert (RE : rel_error n Sm (real u) F = len n (fun k => (RtoC (p k * ev k - 1) * apply n (dagger V) F k)%C) / len n F).
    { unfold rel_error. rewrite <- (solution_error n Sm F ev V p E). fold x. f_equal. apply len_ext. intros k Hk. unfold minus. f_equal.
      apply apply_ext; [reflexivity|]. intros l Hl. symmetry. now apply XU. }
    split; [|split].
    - rewrite P4, RE. apply xdiv_fin_ok. lra.
    - rewrite RE. apply (Rmult_le_reg_r (len n F)); [exact LF|]. unfold Rdiv. rewrite Rmult_assoc, Rinv_l, Rmult_1_r, Rmult_1_l by lra.
      apply residual_small; [exact E|]. intros k Hk. now apply PR.
    - rewrite (inner_ext n F F (real u) x) by (auto; intros; symmetry; now apply XU). unfold x. rewrite (solution_overlap n F V p).
      cbn [Re RtoC fst]. apply rsumn_nonneg. intros k Hk. apply Rmult_le_pos; [|apply Cnorm2_ge]. apply PR; [exact Hk|].
      apply (eigenvalue_nonneg n Sm ev V E); [|exact Hk]. now apply (fisher_psd c w g s Hg Hw Hs).
  Qed.

  Lemma imag_residual : c_imag c = true -> nonzero n F ->
    (c_exact c = true \/ ((forall p, In p (flat w) -> 0 < p) /\ forall ev V, spectral n Sm ev V -> simple_spectrum n ev)) ->
    res = Fin (rel_error n Sm (real u) F) /\ rel_error n Sm (real u) F <= 1.
  Proof.
    intros Hc HF HX. destruct solution_form as (ev & V & sp & Fm & cutoff & p & E & EV & Esp & EF & P1 & P3 & P4).
    pose proof (range_ev _ _ _ _ _ _ Esp P1) as PR. pose proof (len_nonzero n F HF) as LF.
    assert (IS : forall k l, Cconj (Sm k l) = (- Sm k l)%C) by (intros; now apply (fisher_imag c w g s)).
    assert (IF : forall k, Cconj (F k) = (- F k)%C) by (intros; now apply (force_imag c w g e)).
    assert (SH : hermitian n Sm) by (apply (fisher_hermitian c w g s)).
    set (x := apply n V (fun j => (RtoC (p j) * apply n (dagger V) F j)%C)) in *.
    assert (XU : forall k, (k < n)%nat -> x k = real u k).
    { intros k Hk. unfold real. rewrite P3. refine (imag_solution n Sm F ev V p E IF _ k Hk).
      intros i j Hi Hj HP. pose proof (P_spectrum n Sm ev V E IS SH i j Hi Hj) as PS.
      assert (EE : ev i = - ev j).
      { destruct (Req_EM_T (ev i + ev j) 0); [lra|]. exfalso. apply HP. apply (f_equal Cnorm2) in PS. rewrite Cnorm2_mul, Cnorm2_RtoC, Cnorm2_C0 in PS.
        apply Cnorm2_eq0. apply Rmult_integral in PS. destruct PS as [PS|PS]; [|exact PS]. apply Rmult_integral in PS. tauto. }
      refine (pinv_odd n c sp cutoff i j (p i) (p j) _ _ _ (P1 i Hi) (P1 j Hj)); [now rewrite Esp|now rewrite Esp|].
      destruct HX as [HX|[Hpos HX]]; [now left|]. right. destruct (Req_EM_T (ev j) 0) as [Z|Z]; [left; now rewrite Esp|]. right.
      destruct (simple_pair n Sm F ev V p E IS SH i j (HX ev V E) Hi Hj HP Z) as [N1 CV]. rewrite Esp. cbn [s_snr]. unfold get_snr.
      rewrite (paired_rhoVar n c w g e Hg He Hw Hpos V i j _ Hc N1 CV).
      assert (Q : Cnorm2 (dot n (conj_transpose V) Fm i) = Cnorm2 (dot n (conj_transpose V) Fm j)); [|now rewrite Q].
      refine (paired_VtF n Fm V i j _ _ N1 CV). intros; rewrite !EF; apply IF. }
    assert (RE : rel_error n Sm (real u) F = len n (fun k => (RtoC (p k * ev k - 1) * apply n (dagger V) F k)%C) / len n F).
    { unfold rel_error. rewrite <- (solution_error n Sm F ev V p E). fold x. f_equal. apply len_ext. intros k Hk. unfold minus. f_equal.
      apply apply_ext; [reflexivity|]. intros l Hl. symmetry. now apply XU. }
    split.
    - rewrite P4, RE. apply xdiv_fin_ok. lra.
    - rewrite RE. apply (Rmult_le_reg_r (len n F)); [exact LF|]. unfold Rdiv. rewrite Rmult_assoc, Rinv_l, Rmult_1_r, Rmult_1_l by lra.
      apply residual_small; [exact E|]. intros k Hk. now apply PR.
  Qed.
End SolveSpec.
