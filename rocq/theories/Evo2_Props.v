(** What the getters of a TDVP object return after an evaluation (C82, continued). *)
From Coq Require Import List Reals Lra Lia Arith ZArith Bool.
From Verif Require Import Base Cplx Povm_Spec Povm_Proofs Mpi_Model Mpi_Spec Stats_Model Stats_Spec Stats_Proofs Sampler_Model Sampler_Props Stepper_Model
  Vqs_Model Vqs_Spec Vqs_Proofs Tdvp_Model Tdvp_Spec Tdvp_Proofs Tdvp2_Proofs Tdvp3_Proofs Tdvp4_Proofs Tdvp5_Proofs Tdvp6_Proofs Tdvp7_Proofs Tdvp_Props
  Evo_Model Evo_Spec Evo_Proofs Evo2_Proofs Evo3_Proofs Evo4_Proofs Evo_Props.
Import ListNotations.
Local Open Scope R_scope.

Section Values.
  Context {Cfg : Type}.
  Variables (n : nat) (ej en : (nat -> nat -> C) -> result ((nat -> R) * (nat -> nat -> C))) (c : settings) (smp : sampler).
  Variables (draw : nqs -> result (Cfg * layout R)) (markov : tree * nat -> result Cfg) (coeffs : nqs -> Cfg -> result (Cfg * layout R)).
  Variables (oloc : nqs -> Cfg -> R -> result (layout (unit -> C))) (grads : nqs -> Cfg -> result (layout (nat -> C))) (fuel : nat).
  Let call := fun c => tdvp_call n ej en c smp draw markov coeffs oloc grads fuel.
  Variables (w : world) (P : pvalue) (t : R) (w' : world).
  (** weights, local energies and gradients of the samples drawn at the given parameters *)
  Variables (q1 : nqs) (configs : Cfg) (p : layout R) (eloc : layout (unit -> C)) (g : layout (nat -> C)).
  Hypotheses (Eset : set_parameters (w_psi w) P = Ok q1) (Edraw : snd (do_sample smp draw markov coeffs q1) = Ok (configs, p))
             (Eloc : oloc q1 configs t = Ok eloc) (Egrad : grads q1 configs = Ok g).
  Hypotheses (Hg : shape_eq g p) (He : shape_eq eloc p) (Hw : weights_ok (flat p)).

  (** Every evaluation leaves the metric of its samples behind: get_S with the part of the covariances the
      equation uses and the diagonal shift that was set last, S_dot with the covariances themselves. *)
  Theorem C82_metric delta st u s : call (set_diagonal_shift c delta) w P t st = (w', Ok u) -> applied_shift delta s ->
    (exists M, get_S (w_obj w') = Ok M /\ forall k l, M k l = fisher (c_imag c) s p g k l)
    /\ forall v, exists x, S_dot n (w_obj w') v = Ok x /\ forall k, x k = csumn n (fun l => (cov (wpairs p g) (fun s => s k) (fun s => s l) * v l)%C).
  Proof.
    intros H Hs. unfold call in H. set (c' := set_diagonal_shift c delta) in *.
    apply call_ok in H as (q1' & configs' & p' & eloc' & g' & o1 & u' & res & cut & F1 & F2 & F3 & F4 & F5 & F6 & F7 & F8).
    rewrite Eset in F1. injection F1 as <-. rewrite Edraw in F2. injection F2 as <- <-. rewrite Eloc in F3. injection F3 as <-. rewrite Egrad in F4. injection F4 as <-.
    pose proof (solve_stores _ _ _ _ _ _ _ _ _ _ _ F5) as (T1 & T2 & _).
    assert (K : o_eq (w_obj w') = o_eq o1 /\ o_S (w_obj w') = o_S o1).
    { destruct st as [[|k]|]; [|now destruct F8 as [-> _]|now destruct F8 as [-> _]]. apply (record_ok _ _ _ _ _ _ _ _ _ _ _ _ _ _ _ F5) in F8 as (_ & A & B & _). auto. }
    destruct K as [K1 K2]. unfold get_S, S_dot. rewrite K1, K2, T1, T2. cbn [attribute bind get_tdvp_equation fst snd o_eq]. split.
    - eexists. split; [reflexivity|]. intros k l. exact (equation_S c' p g eloc s Hg Hw Hs (w_obj w) k l).
    - intros v. eexists. split; [reflexivity|]. intros k. unfold dot. cbn [e_S0]. apply csumn_ext. intros l _. f_equal. now apply covar_self_ok.
  Qed.

  (** Evaluation number 0: residuals, signal-to-noise ratios and spectrum.  The error is the fraction of the energy variance that
      the update does not account for, the residual the relative error of the solution; the ratios belong to the
      eigenvectors of the eigenvalues in the spectrum, in the same order. *)
  Theorem C82_values_partial u s : call c w P t (Some O) = (w', Ok (Some u)) -> solves_eigenproblem n ej -> solves_eigenproblem n en -> applied_shift (c_shift c) s ->
    let A := fisher (c_imag c) s p g in let F := force (c_imag c) (c_prefactor c) p g eloc in
    let T := wtriples p g eloc in let energy := fun s : (nat -> C) * (unit -> C) => snd s tt in
    exists err res ev V snr, get_residuals (w_obj w') = Ok (err, res) /\ get_spectrum (w_obj w') = Ok ev /\ reported_snr (w_obj w') = Ok snr
    /\ spectral n A ev V
    /\ (Cnorm2 (c_prefactor c) = 1 -> 0 < variance T energy ->
          err = Fin (variance T (fun s => csumn n (fun k => RtoC (u k) * fst s k) + c_prefactor c * energy s)%C / variance T energy))
    /\ (nonzero n F -> c_imag c = false \/ c_exact c = true -> res = Fin (rel_error n A (real u) F))
    /\ (forall N, own_samples smp N -> (forall x, In x (flat p) -> 0 < x) -> forall k, let v := fun i => V i k in let rho := inner n v F in
          let var_rho := force_variance n (c_imag c) (c_prefactor c) p g eloc v in
          0 < var_rho -> exists r, snr k = Fin r /\ 0 <= r /\ r * r * var_rho = IZR N * Cnorm2 rho).
  Proof.
    intros H Hj Hn Hs A F T energy. unfold call in H. pose proof H as H0.
    apply call_ok in H as (q1' & configs' & p' & eloc' & g' & o1 & u' & res & cut & F1 & F2 & F3 & F4 & F5 & F6 & F7 & F8).
    rewrite Eset in F1. injection F1 as <-. rewrite Edraw in F2. injection F2 as <- <-. rewrite Eloc in F3. injection F3 as <-. rewrite Egrad in F4. injection F4 as <-.
    destruct (record_ok _ _ _ _ _ _ _ _ _ _ _ _ _ _ _ F5 F8) as (<- & T1 & T2 & T3 & q & sp & m & A1 & A2 & A3 & A4 & A5 & B1 & B2 & B3 & B4 & B5).
    destruct (solve_spec n ej en c p g eloc s Hj Hn Hg He Hw Hs fuel _ (w_obj w) o1 _ F5) as (ev & V & sp' & Fm & S1 & _ & S3 & S4 & S5 & _).
    rewrite A2 in S4. injection S4 as <-.
    exists (m_error m), (m_residual m), ev, V, (m_snr m). unfold get_residuals, get_spectrum, reported_snr, meta_item. rewrite A5.
    split; [reflexivity|]. split; [rewrite B5, S3; reflexivity|]. split; [reflexivity|]. split; [exact S1|]. split; [|split].
    - intros Hx HV. destruct (C68_recorded n ej en c smp draw markov coeffs oloc grads fuel w P t w' u q1 configs p eloc g H0 Eset Edraw Eloc Egrad Hg He Hw Hx HV) as (m' & M1 & _ & _ & M2).
      rewrite A5 in M1. assert (m' = m) by congruence. subst m'. exact M2.
    - intros HF HC. rewrite B2. unfold A, F. destruct (c_imag c) eqn:Ec.
      + destruct HC as [HC|HC]; [discriminate|]. assert (HF' : nonzero n (force true (c_prefactor c) p g eloc)) by (unfold F in HF; exact HF).
        apply (C52_imag n ej en c p g eloc s fuel _ (w_obj w) o1 u res cut Hj Hn Hg He Hw Hs F5 Ec HF'). now left.
      + assert (HF' : nonzero n (force false (c_prefactor c) p g eloc)) by (unfold F in HF; exact HF).
        apply (C52_real n ej en c p g eloc s fuel _ (w_obj w) o1 u res cut Hj Hn Hg He Hw Hs F5 Ec HF').
    - intros N HN Hp k HV. set (v := fun i => V i k) in *. set (rho := inner n v F). set (var_rho := force_variance n (c_imag c) (c_prefactor c) p g eloc v) in *. rewrite B4, S3. cbn [s_snr]. rewrite (own_glob smp N (w_glob w) HN). unfold get_snr. rewrite rhoVar_spec by assumption. fold v var_rho.
      assert (RH : Cnorm2 (dot n (conj_transpose V) Fm k) = Cnorm2 rho).
      { unfold dot, conj_transpose, rho, inner, v. f_equal. apply csumn_ext. intros i _. now rewrite S5. }
      assert (NP : (0 <= IZR N)).
      { apply IZR_le. rewrite <- (own_glob smp N 0%Z HN). clear - HN. destruct smp as [r cs ns d kk|r cs ns d|]; cbn [own_samples sample_glob] in *; [| |contradiction].
        - destruct HN as (H1 & H2 & H3 & H4 & _). destruct (C30_mcmc_partial ns cs d kk 1 ltac:(lia) H2 H3 H4 ltac:(lia) (Z.divide_1_l kk)) as (G & A & _ & B & _). rewrite A. lia.
        - destruct HN as (H1 & H2 & H3 & _). destruct (C30_gen_partial ns cs d H1 H2 H3) as (G & A & _ & B & _). rewrite A. lia. }
      rewrite RH, xdiv_fin_ok by lra. cbn [xabs xsqrt]. pose proof (Cnorm2_ge rho) as NR.
      assert (Q : 0 <= IZR N * Cnorm2 rho / var_rho).
      { apply Rmult_le_pos; [apply Rmult_le_pos; assumption|]. left. now apply Rinv_0_lt_compat. }
      rewrite (Rabs_pos_eq _ Q). destruct (Rlt_dec _ 0); [lra|]. eexists. split; [reflexivity|]. split; [apply sqrt_pos|]. rewrite sqrt_sqrt by exact Q. field. lra.
  Qed.
End Values.
Print Assumptions C82_metric.
Print Assumptions C82_values_partial.

(** set_cross_validation changes nothing else; evaluations before and after differ in no reported value (C54_crossval). *)
Theorem C82_set_cross_validation c b : with_cv c b = set_cross_validation c b /\ set_diagonal_shift (set_cross_validation c b) (c_shift c) = set_cross_validation c b
  /\ c_crossVal (set_cross_validation c b) = b /\ set_cross_validation (set_cross_validation c b) (c_crossVal c) = c.
Proof. destruct c. repeat split. Qed.
Print Assumptions C82_set_cross_validation.

(** One parameter, four samples, at parameter 5: the values of the hypotheses. *)
Example C82_values_case : exists fuel w' u, call5 fuel (mk_world psi1 new_tdvp 4) (PVec [5]) 0 (Some O) = (w', Ok (Some u))
  /\ set_parameters psi1 (PVec [5]) = Ok (set_params psi1 [[(5, 0)]]) /\ snd (do_sample Exact (fun _ => Ok (tt, w4)) (fun _ => Ok tt) (fun _ _ => Ok (tt, w4)) (set_params psi1 [[(5, 0)]])) = Ok (tt, w4)
  /\ gr5 (set_params psi1 [[(5, 0)]]) tt = Ok g4 /\ shape_eq g4 w4 /\ shape_eq e4 w4 /\ weights_ok (flat w4) /\ solves_eigenproblem 1 eigh1 /\ applied_shift (c_shift c5) 0
  /\ Cnorm2 (c_prefactor c5) = 1 /\ 0 < variance (wtriples w4 g4 e4) (fun s => snd s tt) /\ nonzero 1 (force (c_imag c5) (c_prefactor c5) w4 g4 e4) /\ c_exact c5 = true.
Proof.
  destruct call5_runs as [fuel H]. destruct (H 5 0 (Some O) new_tdvp) as (w' & u & E & _). exists fuel, w', u. split; [exact E|]. split; [reflexivity|]. split; [reflexivity|].
  split; [unfold gr5; cbn [nq_params set_params]; change (Re (entry [[(5, 0)]] 0 0)) with 5; destruct (Req_EM_T 5 5); [reflexivity|lra]|].
  split; [exact g4_shape|]. split; [exact e4_shape|]. split; [exact w4_ok|]. split; [exact eigh1_solves|]. split; [apply shift4|].
  destruct C68_case as (_ & _ & _ & _ & C1' & C2'). split; [exact C1'|]. split; [rewrite C2'; lra|]. split; [|reflexivity].
  exists 0%nat. split; [lia|]. change (c_imag c5) with false. change (c_prefactor c5) with C1. rewrite force4. intros X. injection X. lra.
Qed.
