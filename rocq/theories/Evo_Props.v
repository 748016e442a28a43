(** Time evolution with a TDVP object as right hand side (C82). *)
From Coq Require Import List Reals Lra Lia Arith ZArith Bool.
From Verif Require Import Base Cplx Povm_Spec Mpi_Model Stats_Model Stats_Spec Stats_Proofs Sampler_Model Stepper_Model
  Vqs_Model Vqs_Spec Vqs_Proofs Tdvp_Model Tdvp_Spec Tdvp_Proofs Tdvp3_Proofs Tdvp5_Proofs Tdvp6_Proofs Tdvp7_Proofs Tdvp_Props
  Evo_Model Evo_Spec Evo_Proofs Evo2_Proofs Evo3_Proofs Evo4_Proofs.
Import ListNotations.
Local Open Scope R_scope.

(** A new object has nothing to report. *)
Theorem C82_new n v : get_residuals new_tdvp = Err TypeError /\ reported_snr new_tdvp = Err TypeError /\ get_spectrum new_tdvp = Err TypeError
  /\ get_metadata new_tdvp = None /\ get_energy_mean new_tdvp = Err AttributeError /\ get_energy_variance new_tdvp = Err AttributeError
  /\ get_S new_tdvp = Err AttributeError /\ S_dot n new_tdvp v = Err AttributeError.
Proof. repeat split. Qed.
Print Assumptions C82_new.

Section C82.
  Context {Cfg : Type}.
  Variables (n : nat) (ej en : (nat -> nat -> C) -> result ((nat -> R) * (nat -> nat -> C))) (c : settings) (smp : sampler).
  Variables (draw : nqs -> result (Cfg * layout R)) (markov : tree * nat -> result Cfg) (coeffs : nqs -> Cfg -> result (Cfg * layout R)).
  Variables (oloc : nqs -> Cfg -> R -> result (layout (unit -> C))) (grads : nqs -> Cfg -> result (layout (nat -> C))) (fuel : nat).
  Let call := tdvp_call n ej en c smp draw markov coeffs oloc grads fuel.
  Let rhs_w := tdvp_rhs n ej en c smp draw markov coeffs oloc grads fuel.

  (** An evaluation with number 0 that returns stores mean and variance of the local energies of
      the wave function with the given parameters; the other getters then return as well. *)
  Theorem C82_report_partial w P t w' u : call w P t (Some O) = (w', Ok u) ->
    (forall q1 configs p eloc, set_parameters (w_psi w) P = Ok q1 -> snd (do_sample smp draw markov coeffs q1) = Ok (configs, p) -> oloc q1 configs t = Ok eloc ->
       shape_eq eloc p -> weights_ok (flat p) ->
       get_energy_mean (w_obj w') = Ok (Re (expect (wpairs p eloc) (fun s => s tt)))
       /\ get_energy_variance (w_obj w') = Ok (variance (wpairs p eloc) (fun s => s tt)))
    /\ is_ok (get_energy_mean (w_obj w')) = true /\ is_ok (get_energy_variance (w_obj w')) = true /\ is_ok (get_residuals (w_obj w')) = true
    /\ is_ok (reported_snr (w_obj w')) = true /\ is_ok (get_spectrum (w_obj w')) = true
    /\ is_ok (get_S (w_obj w')) = true /\ forall v, is_ok (S_dot n (w_obj w') v) = true.
  Proof.
    intros H. apply call_ok in H as (q1 & configs & p & eloc & g & o1 & u' & res & cut & E1 & E2 & E3 & E4 & E5 & E6 & E7 & E8).
    destruct (record_ok _ _ _ _ _ _ _ _ _ _ _ _ _ _ _ E5 E8) as (-> & T1 & T2 & T3 & q & sp & m & A1 & A2 & A3 & A4 & A5 & _).
    destruct (solve_stores _ _ _ _ _ _ _ _ _ _ _ E5) as (B1 & B2 & B3). split.
    - intros q1' configs' p' eloc' F1 F2 F3 HS HW. rewrite E1 in F1. injection F1 as <-. rewrite E2 in F2. injection F2 as <- <-. rewrite E3 in F3. injection F3 as <-.
      rewrite A1 in B1.
      assert (ME : e_mean q = mean (init eloc p) tt) by (change (e_mean q) with (match Some q with Some q => e_mean q | None => C0 end); now rewrite B1).
      assert (VE : e_var q = var (init eloc p) tt) by (change (e_var q) with (match Some q with Some q => e_var q | None => 0 end); now rewrite B1).
      unfold get_energy_mean, get_energy_variance. rewrite A3, A4, ME, VE, (var_ok eloc p tt HS HW). cbn [attribute bind]. unfold mean. rewrite (init_mean eloc p tt HS). split; reflexivity.
    - unfold get_energy_mean, get_energy_variance, get_residuals, reported_snr, get_spectrum, get_S, S_dot, meta_item. rewrite A3, A4, A5, T1, T2, B1, B2. cbn. repeat split.
  Qed.
  (** All other evaluations, also those that raise, leave the reports alone. *)
  Theorem C82_keeps w P t k : same_reports (w_obj (fst (call w P t (Some (S k))))) (w_obj w) /\ same_reports (w_obj (fst (call w P t None))) (w_obj w).
  Proof.
    assert (A : forall st, st <> Some O -> same_reports (w_obj (fst (call w P t st))) (w_obj w)).
    { intros st HS. pose proof (call_keeps n ej en smp draw markov coeffs oloc grads c fuel w P t st HS) as (A & B & D). fold call in A, B, D.
      unfold same_reports, get_energy_mean, get_energy_variance, get_residuals, reported_snr, get_spectrum, get_metadata, meta_item. rewrite A, B, D. repeat split. }
    split; apply A; discriminate.
  Qed.

  (** A network object [q0] and a value of globNumSamples [z0]: what a new TDVP object returns and stores
      when it is called once. *)
  Variables (q0 : nqs) (z0 : Z).
  Definition once (y : list R) (t : R) (st : option nat) : world * result (option (nat -> R)) := call (mk_world q0 new_tdvp z0) (PVec y) t st.
  (** the time derivative of the parameters *)
  Definition velocity : rhs := fun y t _ => vector_of n (snd (once y t None)).
  (** the worlds that occur: same network with any parameters, same number of samples, any history *)
  Definition started (w : world) : Prop := same_network q0 (w_psi w) /\ good (w_psi w) /\ sample_glob smp (w_glob w) = sample_glob smp z0.

  Definition reports_at (y : list R) (t : R) (w : world) : Prop := same_reports (w_obj w) (w_obj (fst (once y t (Some O)))).
  Definition metric_at (y : list R) (t : R) (w : world) : Prop := same_metric n (w_obj w) (w_obj (fst (once y t None))).

  Hypothesis Hq0 : good q0.

  Lemma rhs_spec q w y t k w' v : w_psi w = q /\ started w -> rhs_w w y t k = (w', Ok v) ->
    (w_psi w' = q /\ started w') /\ v = velocity y t k /\ length v = n /\ metric_at y t w' /\ (k = O -> reports_at y t w')
    /\ (k <> O -> forall y0 t0, reports_at y0 t0 w -> reports_at y0 t0 w').
  Proof.
    intros [Q (S & G & Z)] H. unfold rhs_w, tdvp_rhs in H. fold call in H. destruct (call w (PVec y) t (Some k)) as [w1 r] eqn:HC.
    injection H as -> H. destruct r as [u|]; [|discriminate]. cbn [bind] in H. destruct u as [u|]; [|discriminate]. injection H as <-.
    pose proof (C54_restored_partial n ej en smp draw markov coeffs oloc grads c fuel w (PVec y) t (Some k) w' (Some u) G HC) as EP.
    destruct (call_number n ej en smp draw markov coeffs oloc grads c fuel w y t (Some k) w' (Some u) G HC) as (w2 & C2 & M1 & M2).
    destruct (call_history n ej en smp draw markov coeffs oloc grads c fuel w y t None w2 (Some u) q0 new_tdvp z0 C2 (same_network_sym _ _ S) Hq0 (eq_sym Z)) as (w3 & C3 & M3 & M4 & _).
    assert (EZ : w_glob w' = sample_glob smp (w_glob w)). { apply call_ok in HC as (? & ? & ? & ? & ? & ? & ? & ? & ? & _ & _ & _ & _ & _ & _ & E7 & _). exact E7. }
    split; [|split; [|split; [|split; [|split]]]].
    - split; [congruence|]. unfold started. rewrite EP, EZ, sample_glob_idem. auto.
    - unfold velocity, once, call. rewrite C3. reflexivity.
    - now rewrite map_length, seq_length.
    - unfold metric_at, once, call. rewrite C3. cbn [fst]. unfold same_metric, get_S, S_dot. rewrite M3, M4, M1, M2. split; reflexivity.
    - intros ->. destruct (call_history n ej en smp draw markov coeffs oloc grads c fuel w y t (Some O) w' (Some u) q0 new_tdvp z0 HC (same_network_sym _ _ S) Hq0 (eq_sym Z)) as (w4 & C4 & _ & _ & M5).
      destruct (M5 eq_refl) as (N1 & N2 & N3). unfold reports_at, once, call. rewrite C4. cbn [fst].
      unfold same_reports, get_energy_mean, get_energy_variance, get_residuals, reported_snr, get_spectrum, get_metadata, meta_item. rewrite N1, N2, N3. repeat split.
    - intros HK y0 t0 HR. destruct k as [|k]; [congruence|]. destruct (C82_keeps w (PVec y) t k) as [KK _]. rewrite HC in KK. cbn [fst] in KK.
      unfold reports_at, same_reports in *. intuition congruence.
  Qed.

  (** Steps that return: the wave function is untouched, the step is the integrator's step with the
      time derivative [velocity] of a single evaluation, and energy, residuals, signal-to-noise
      ratio and spectrum are those of the start of the step.  S and S_dot belong to the evaluation
      made last. *)
  Theorem C82_euler_partial dt w t y w' r : started w -> euler_w rhs_w dt w t y = (w', Ok r) ->
    w_psi w' = w_psi w /\ r = euler_step dt velocity t y /\ reports_at y t w' /\ metric_at y t w'.
  Proof.
    intros G H. destruct (euler_generic rhs_w _ velocity reports_at metric_at n (rhs_spec (w_psi w)) dt w t y w' r (conj eq_refl G) H) as ((A & _) & B & D & E & _). auto.
  Qed.
  Theorem C82_heun_partial sdt arg w t y w' r : started w -> heun_w rhs_w sdt arg w t y = (w', Ok r) ->
    w_psi w' = w_psi w /\ r = heun_step sdt arg velocity t y /\ reports_at y t w'
    /\ metric_at (vadd y (vscal (snd r) (velocity y t O))) (t + snd r) w'.
  Proof.
    intros G H. destruct (heun_generic rhs_w _ velocity reports_at metric_at n (rhs_spec (w_psi w)) sdt arg w t y w' r (conj eq_refl G) H) as ((A & _) & B & D & E & _).
    split; [exact A|]. split; [exact B|]. split; [exact D|]. rewrite B at 1 2. exact E.
  Qed.
  (** For AdaptiveHeun, whatever number of attempts was made and whatever the norm depends on.  The
      error of the accepted attempt is measured with the object as it is after the last evaluation
      of that attempt. *)
  Theorem C82_adaptive_partial norm tol maxStep lfuel sdt w t y w' p dt d : started w ->
    adaptive_w rhs_w norm tol maxStep lfuel sdt w t y = (w', Ok ((p, dt), d)) ->
    w_psi w' = w_psi w /\ reports_at y t w' /\ metric_at (last_point velocity t y dt) (t + dt) w'
    /\ p = vadd y (fst (fst (trial velocity (norm w') tol maxStep t y dt)))
    /\ (forall N, (forall w v, norm w v = N v) -> adaptive_step velocity N tol maxStep lfuel sdt t y = Ok ((p, dt), d)).
  Proof.
    intros G H. destruct (adaptive_generic rhs_w _ velocity reports_at metric_at n (rhs_spec (w_psi w)) norm tol maxStep lfuel sdt w t y w' p dt d (conj eq_refl G) H)
      as ((A & _) & B & D & _ & E & F). auto.
  Qed.

  (** ** The loop of the examples *)

  Lemma energy_same y t w : reports_at y t w -> get_energy_mean (w_obj w) = get_energy_mean (w_obj (fst (once y t (Some O)))).
  Proof. intros (A & _). exact A. Qed.

  Lemma evolve_generic {D} (step : D -> world -> R -> list R -> world * result ((list R * R) * D)) (pstep : D -> R -> list R -> result ((list R * R) * D)) clock
      (HS : forall d w t y w' r, started w -> step d w t y = (w', Ok r) ->
            w_psi w' = w_psi w /\ started w' /\ pstep d t y = Ok r /\ reports_at y t w' /\ (length y = n -> length (fst (fst r)) = n)) :
    flat_size q0 = n -> forall steps d w t y w' t' d' es, started w -> get_parameters (w_psi w) = Some y -> length y = n ->
    evolve step clock steps d w t = (w', Ok (t', d', es)) ->
    exists y' ps, started w' /\ get_parameters (w_psi w') = Some y' /\ length y' = n
      /\ trajectory pstep clock steps d t y = Ok (y', t', d', ps)
      /\ es = map (fun p => get_energy_mean (w_obj (fst (once (fst p) (snd p) (Some O))))) ps.
  Proof.
    intros HF. induction steps as [|k IH]; intros d w t y w' t' d' es G HY LY H.
    - cbn in H. injection H as <- <- <- <-. exists y, []. repeat split; auto; apply G.
    - cbn [evolve] in H. rewrite HY in H. apply andthen_ok in H as (w1 & [[dp dt] d1] & E & H).
      destruct (HS _ _ _ _ _ _ G E) as (A & B & P & RP & L). cbn [fst] in L. specialize (L LY).
      destruct B as (B1 & B2 & B3).
      destruct (set_get (w_psi w1) dp) as (q & SG & GG & G1 & G2 & G3 & G4); [apply B2|rewrite L, <- HF; destruct B1 as (_ & U & V & _); unfold flat_size; now rewrite U, V|].
      rewrite SG in H. apply andthen_ok in H as (w2 & [[t2 d2] es2] & E2 & H). injection H as <- <- <- <-. cbn [w_obj] in *.
      destruct (IH _ _ _ dp _ _ _ _ (conj (same_network_trans _ _ _ B1 (set_network _ _ _ SG)) (conj G1 B3) : started (mk_world q (w_obj w1) (w_glob w1))) GG L E2) as (y' & ps & A1 & A2 & A3 & A4 & A5).
      exists y', ((y, clock t) :: ps). split; [exact A1|]. split; [exact A2|]. split; [exact A3|]. cbn [trajectory]. rewrite P. cbn [bind fst snd]. rewrite A4. cbn [bind]. split; [reflexivity|].
      cbn [map fst snd]. rewrite <- A5. f_equal. now apply energy_same.
  Qed.

  (** Repeated steps follow the trajectory of the integrator, and the energy reported after a step is
      that of its start. *)
  Theorem C82_evolve_heun_partial sdt arg clock steps w t y w' t' d' es : flat_size q0 = n -> started w -> get_parameters (w_psi w) = Some y -> length y = n ->
    evolve (fun d w t y => let '(w, r) := heun_w rhs_w sdt arg w t y in (w, do r <- r; Ok (r, d))) clock steps tt w t = (w', Ok (t', d', es)) ->
    exists y' ps, get_parameters (w_psi w') = Some y'
      /\ trajectory (fun d t y => Ok (heun_step sdt arg velocity t y, d)) clock steps tt t y = Ok (y', t', d', ps)
      /\ es = map (fun p => get_energy_mean (w_obj (fst (once (fst p) (snd p) (Some O))))) ps.
  Proof.
    intros HF G HY LY H. set (step := fun (d : unit) w t y => let '(w, r) := heun_w rhs_w sdt arg w t y in (w, do r <- r; Ok (r, d))) in H.
    assert (K : forall d w t y w' r, started w -> step d w t y = (w', Ok r) ->
            w_psi w' = w_psi w /\ started w' /\ Ok (heun_step sdt arg velocity t y, d) = Ok r /\ reports_at y t w' /\ (length y = n -> length (fst (fst r)) = n)).
    { clear w t y w' t' d' es G HY LY H. intros d w t y w' r G H. unfold step in H. destruct (heun_w rhs_w sdt arg w t y) as [w1 [x|]] eqn:E; [|discriminate]. injection H as <- <-.
      destruct (heun_generic rhs_w _ velocity reports_at metric_at n (rhs_spec (w_psi w)) sdt arg w t y w1 x (conj eq_refl G) E) as ((A & A') & B & D & _ & L).
      split; [exact A|]. split; [exact A'|]. split; [now rewrite <- B|]. split; [exact D|]. exact L. }
    destruct (evolve_generic _ (fun d t y => Ok (heun_step sdt arg velocity t y, d)) clock K HF steps tt w t y w' t' d' es G HY LY H) as (y' & ps & A1 & A2 & A3 & A4 & A5). exists y', ps. auto.
  Qed.
  Theorem C82_evolve_adaptive_partial N tol maxStep lfuel clock steps sdt w t y w' t' d' es : flat_size q0 = n -> started w -> get_parameters (w_psi w) = Some y -> length y = n ->
    evolve (adaptive_w rhs_w (fun _ => N) tol maxStep lfuel) clock steps sdt w t = (w', Ok (t', d', es)) ->
    exists y' ps, get_parameters (w_psi w') = Some y'
      /\ trajectory (adaptive_step velocity N tol maxStep lfuel) clock steps sdt t y = Ok (y', t', d', ps)
      /\ es = map (fun p => get_energy_mean (w_obj (fst (once (fst p) (snd p) (Some O))))) ps.
  Proof.
    intros HF G HY LY H.
    assert (K : forall d w t y w' r, started w -> adaptive_w rhs_w (fun _ => N) tol maxStep lfuel d w t y = (w', Ok r) ->
            w_psi w' = w_psi w /\ started w' /\ adaptive_step velocity N tol maxStep lfuel d t y = Ok r /\ reports_at y t w' /\ (length y = n -> length (fst (fst r)) = n)).
    { clear w t y w' t' d' es G HY LY H. intros d w t y w' [[p q] d'] G H.
      destruct (adaptive_generic rhs_w _ velocity reports_at metric_at n (rhs_spec (w_psi w)) (fun _ => N) tol maxStep lfuel d w t y w' p q d' (conj eq_refl G) H)
        as ((A & A') & B & D & L & E & F). split; [exact A|]. split; [exact A'|]. split; [now apply F|]. split; [exact B|]. exact L. }
    destruct (evolve_generic _ _ clock K HF steps sdt w t y w' t' d' es G HY LY H) as (y' & ps & A1 & A2 & A3 & A4 & A5). exists y', ps. auto.
  Qed.

  (** Steps do return, without cross validation, if the equation has a solution everywhere. *)
  Theorem C82_returns w y t sdt arg N tol maxStep lfuel sdx : c_crossVal c = false ->
    (forall y t, length y = n -> exists u, snd (once y t None) = Ok (Some u)) -> started w -> length y = n ->
    (exists w', euler_w rhs_w sdt w t y = (w', Ok (euler_step sdt velocity t y)))
    /\ (exists w', heun_w rhs_w sdt arg w t y = (w', Ok (heun_step sdt arg velocity t y)))
    /\ (exists w', adaptive_w rhs_w (fun _ => N) tol maxStep lfuel sdx w t y = (w', adaptive_step velocity N tol maxStep lfuel sdx t y)).
  Proof.
    intros HC HT G L.
    assert (K : forall w y t k, started w -> length y = n -> exists w', rhs_w w y t k = (w', Ok (velocity y t k)) /\ started w' /\ length (velocity y t k) = n).
    { clear w y t G L. intros w y t k G L. destruct (HT y t L) as [u HU]. destruct (once y t None) as [w1 r] eqn:EO. cbn [snd] in HU. subst r. pose proof EO as EO'. unfold once in EO'.
      pose proof G as (G1 & G2 & G3).
      destruct (call_returns n ej en smp draw markov coeffs oloc grads c fuel (mk_world q0 new_tdvp z0) y t (Some k) w1 (Some u) (w_psi w) (w_obj w) (w_glob w) HC EO' G1 G2 G3) as (w2 & E2 & _).
      assert (EW : mk_world (w_psi w) (w_obj w) (w_glob w) = w) by (destruct w; reflexivity). rewrite EW in E2.
      assert (ER : rhs_w w y t k = (w2, Ok (velocity y t k))).
      { unfold rhs_w, tdvp_rhs. rewrite E2. cbn [bind]. unfold velocity. rewrite EO. reflexivity. }
      destruct (rhs_spec (w_psi w) w y t k w2 (velocity y t k) (conj eq_refl G) ER) as ((_ & A) & _ & B & _). exists w2. auto. }
    destruct (euler_total rhs_w started velocity n K sdt w t y G L) as (w1 & E1 & _).
    destruct (heun_total rhs_w started velocity n K sdt arg w t y G L) as (w2 & E2 & _).
    destruct (adaptive_total rhs_w started velocity n K N tol maxStep lfuel sdx w t y G L) as (w3 & E3 & _). split; [|split]; eauto.
  Qed.
  Theorem C82_evolve_returns sdt arg clock steps w t : c_crossVal c = false -> flat_size q0 = n ->
    (forall y t, length y = n -> exists u, snd (once y t None) = Ok (Some u)) -> started w ->
    exists w' t' es, evolve (fun d w t y => let '(w, r) := heun_w rhs_w sdt arg w t y in (w, do r <- r; Ok (r, d))) clock steps tt w t = (w', Ok (t', tt, es))
      /\ length es = steps.
  Proof.
    intros HC HF HT. revert w t. induction steps as [|k IH]; intros w t G; [exists w, t, []; split; reflexivity|].
    destruct G as (G1 & G2 & G3). destruct (good_get (w_psi w) G2) as [GE GL]. set (y := flatten _ _) in *. cbn [evolve]. rewrite GE.
    assert (FS : flat_size (w_psi w) = n) by (rewrite <- HF; destruct G1 as (_ & U & V & _); unfold flat_size; now rewrite U, V). rewrite FS in GL.
    destruct (C82_returns w y (clock t) sdt arg (fun _ => NaN) 0 0 O NaN HC HT (conj G1 (conj G2 G3)) GL) as (_ & (w1 & E1) & _). rewrite E1. cbn [bind andthen].
    destruct (heun_generic rhs_w _ velocity reports_at metric_at n (rhs_spec (w_psi w)) sdt arg w (clock t) y w1 _ (conj eq_refl (conj G1 (conj G2 G3))) E1) as ((A & B1 & B2 & B3) & _ & _ & _ & L).
    specialize (L GL). destruct (heun_step sdt arg velocity (clock t) y) as [dp dt] eqn:ES. cbn [fst] in L.
    destruct (set_get (w_psi w1) dp) as (q & SG & GG & H1 & _); [apply B2|rewrite A; congruence|]. rewrite SG.
    destruct (IH (mk_world q (w_obj w1) (w_glob w1)) (t + dt) (conj (same_network_trans _ _ _ B1 (set_network _ _ _ SG)) (conj H1 B3) : started (mk_world q (w_obj w1) (w_glob w1))))
      as (w' & t' & es & E & L'). rewrite E. cbn [andthen]. eexists w', t', _. split; [reflexivity|]. cbn [length]. now rewrite L'.
  Qed.
End C82.
Print Assumptions C82_evolve_returns.
(** The trajectory of AdaptiveHeun is what the repeated steps of C51 compute. *)
Theorem C82_trajectory g N tol maxStep fuel steps d t y y' t' d' :
  (exists ps, trajectory (adaptive_step g N tol maxStep fuel) (fun t => t) steps d t y = Ok (y', t', d', ps))
  <-> exists ds, adaptive_run g N tol maxStep fuel steps d t y = Ok (y', t', ds, d').
Proof. apply trajectory_run. Qed.
Print Assumptions C82_returns.
Print Assumptions C82_trajectory.
Print Assumptions C82_report_partial.
Print Assumptions C82_keeps.
Print Assumptions C82_euler_partial.
Print Assumptions C82_heun_partial.
Print Assumptions C82_adaptive_partial.
Print Assumptions C82_evolve_heun_partial.
Print Assumptions C82_evolve_adaptive_partial.

(** ** MinSR *)
Section MinSR.
  Context {Cfg : Type}.
  Variables (n : nat) (pinv : nat -> (nat -> nat -> C) -> nat -> nat -> C) (smp : sampler).
  Variables (draw : nqs -> result (Cfg * layout R)) (markov : tree * nat -> result Cfg) (coeffs : nqs -> Cfg -> result (Cfg * layout R)).
  Variables (oloc : nqs -> Cfg -> R -> result (layout (unit -> C))) (grads : nqs -> Cfg -> result (layout (nat -> C))).
  Let step := minsr_step n pinv smp draw markov coeffs oloc grads.
  (** The update and the wave function do not depend on the number of the evaluation or on the object.
      Evaluation number 0 stores mean and variance of the local energies, the others and those that
      raise keep what is stored. *)
  Theorem C82_minsr q o P t st q' o' r : step q o P t st = ((q', o'), r) ->
    minsr_call n pinv smp draw markov coeffs oloc grads q P t = (q', r)
    /\ (st <> Some O \/ is_ok r = false -> o' = o)
    /\ (st = Some O -> is_ok r = true -> forall q1 configs p eloc, set_parameters q P = Ok q1 -> snd (do_sample smp draw markov coeffs q1) = Ok (configs, p) ->
         oloc q1 configs t = Ok eloc -> shape_eq eloc p -> weights_ok (flat p) ->
         minsr_energy_mean o' = Ok (Re (expect (wpairs p eloc) (fun s => s tt))) /\ minsr_energy_variance o' = Ok (variance (wpairs p eloc) (fun s => s tt))).
  Proof.
    unfold step, minsr_step, minsr_call.
    destruct (set_parameters q P) as [q1|] eqn:E1; [|intros H; injection H as <- <- <-; split; [reflexivity|]; split; [reflexivity|discriminate]].
    pose proof (do_sample_keeps smp draw markov coeffs q1) as K. destruct (do_sample smp draw markov coeffs q1) as [q2 rs] eqn:E2. cbn [fst] in K. subst q2.
    destruct rs as [[configs p]|]; [|intros H; injection H as <- <- <-; split; [reflexivity|]; split; [reflexivity|discriminate]].
    destruct (oloc q1 configs t) as [eloc|] eqn:E3; [|intros H; injection H as <- <- <-; split; [reflexivity|]; split; [reflexivity|discriminate]].
    destruct (grads q1 configs) as [g|]; [|intros H; injection H as <- <- <-; split; [reflexivity|]; split; [reflexivity|discriminate]].
    destruct (restore q1 (get_parameters q)) as [q3|]; [|intros H; injection H as <- <- <-; split; [reflexivity|]; split; [reflexivity|discriminate]].
    destruct st as [[|k]|].
    - intros H. assert (EO : o' = mk_minsr (Some (mean (init eloc p) tt)) (Some (var (init eloc p) tt)) true) by congruence.
      assert (EQ : q' = q3) by congruence. assert (ER : r = Ok (minsr_solve n pinv (init eloc p) (init g p))) by congruence. clear H. subst o' q' r.
      split; [reflexivity|]. split; [intros [X|X]; [now destruct X|discriminate]|].
      intros _ _ q1' c' p' e' F1 F2 F3 HS HW. injection F1 as <-. rewrite E2 in F2. cbn [snd] in F2. injection F2 as <- <-. rewrite E3 in F3. injection F3 as <-.
      unfold minsr_energy_mean, minsr_energy_variance. cbn [ms_mean0 ms_var0 attribute bind]. rewrite (var_ok eloc p tt HS HW). unfold mean. rewrite (init_mean eloc p tt HS). split; reflexivity.
    - intros H. injection H as <- <- <-. split; [reflexivity|]. split; [reflexivity|discriminate].
    - intros H. injection H as <- <- <-. split; [reflexivity|]. split; [reflexivity|discriminate].
  Qed.
End MinSR.
Print Assumptions C82_minsr.

(** ** An evolution with one real parameter; the metric is 3/16 at parameter 5 and 3/4 elsewhere *)
Definition rhs5 (fuel : nat) := tdvp_rhs 1 eigh1 eigh1 c5 Exact (fun _ => Ok (tt, w4)) (fun _ => Ok tt) (fun _ _ => Ok (tt, w4)) (fun _ _ _ => Ok e4) gr5 fuel.
Definition once5 (fuel : nat) := once 1 eigh1 eigh1 c5 Exact (fun _ => Ok (tt, w4)) (fun _ => Ok tt) (fun _ _ => Ok (tt, w4)) (fun _ _ _ => Ok e4) gr5 fuel psi1 4.
Lemma started5 o : started Exact psi1 4 (mk_world psi1 o 4).
Proof. split; [apply same_network_refl|]. split; [exact psi1_good|reflexivity]. Qed.
(** the hypotheses of the theorems hold, steps return, and the parameter moves *)
Example C82_example : exists fuel, good psi1 /\ flat_size psi1 = 1%nat /\ c_crossVal c5 = false /\ started Exact psi1 4 (mk_world psi1 new_tdvp 4)
  /\ (forall y t, length y = 1%nat -> exists u, snd (once5 fuel y t None) = Ok (Some u) /\ u O <> 0)
  /\ (exists w' r, heun_w (rhs5 fuel) 1 None (mk_world psi1 new_tdvp 4) 0 [5] = (w', Ok r))
  /\ (exists w' t' es, evolve (fun d w t y => let '(w, r) := heun_w (rhs5 fuel) 1 None w t y in (w, do r <- r; Ok (r, d))) (fun t => t) 3 tt (mk_world psi1 new_tdvp 4) 0 = (w', Ok (t', tt, es)) /\ length es = 3%nat).
Proof.
  destruct call5_runs as [fuel H]. exists fuel.
  assert (HT : forall y t, length y = 1%nat -> exists u, snd (once5 fuel y t None) = Ok (Some u) /\ u O <> 0).
  { intros [|y [|]] t L; try discriminate. destruct (H y t None new_tdvp) as (w' & u & E & HU & _). exists u. unfold once5, once. fold (call5 fuel). rewrite E. auto. }
  assert (HT' : forall y t, length y = 1%nat -> exists u, snd (once5 fuel y t None) = Ok (Some u)) by (intros y t L; destruct (HT y t L) as (u & A & _); eauto).
  split; [exact psi1_good|]. split; [reflexivity|]. split; [reflexivity|]. split; [apply started5|]. split; [exact HT|]. split.
  - destruct (C82_returns 1 eigh1 eigh1 c5 Exact (fun _ => Ok (tt, w4)) (fun _ => Ok tt) (fun _ _ => Ok (tt, w4)) (fun _ _ _ => Ok e4) gr5 fuel psi1 4 psi1_good
      (mk_world psi1 new_tdvp 4) [5] 0 1 None (fun _ => NaN) 0 0 O NaN eq_refl HT' (started5 new_tdvp) eq_refl) as (_ & (w' & E) & _). eexists w', _. exact E.
  - exact (C82_evolve_returns 1 eigh1 eigh1 c5 Exact (fun _ => Ok (tt, w4)) (fun _ => Ok tt) (fun _ _ => Ok (tt, w4)) (fun _ _ _ => Ok e4) gr5 fuel psi1 4 psi1_good
      1 None (fun t => t) 3 (mk_world psi1 new_tdvp 4) 0 eq_refl eq_refl HT' (started5 new_tdvp)).
Qed.
(** After a step that starts at parameter 5, get_S is not the matrix of parameter 5, although the energies are. *)
Theorem C82_S_refuted : exists fuel w' r, good psi1 /\ started Exact psi1 4 (mk_world psi1 new_tdvp 4)
  /\ heun_w (rhs5 fuel) 1 None (mk_world psi1 new_tdvp 4) 0 [5] = (w', Ok r)
  /\ is_ok (get_S (w_obj w')) = true /\ is_ok (get_S (w_obj (fst (once5 fuel [5] 0 (Some O))))) = true
  /\ get_S (w_obj w') <> get_S (w_obj (fst (once5 fuel [5] 0 (Some O)))).
Proof.
  destruct call5_runs as [fuel H]. exists fuel.
  destruct (H 5 0 (Some O) new_tdvp) as (w1 & u & E & HU & HP & HSa). unfold once5, once. fold (call5 fuel). rewrite E. cbn [fst]. rewrite HSa.
  assert (HG : w_glob w1 = 4%Z). { apply call_ok in E as (? & ? & ? & ? & ? & ? & ? & ? & ? & _ & _ & _ & _ & _ & _ & E7 & _). exact E7. }
  assert (EW : w1 = mk_world psi1 (w_obj w1) 4) by (destruct w1; cbn in *; congruence).
  destruct (H (5 + 1 * u O) (0 + 1) (Some 1%nat) (w_obj w1)) as (w2 & v & E2 & _ & _ & HSb). rewrite <- EW in E2.
  exists w2. eexists. split; [exact psi1_good|]. split; [apply started5|]. split; [|split; [|split; [reflexivity|]]].
  - unfold heun_w, rhs5, tdvp_rhs. fold (call5 fuel). rewrite E. cbn [bind andthen seq map].
    change (vadd [5] (vscal 1 [u O])) with [5 + 1 * u O]. rewrite E2. cbn [bind andthen]. reflexivity.
  - rewrite HSb. reflexivity.
  - rewrite HSb. destruct (Req_EM_T 5 5) as [_|]; [|lra]. destruct (Req_EM_T (5 + 1 * u O) 5) as [X|_]; [exfalso; apply HU; lra|].
    intros X. apply (f_equal (fun r => match r with Ok m => Re (m O O) | Err _ => 0 end)) in X. cbv beta iota in X.
    pose proof (equation_S c5 w4 g4 e4 0 g4_shape w4_ok (shift4 true (/ 10 ^ 14) (/ 10 ^ 8)) new_tdvp 0%nat 0%nat) as QA. change (c_imag c5) with false in QA. rewrite fisher4 in QA.
    pose proof (equation_S c5 w4 g4b e4 0 g4b_shape w4_ok (shift4 true (/ 10 ^ 14) (/ 10 ^ 8)) new_tdvp 0%nat 0%nat) as QB. change (c_imag c5) with false in QB. rewrite fisher4b in QB.
    rewrite QA, QB in X. cbn in X. lra.
Qed.
Print Assumptions C82_S_refuted.
