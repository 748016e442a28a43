(** C52-C56, C68: time-dependent variational principle, stochastic reconfiguration, MinSR. *)
From Coq Require Import List Reals Lra Lia Arith ZArith Bool.
From Verif Require Import Base Cplx Povm_Spec Povm_Proofs Mpi_Model Mpi_Spec Stats_Model Stats_Spec Stats_Proofs Sampler_Model Sampler_Props Stepper_Model
  Vqs_Model Vqs_Spec Vqs_Props Tdvp_Model Tdvp_Spec Tdvp_Proofs Tdvp2_Proofs Tdvp3_Proofs Tdvp4_Proofs Tdvp5_Proofs Tdvp6_Proofs Tdvp7_Proofs.
Import ListNotations.
Local Open Scope R_scope.

(** ** C52 *)

(** q = Re: whatever the settings, the residual is the relative error of the update, at most one,
    and the update does not point against the force. *)
Theorem C52_real n ej en c w g e s fuel N o o' u res cut :
  solves_eigenproblem n ej -> solves_eigenproblem n en -> shape_eq g w -> shape_eq e w -> weights_ok (flat w) -> applied_shift (c_shift c) s ->
  solve n ej en c fuel N o (init e w) (init g w) = (o', Ok (Some u, res, cut)) -> c_imag c = false ->
  let A := fisher false s w g in let F := force false (c_prefactor c) w g e in
  nonzero n F ->
  res = Fin (rel_error n A (real u) F) /\ rel_error n A (real u) F <= 1 /\ 0 <= Re (inner n F (real u)).
Proof.
  intros H1 H2 H3 H4 H5 H6 H7 H8 A F H9. pose proof (real_residual n ej en c w g e s H1 H2 H3 H4 H5 H6 fuel N o o' u res cut H7 H8) as H.
  rewrite H8 in H. apply H. exact H9.
Qed.
Print Assumptions C52_real.

(** q = i Im (real time evolution): exact sampler, or eigenvalues that do not coincide. *)
Theorem C52_imag n ej en c w g e s fuel N o o' u res cut :
  solves_eigenproblem n ej -> solves_eigenproblem n en -> shape_eq g w -> shape_eq e w -> weights_ok (flat w) -> applied_shift (c_shift c) s ->
  solve n ej en c fuel N o (init e w) (init g w) = (o', Ok (Some u, res, cut)) -> c_imag c = true ->
  let A := fisher true s w g in let F := force true (c_prefactor c) w g e in
  nonzero n F ->
  (c_exact c = true \/ ((forall p, In p (flat w) -> 0 < p) /\ forall ev V, spectral n A ev V -> simple_spectrum n ev)) ->
  res = Fin (rel_error n A (real u) F) /\ rel_error n A (real u) F <= 1.
Proof.
  intros H1 H2 H3 H4 H5 H6 H7 H8 A F H9 H10. pose proof (imag_residual n ej en c w g e s H1 H2 H3 H4 H5 H6 fuel N o o' u res cut H7 H8) as H.
  rewrite H8 in H. apply H; assumption.
Qed.
Print Assumptions C52_imag.

(** no force: no update; the residual is 0/0 *)
Theorem C52_zero n ej en c w g e s fuel N o o' u res cut :
  solves_eigenproblem n ej -> solves_eigenproblem n en -> shape_eq g w -> shape_eq e w -> weights_ok (flat w) -> applied_shift (c_shift c) s ->
  solve n ej en c fuel N o (init e w) (init g w) = (o', Ok (Some u, res, cut)) ->
  (forall k, (k < n)%nat -> force (c_imag c) (c_prefactor c) w g e k = C0) -> (forall k, u k = 0) /\ res = NaN.
Proof.
  intros H1 H2 H3 H4 H5 H6 H7 H8.
  destruct (solution_form n ej en c w g e s H1 H2 H3 H4 H5 H6 fuel N o o' u res cut H7) as (ev & V & sp & Fm & cutoff & p & _ & _ & _ & _ & _ & Hu & Hr).
  set (F := force (c_imag c) (c_prefactor c) w g e) in *.
  assert (Z : forall k, apply n (dagger V) F k = C0) by (intros k; unfold apply; apply csumn_zero_; intros j Hj; rewrite H8 by exact Hj; ring).
  split.
  - intros k. rewrite Hu. unfold apply at 1. rewrite csumn_zero_; [reflexivity|]. intros j _. rewrite Z. ring.
  - rewrite Hr. replace (len n F) with 0.
    + unfold xdiv. destruct (Req_EM_T 0 0); [|contradiction]. replace (len n _) with 0; [destruct (Rlt_dec 0 0); [lra|]; destruct (Rlt_dec 0 0); [lra|reflexivity]|].
      unfold len. symmetry. rewrite <- sqrt_0. f_equal. rewrite (rsumn_ext n _ (fun _ => 0 * 0)) by (intros k _; rewrite Z; replace (RtoC (p k * ev k - 1) * C0)%C with C0 by ring; rewrite Cnorm2_C0; ring). rewrite rsumn_scal. ring.
    + unfold len. rewrite <- sqrt_0. f_equal. rewrite (rsumn_ext n _ (fun _ => 0 * 0)) by (intros k Hk; rewrite H8 by exact Hk; rewrite Cnorm2_C0; ring). rewrite rsumn_scal. ring.
Qed.
Print Assumptions C52_zero.

(** ** C53 *)

(** Solvers that find the eigenvalues of every matrix; the one of jax may give up with ValueError. *)
Definition eigh_works (ej en : (nat -> nat -> C) -> result ((nat -> R) * (nat -> nat -> C))) : Prop :=
  (forall A, (exists r, ej A = Ok r) \/ ej A = Err ValueError) /\ forall A, exists r, en A = Ok r.
Lemma works_basis ej en c A : eigh_works ej en -> exists r, eigenbasis ej en c A = Ok r.
Proof. intros [H1 H2]. unfold eigenbasis. destruct (c_onDevice c); [|apply H2]. destruct (H1 A) as [[r ->]| ->]; [eauto|apply H2]. Qed.

(** For 0 < pinvCutoff < 1/100 and pinvTol < 1 the search ends after finitely many steps, above
    pinvCutoff only if the residual is no longer too large; the update is finite unless the largest
    eigenvalue vanishes or a signal-to-noise ratio is 0/0.  Missing: other settings, see below. *)
Theorem C53_partial n ej en c N o E G : eigh_works ej en -> 0 < c_pinvCutoff c < 1/100 -> c_pinvTol c < 1 ->
  exists fuel0 o' u res cut, (forall fuel, (fuel0 <= fuel)%nat -> solve n ej en c fuel N o E G = (o', Ok (u, res, cut)))
    /\ c_pinvCutoff c <= cut < 1/100
    /\ (c_pinvCutoff c < cut -> forall r, res = Fin r -> r <= c_pinvTol c)
    /\ (forall sp, o_sp o' = Some sp -> s_ev sp (n - 1)%nat <> 0 ->
         (c_exact c = true \/ forall k, (k < n)%nat -> s_snr sp k <> NaN /\ (c_snrTol c <> 0 \/ s_snr sp k <> Fin 0)) -> u <> None).
Proof.
  intros HW HC HT. assert (E2 : / 10 ^ 2 = 1/100) by field.
  unfold solve. destruct (get_tdvp_equation c o E G) as [o1 [A F]]. destruct (works_basis ej en c A HW) as [[ev V] HB].
  rewrite HB. set (sp := mk_spectrum ev V _ _ _ _).
  destruct (cutoff_reaches (c_pinvCutoff c) ltac:(lra)) as [M HM].
  destruct (search_terminates n c sp (norm n F) ltac:(lra) M (Fin 1) (/ 10 ^ 2) None HM) as [[[res cut] pv] HR].
  pose proof (search_runs n c M sp (norm n F) _ HT ltac:(lra) HR) as [NN HC2]. cbn [fst snd] in NN, HC2.
  pose proof (search_end n c M sp (norm n F) _ _ _ _ _ _ HR) as (SE1 & SE2 & SE3).
  destruct (search_inv n c M sp (norm n F) _ _ _ _ _ _ (or_introl eq_refl) HR) as [->|[-> HRes]]; [congruence|].
  eexists M, _, _, res, (Rmax cut (c_pinvCutoff c)). split; [|split; [|split]].
  - intros fuel Hf. unfold regularise. rewrite (search_more n c sp (norm n F) M fuel _ _ _ _ Hf HR). cbn [bind]. reflexivity.
  - split; [apply Rmax_r|]. apply Rmax_lub_lt; lra.
  - intros HL r ->. destruct (Rle_dec r (c_pinvTol c)) as [|NL]; [assumption|]. exfalso.
    assert (X : xlt (Fin (c_pinvTol c)) (Fin r) = true) by (cbn; destruct (Rlt_dec (c_pinvTol c) r); [reflexivity|lra]).
    apply SE1 in X. rewrite Rmax_right in HL by exact X. lra.
  - intros sp' Hsp Hev Hx. cbn [o_sp] in Hsp. injection Hsp as <-.
    destruct (finite_update n (pinv_ev n c sp cut)) as [p ->]; [|discriminate].
    intros k Hk. apply pinv_finite; [apply SE3; lra|exact Hev|]. destruct Hx as [Hx|Hx]; [now left|right; now apply Hx].
Qed.
Print Assumptions C53_partial.

(** Settings for which the loop is never entered: the code reads an unassigned variable. *)
Theorem C53_no_iteration n ej en c fuel N o E G : eigh_works ej en -> 1 <= c_pinvTol c \/ 1/100 <= c_pinvCutoff c ->
  snd (solve n ej en c fuel N o E G) = Err UnboundLocalError.
Proof.
  intros HW HC. unfold solve. destruct (get_tdvp_equation c o E G) as [o1 [A F]]. destruct (works_basis ej en c A HW) as [[ev V] HB].
  rewrite HB. cbn [snd]. unfold regularise. assert (E2 : / 10 ^ 2 = 1/100) by field.
  destruct fuel; cbn [search xlt]; (destruct (Rlt_dec (c_pinvTol c) 1), (Rlt_dec (c_pinvCutoff c) (/ 10 ^ 2)); cbn [andb]; try reflexivity; exfalso; lra).
Qed.
Print Assumptions C53_no_iteration.
Lemma eigh1_works : eigh_works eigh1 eigh1.
Proof. split; intros A; [left|]; eexists; reflexivity. Qed.

Theorem C53_no_iteration_refuted : exists c : settings, c_pinvTol c = 1 /\ 0 < c_pinvCutoff c
  /\ (forall A ev V, hermitian 1 A -> eigh1 A = Ok (ev, V) -> spectral 1 A ev V)
  /\ forall fuel N o, snd (solve 1 eigh1 eigh1 c fuel N o (init e4 w4) (init g4 w4)) = Err UnboundLocalError.
Proof.
  exists (set4 true 1 (/ 10 ^ 8)). split; [reflexivity|]. split; [apply Rinv_0_lt_compat, pow_lt; lra|]. split.
  - intros A ev V HA HE. now apply (eigh1_solves A ev V HA HE).
  - intros. apply C53_no_iteration; [exact eigh1_works|]. left. cbn. lra.
Qed.
Print Assumptions C53_no_iteration_refuted.

(** pinvCutoff = 0 with a Monte-Carlo sampler: the signal-to-noise ratio keeps the residual above
    pinvTol, the search never ends. *)
Theorem C53_endless_refuted : exists c : settings, c_exact c = false /\ c_snrTol c = 2 /\ c_pinvTol c = / 10 ^ 14 /\ c_pinvCutoff c = 0
  /\ solves_eigenproblem 1 eigh1 /\ shape_eq g4 w4 /\ shape_eq e4 w4 /\ weights_ok (flat w4)
  /\ forall fuel o, snd (solve 1 eigh1 eigh1 c fuel 4 o (init e4 w4) (init g4 w4)) = Err Diverges.
Proof.
  exists (set4 false (/ 10 ^ 14) 0). do 4 (split; [reflexivity|]). split; [exact eigh1_solves|]. split; [exact g4_shape|]. split; [exact e4_shape|]. split; [exact w4_ok|].
  intros. now apply solve4_endless.
Qed.
Print Assumptions C53_endless_refuted.

(** the hypotheses of C52_real and C53_partial hold in the example, and the update is finite *)
Example C52_case : exists fuel o' u res cut, solve 1 eigh1 eigh1 (set4 true (/ 10 ^ 14) (/ 10 ^ 8)) fuel 4 o4 (init e4 w4) (init g4 w4) = (o', Ok (Some u, res, cut))
  /\ applied_shift (c_shift (set4 true (/ 10 ^ 14) (/ 10 ^ 8))) 0 /\ nonzero 1 (force false C1 w4 g4 e4).
Proof.
  set (c := set4 true (/ 10 ^ 14) (/ 10 ^ 8)).
  assert (P8 : 0 < / 10 ^ 8 < 1/100).
  { split; [apply Rinv_0_lt_compat, pow_lt; lra|]. apply (Rmult_lt_reg_l (10 ^ 8)); [apply pow_lt; lra|]. rewrite Rinv_r by (apply pow_nonzero; lra).
    assert (10 ^ 3 <= 10 ^ 8) by (apply Rle_pow; [lra|lia]). lra. }
  assert (P14 : / 10 ^ 14 < 1).
  { apply (Rmult_lt_reg_l (10 ^ 14)); [apply pow_lt; lra|]. rewrite Rinv_r by (apply pow_nonzero; lra). rewrite Rmult_1_r. apply Rlt_pow_R1; [lra|lia]. }
  destruct (C53_partial 1 eigh1 eigh1 c 4 o4 (init e4 w4) (init g4 w4) eigh1_works P8 P14) as (f & o' & u & res & cut & H1 & _ & _ & H4).
  pose proof (H1 f ltac:(lia)) as H. destruct (spectrum4 true (/ 10 ^ 14) (/ 10 ^ 8) f 4 o4) as (sp & o'' & E & Esp & Eev & _). fold c in E.
  assert (EO : o'' = o') by (rewrite E in H; now injection H). subst o''.
  destruct u as [u|]; [|exfalso; apply (H4 sp Esp); [cbn [Nat.sub]; rewrite Eev; lra|left; reflexivity|reflexivity]].
  exists f, o', u, res, cut. split; [exact H|]. split; [apply shift4|exact force4_nonzero].
Qed.
(** the same data meet the hypotheses of C53_partial *)
Example C53_case : eigh_works eigh1 eigh1 /\ 0 < c_pinvCutoff (set4 true (/ 10 ^ 14) (/ 10 ^ 8)) < 1/100 /\ c_pinvTol (set4 true (/ 10 ^ 14) (/ 10 ^ 8)) < 1
  /\ exists fuel o' u res cut, solve 1 eigh1 eigh1 (set4 true (/ 10 ^ 14) (/ 10 ^ 8)) fuel 4 o4 (init e4 w4) (init g4 w4) = (o', Ok (Some u, res, cut)).
Proof.
  split; [exact eigh1_works|]. split; [|split].
  - cbn [c_pinvCutoff set4]. split; [apply Rinv_0_lt_compat, pow_lt; lra|]. replace (1/100) with (/ 10 ^ 2) by field. apply Rinv_1_lt_contravar; [lra|]. apply Rlt_pow; [lra|lia].
  - cbn [c_pinvTol set4]. rewrite <- Rinv_1. apply Rinv_1_lt_contravar; [lra|]. apply Rlt_pow_R1; [lra|lia].
  - destruct C52_case as (f & o' & u & res & cut & H & _). now exists f, o', u, res, cut.
Qed.
(** a case for C52_imag: two parameters with gradients 1 and i correlate, S_01 = i/4 *)
Definition w2 : layout R := [[[1/2; 1/2]]].
Definition g2 : layout (nat -> C) := [[[fun k => if Nat.eqb k 0 then C1 else Ci; fun _ => C0]]].
Definition e2 : layout (unit -> C) := [[[fun _ => C1; fun _ => C0]]].
Example C52_imag_case : shape_eq g2 w2 /\ shape_eq e2 w2 /\ weights_ok (flat w2)
  /\ fisher true 0 w2 g2 0%nat 1%nat = (Ci * RtoC (1/4))%C /\ nonzero 2 (force true Ci w2 g2 e2).
Proof.
  split; [repeat constructor|]. split; [repeat constructor|]. split.
  - split; [|cbn; lra]. cbn. intros p [<-|[<-|[]]]; lra.
  - split.
    + unfold fisher, part, cov, expect, wpairs. cbn. Cunf. apply C_eq; cbn; lra.
    + exists 0%nat. split; [lia|]. unfold force, part, cov, expect, wtriples. cbn. Cunf. intros H. apply (f_equal Im) in H. cbn in H. lra.
Qed.
Example C52_zero_case : forall k, (k < 1)%nat -> force false C1 w4 g4 [[[fun _ => C1; fun _ => C1; fun _ => C1; fun _ => C1]]] k = C0.
Proof. intros k _. unfold force, part, cov, expect, wtriples. cbn. Cunf. apply C_eq; cbn; lra. Qed.

(** ** C54 *)

Section C54.
  Context {Cfg : Type}.
  Variables (n : nat) (ej en : (nat -> nat -> C) -> result ((nat -> R) * (nat -> nat -> C))) (smp : sampler).
  Variables (draw : nqs -> result (Cfg * layout R)) (markov : tree * nat -> result Cfg) (coeffs : nqs -> Cfg -> result (Cfg * layout R)).
  Variables (oloc : nqs -> Cfg -> R -> result (layout (unit -> C))) (grads : nqs -> Cfg -> result (layout (nat -> C))).

  (** A call that returns leaves the wave function as it was.  Missing: calls that raise. *)
  Theorem C54_restored_partial c fuel w P t st w' u : good (w_psi w) ->
    tdvp_call n ej en c smp draw markov coeffs oloc grads fuel w P t st = (w', Ok u) -> w_psi w' = w_psi w.
  Proof.
    intros HG H. apply call_ok in H as (q1 & configs & p & eloc & g & o1 & u' & res & cut & E1 & _ & _ & _ & _ & E6 & _).
    now apply (set_then_restore _ P q1).
  Qed.
  Theorem C54_minsr_restored_partial pinv q P t q' u : good q ->
    minsr_call n pinv smp draw markov coeffs oloc grads q P t = (q', Ok u) -> q' = q.
  Proof.
    intros HG. unfold minsr_call. destruct (set_parameters q P) as [q1|] eqn:E1; [|discriminate].
    pose proof (do_sample_keeps smp draw markov coeffs q1) as K. destruct (do_sample smp draw markov coeffs q1) as [q2 rs]. cbn [fst] in K. subst q2.
    destruct rs as [[configs p]|]; [|discriminate]. destruct (oloc q1 configs t) as [eloc|]; [|discriminate]. destruct (grads q1 configs) as [g|]; [|discriminate].
    destruct (restore q1 (get_parameters q)) as [q3|] eqn:E6; [|discriminate]. intros H. injection H as <- _. now apply (set_then_restore _ P q1).
  Qed.
  (** Cross validation changes neither the update nor what the object stores about the equation. *)
  Theorem C54_crossval c fuel w P t st w1 u : tdvp_call n ej en (with_cv c true) smp draw markov coeffs oloc grads fuel w P t st = (w1, Ok u) ->
    exists w2, tdvp_call n ej en (with_cv c false) smp draw markov coeffs oloc grads fuel w P t st = (w2, Ok u)
      /\ w_psi w2 = w_psi w1 /\ w_glob w2 = w_glob w1
      /\ o_eq (w_obj w2) = o_eq (w_obj w1) /\ o_S (w_obj w2) = o_S (w_obj w1) /\ o_sp (w_obj w2) = o_sp (w_obj w1)
      /\ o_mean0 (w_obj w2) = o_mean0 (w_obj w1) /\ o_var0 (w_obj w2) = o_var0 (w_obj w1)
      /\ (o_meta (w_obj w2) = o_meta (w_obj w1) \/ exists m1 m2, o_meta (w_obj w1) = Some m1 /\ o_meta (w_obj w2) = Some m2
           /\ m_error m2 = m_error m1 /\ m_residual m2 = m_residual m1 /\ m_cutoff m2 = m_cutoff m1 /\ m_snr m2 = m_snr m1 /\ m_ev m2 = m_ev m1).
  Proof.
    intros H. apply call_ok in H as (q1 & configs & p & eloc & g & o1 & u' & res & cut & E1 & E2 & E3 & E4 & E5 & E6 & E7 & E8).
    assert (EU : u' = u). { destruct st as [[|k]|]; [|now destruct E8|now destruct E8]. apply (record_ok _ _ _ _ _ _ _ _ _ _ _ _ _ _ _ E5) in E8 as [-> _]. reflexivity. }
    subst u'. destruct (call_runs n ej en smp draw markov coeffs oloc grads (with_cv c false) fuel w P t st q1 (w_psi w1) configs p eloc g o1 u res cut E1 E2 E3 E4 E5 E6 eq_refl)
      as (w2 & H2 & P2 & G2).
    exists w2. split; [exact H2|]. split; [exact P2|]. split; [now rewrite G2, E7|].
    apply call_ok in H2 as (q1' & configs' & p' & eloc' & g' & o1' & u2 & res' & cut' & F1 & F2 & F3 & F4 & F5 & F6 & F7 & F8).
    rewrite E1 in F1. injection F1 as <-. rewrite E2 in F2. injection F2 as <- <-. rewrite E3 in F3. injection F3 as <-. rewrite E4 in F4. injection F4 as <-.
    rewrite (solve_cv n ej en c true false) in E5. rewrite E5 in F5. injection F5 as <- <- <- <-.
    rewrite (solve_cv n ej en c false true) in E5. pose proof E5 as E5'. rewrite (solve_cv n ej en c true false) in E5'.
    destruct st as [[|k]|].
    - apply (record_ok _ _ _ _ _ _ _ _ _ _ _ _ _ _ _ E5) in E8 as (_ & A1 & A2 & A3 & q & sp & m & A4 & A5 & A6 & A7 & A8 & A9 & A10 & A11 & A12 & A13).
      apply (record_ok _ _ _ _ _ _ _ _ _ _ _ _ _ _ _ E5') in F8 as (_ & B1 & B2 & B3 & q' & sp' & m' & B4 & B5 & B6 & B7 & B8 & B9 & B10 & B11 & B12 & B13).
      rewrite A4 in B4. injection B4 as <-. rewrite A5 in B5. injection B5 as <-.
      rewrite A1, A2, A3, A6, A7, B1, B2, B3, B6, B7. do 5 (split; [reflexivity|]). right. exists m, m'. split; [exact A8|]. split; [exact B8|].
      rewrite A9, A10, A11, A12, A13, B9, B10, B11, B12, B13. repeat split; reflexivity.
    - destruct E8 as [-> _], F8 as [-> _]. repeat split; try reflexivity. now left.
    - destruct E8 as [-> _], F8 as [-> _]. repeat split; try reflexivity. now left.
  Qed.
End C54.
Print Assumptions C54_restored_partial.
Print Assumptions C54_minsr_restored_partial.
Print Assumptions C54_crossval.

(** a network with one real parameter, the exact sampler and the data of the example *)
Definition psi1 : nqs := mk_nqs true true [1%nat] [[(1, 0)]] 0.
Lemma psi1_good : good psi1.
Proof. split; [reflexivity|]. split; [reflexivity|]. intros _. repeat constructor. Qed.
Definition call4 (c : settings) (oloc : nqs -> unit -> R -> result (layout (unit -> C))) (smp : sampler) :=
  tdvp_call 1 eigh1 eigh1 c smp (fun _ => Ok (tt, w4)) (fun _ => Ok tt) (fun _ _ => Ok (tt, w4)) oloc (fun _ _ => Ok g4).
Lemma call4_runs smp glob : exists fuel w' u, call4 (set4 true (/ 10 ^ 14) (/ 10 ^ 8)) (fun _ _ _ => Ok e4) smp fuel (mk_world psi1 o4 glob) (PVec [5]) 0 (Some O) = (w', Ok u).
Proof.
  set (c := set4 true (/ 10 ^ 14) (/ 10 ^ 8)).
  assert (P8 : 0 < / 10 ^ 8 < 1/100).
  { split; [apply Rinv_0_lt_compat, pow_lt; lra|]. apply (Rmult_lt_reg_l (10 ^ 8)); [apply pow_lt; lra|]. rewrite Rinv_r by (apply pow_nonzero; lra).
    assert (10 ^ 3 <= 10 ^ 8) by (apply Rle_pow; [lra|lia]). lra. }
  assert (P14 : / 10 ^ 14 < 1).
  { apply (Rmult_lt_reg_l (10 ^ 14)); [apply pow_lt; lra|]. rewrite Rinv_r by (apply pow_nonzero; lra). rewrite Rmult_1_r. apply Rlt_pow_R1; [lra|lia]. }
  destruct (C53_partial 1 eigh1 eigh1 c (sample_glob smp glob) o4 (init e4 w4) (init g4 w4) eigh1_works P8 P14) as (f & o' & u & res & cut & H1 & _).
  pose proof (H1 f ltac:(lia)) as H.
  destruct (call_runs 1 eigh1 eigh1 smp (fun _ => Ok (tt, w4)) (fun _ => Ok tt) (fun _ _ => Ok (tt, w4)) (fun _ _ _ => Ok e4) (fun _ _ => Ok g4) c f (mk_world psi1 o4 glob) (PVec [5]) 0 (Some O)
     (set_params psi1 [[(5, 0)]]) psi1 tt w4 e4 g4 o' u res cut) as (w' & HC & _); try reflexivity; [|exact H|].
  - destruct smp; reflexivity.
  - exists f, w', u. exact HC.
Qed.
Example C54_case : exists fuel w' u, good psi1
  /\ call4 (set4 true (/ 10 ^ 14) (/ 10 ^ 8)) (fun _ _ _ => Ok e4) Exact fuel (mk_world psi1 o4 4) (PVec [5]) 0 (Some O) = (w', Ok u)
  /\ set_parameters psi1 (PVec [5]) <> Ok psi1.
Proof.
  destruct (call4_runs Exact 4) as (f & w' & u & H). exists f, w', u. split; [exact psi1_good|]. split; [exact H|]. cbn. intros E. injection E. lra.
Qed.

(** If the Hamiltonian raises, the wave function keeps the parameters of the call. *)
Theorem C54_raises_refuted : exists (w w' : world) (c : settings) oloc P, good (w_psi w)
  /\ (forall fuel st, call4 c oloc Exact fuel w P 0 st = (w', Err (UserError 0)))
  /\ w_psi w' <> w_psi w.
Proof.
  exists (mk_world psi1 o4 4), (mk_world (set_params psi1 [[(5, 0)]]) o4 4), (set4 true (/ 10 ^ 14) (/ 10 ^ 8)), (fun _ _ _ => Err (UserError 0)), (PVec [5]).
  split; [exact psi1_good|]. split; [reflexivity|]. cbn. intros E. injection E. lra.
Qed.
Print Assumptions C54_raises_refuted.

(** ** C55 *)

(** a Gram matrix of N vectors of n entries *)
Definition gram (n N : nat) (A : mat) : Prop := exists O : nat -> nat -> C, forall i j, (i < N)%nat -> (j < N)%nat -> A i j = csumn n (fun k => (O i k * Cconj (O j k))%C).
(** x solves sum_l cov(O_k, O_l) x_l = - cov(O_k, E) *)
Definition normal_equations (n : nat) (w : list (list (list R))) (g : list (list (list (nat -> C)))) (e : list (list (list (unit -> C)))) (x : nat -> C) : Prop :=
  forall k, (k < n)%nat -> csumn n (fun l => (cov (wpairs w g) (fun s => s k) (fun s => s l) * x l)%C)
    = (- cov (wtriples w g e) (fun s => fst s k) (fun s => snd s tt))%C.
Theorem C55_minsr n pinv w g e : (forall N A, gram n N A -> pseudo_inverse N A (pinv N A)) -> shape_eq g w -> shape_eq e w -> weights_ok (flat w) ->
  let x := minsr_solve n pinv (init e w) (init g w) in
  normal_equations n w g e x /\ forall z, normal_equations n w g e z -> len n x <= len n z.
Proof.
  intros HP Hg He Hw x. set (N := length (gathered (init g w))). set (O := fun i k => nth i (gathered (init g w)) (fun _ => C0) k).
  set (ea := fun i => nth i (gathered (init e w)) (fun _ => C0) tt).
  assert (GR : gram n N (tangent_kernel n (init g w))) by (exists O; intros; reflexivity).
  pose proof (HP N (tangent_kernel n (init g w)) GR) as PI.
  assert (EQ : forall z, normal_equations n w g e z <-> forall k, (k < n)%nat -> csumn n (fun l => (csumn N (fun i => (Cconj (O i k) * O i l)%C) * z l)%C) = (- csumn N (fun i => (Cconj (O i k) * ea i)%C))%C).
  { intros z. unfold normal_equations. split; intros H k Hk; specialize (H k Hk).
    - rewrite <- covar_ok, covar_gathered in H by assumption. fold N in H. etransitivity; [|exact H]. apply csumn_ext. intros l _. f_equal. rewrite <- covar_self_ok, covar_gathered by assumption. reflexivity.
    - rewrite <- covar_ok, covar_gathered by assumption. fold N. etransitivity; [|exact H]. apply csumn_ext. intros l _. f_equal. rewrite <- covar_self_ok, covar_gathered by assumption. reflexivity. }
  split.
  - apply EQ. exact (minsr_normal N n O ea _ PI).
  - intros z Hz. exact (minsr_minimal N n O ea _ PI z (proj1 (EQ z) Hz)).
Qed.
Print Assumptions C55_minsr.
Example C55_case : (forall N A, gram 1 N A -> pseudo_inverse N A (pinv1 N A)) /\ cov (wpairs w4 g4) (fun s => s 0%nat) (fun s => s 0%nat) = RtoC (3/16).
Proof.
  split; [|apply cov4_g]. intros N A [O HO]. apply (pinv1_correct N A (fun i => O i 0%nat)). intros i j Hi Hj. rewrite HO by assumption.
  unfold csumn. cbn [seq map]. rewrite csum_cons, csum_nil. ring.
Qed.

(** ** C56 *)

(** number of samples a Monte-Carlo sampler draws on all ranks and devices *)
Definition own_samples (smp : sampler) (N : Z) : Prop :=
  match smp with
  | MCMC _ cs ns d k => (0 < ns)%Z /\ (0 < cs)%Z /\ (0 < d)%Z /\ (0 < k)%Z /\ N = over_ranks cs (fun r => (d * fst (mcmc_counts r cs ns d k 1))%Z)
  | Generative _ cs ns d => (0 < ns)%Z /\ (0 < cs)%Z /\ (0 < d)%Z /\ N = over_ranks cs (fun r => (d * fst (gen_counts r cs ns d 1))%Z)
  | Exact => False
  end.
Lemma own_glob smp N glob : own_samples smp N -> sample_glob smp glob = N.
Proof.
  destruct smp as [r cs ns d k|r cs ns d|]; cbn [own_samples sample_glob]; [| |contradiction].
  - intros (H1 & H2 & H3 & H4 & ->). destruct (C30_mcmc_partial ns cs d k 1 ltac:(lia) H2 H3 H4 ltac:(lia) (Z.divide_1_l k)) as (G & A & B & _). rewrite A, B. reflexivity.
  - intros (H1 & H2 & H3 & ->). destruct (C30_gen_partial ns cs d H1 H2 H3) as (G & A & B & _). rewrite A, B. reflexivity.
Qed.

(** Monte-Carlo samplers: everything but the wave function and the object is irrelevant, and the
    stored ratio is sqrt(N |rho_k|^2 / Var(rho_k)) with the sampler's own number of samples N.
    Missing: ExactSampler. *)
Theorem C56_history_partial {Cfg} n ej en c smp N draw markov coeffs (oloc : nqs -> Cfg -> R -> result (layout (unit -> C))) grads fuel q o hist hist' P t st :
  own_samples smp N ->
  let call := fun h => tdvp_call n ej en c smp draw markov coeffs oloc grads fuel (mk_world q o (fold_left use_glob h 0%Z)) P t st in
  snd (call hist) = snd (call hist') /\ w_obj (fst (call hist)) = w_obj (fst (call hist')) /\ w_psi (fst (call hist)) = w_psi (fst (call hist')).
Proof. intros H call. subst call. cbv beta. unfold tdvp_call. cbn [w_psi w_obj w_glob]. destruct (set_parameters q P); [|repeat split; reflexivity]. destruct smp; [repeat split; reflexivity|repeat split; reflexivity|contradiction]. Qed.
Print Assumptions C56_history_partial.

Theorem C56_snr_partial {Cfg} n ej en c smp N draw markov coeffs (oloc : nqs -> Cfg -> R -> result (layout (unit -> C))) grads fuel w P t st w' u s
    q1 configs p eloc g :
  own_samples smp N -> tdvp_call n ej en c smp draw markov coeffs oloc grads fuel w P t st = (w', Ok u) ->
  solves_eigenproblem n ej -> solves_eigenproblem n en -> applied_shift (c_shift c) s ->
  set_parameters (w_psi w) P = Ok q1 -> snd (do_sample smp draw markov coeffs q1) = Ok (configs, p) -> oloc q1 configs t = Ok eloc -> grads q1 configs = Ok g ->
  shape_eq g p -> shape_eq eloc p -> weights_ok (flat p) -> (forall x, In x (flat p) -> 0 < x) ->
  exists sp V ev, o_sp (w_obj w') = Some sp /\ spectral n (fisher (c_imag c) s p g) ev V
    /\ forall k, let v := fun i => V i k in let rho := inner n v (force (c_imag c) (c_prefactor c) p g eloc) in
         let var_rho := force_variance n (c_imag c) (c_prefactor c) p g eloc v in
         0 < var_rho -> exists r, s_snr sp k = Fin r /\ 0 <= r /\ r * r * var_rho = IZR N * Cnorm2 rho.
Proof.
  intros HN HC Hj Hn Hs E1 E2 E3 E4 Hg He Hw Hp. apply call_ok in HC as (q1' & configs' & p' & eloc' & g' & o1 & u' & res & cut & F1 & F2 & F3 & F4 & F5 & F6 & F7 & F8).
  rewrite E1 in F1. injection F1 as <-. rewrite E2 in F2. injection F2 as <- <-. rewrite E3 in F3. injection F3 as <-. rewrite E4 in F4. injection F4 as <-.
  rewrite (own_glob smp N (w_glob w) HN) in *.
  destruct (solve_spec n ej en c p g eloc s Hj Hn Hg He Hw Hs fuel N (w_obj w) o1 _ F5) as (ev & V & sp & Fm & A1 & _ & A3 & A4 & A5 & _).
  assert (SP : o_sp (w_obj w') = Some sp).
  { destruct st as [[|k]|]; [|now destruct F8 as [-> _]|now destruct F8 as [-> _]]. apply (record_ok _ _ _ _ _ _ _ _ _ _ _ _ _ _ _ F5) in F8 as (_ & _ & _ & -> & _). exact A4. }
  exists sp, V, ev. split; [exact SP|]. split; [exact A1|]. intros k v rho var_rho HV.
  subst sp. cbn [s_snr]. unfold get_snr. rewrite rhoVar_spec by assumption. fold v var_rho.
  assert (RH : Cnorm2 (dot n (conj_transpose V) Fm k) = Cnorm2 rho).
  { unfold dot, conj_transpose, rho, inner, v. f_equal. apply csumn_ext. intros i _. now rewrite A5. }
  assert (NP : (0 <= IZR N)).
  { apply IZR_le. rewrite <- (own_glob smp N 0%Z HN). destruct smp as [r cs ns d kk|r cs ns d|]; cbn [own_samples sample_glob] in *; [| |contradiction].
    - destruct HN as (H1 & H2 & H3 & H4 & _). destruct (C30_mcmc_partial ns cs d kk 1 ltac:(lia) H2 H3 H4 ltac:(lia) (Z.divide_1_l kk)) as (G & A & _ & B & _). rewrite A. lia.
    - destruct HN as (H1 & H2 & H3 & _). destruct (C30_gen_partial ns cs d H1 H2 H3) as (G & A & _ & B & _). rewrite A. lia. }
  rewrite RH, xdiv_fin_ok by lra. cbn [xabs xsqrt]. pose proof (Cnorm2_ge rho) as NR.
  assert (Q : 0 <= IZR N * Cnorm2 rho / var_rho).
  { apply Rmult_le_pos; [apply Rmult_le_pos; assumption|]. left. now apply Rinv_0_lt_compat. }
  rewrite (Rabs_pos_eq _ Q). destruct (Rlt_dec _ 0); [lra|]. eexists. split; [reflexivity|]. split; [apply sqrt_pos|]. rewrite sqrt_sqrt by exact Q. field. lra.
Qed.
Print Assumptions C56_snr_partial.
Example C56_case : exists fuel w' u, own_samples (MCMC 0 1 12 1 1) 12
  /\ call4 (set4 true (/ 10 ^ 14) (/ 10 ^ 8)) (fun _ _ _ => Ok e4) (MCMC 0 1 12 1 1) fuel (mk_world psi1 o4 (fold_left use_glob [NewExact 4; Sample Exact] 0%Z)) (PVec [5]) 0 (Some O) = (w', Ok u)
  /\ 0 < force_variance 1 false C1 w4 g4 e4 (fun _ => C1).
Proof.
  destruct (call4_runs (MCMC 0 1 12 1 1) (fold_left use_glob [NewExact 4; Sample Exact] 0%Z)) as (f & w' & u & H). exists f, w', u.
  split; [cbn [own_samples]; repeat split; reflexivity|]. split; [exact H|]. rewrite force_variance4. lra.
Qed.

(** ExactSampler: the ratio stored by the same call depends on what other samplers did. *)
Theorem C56_exact_refuted : exists c hist hist' fuel w1 w2 u1 u2 sp1 sp2,
  call4 c (fun _ _ _ => Ok e4) Exact fuel (mk_world psi1 o4 (fold_left use_glob hist 0%Z)) (PVec [5]) 0 (Some O) = (w1, Ok u1)
  /\ call4 c (fun _ _ _ => Ok e4) Exact fuel (mk_world psi1 o4 (fold_left use_glob hist' 0%Z)) (PVec [5]) 0 (Some O) = (w2, Ok u2)
  /\ o_sp (w_obj w1) = Some sp1 /\ o_sp (w_obj w2) = Some sp2 /\ s_snr sp1 0%nat = Fin (sqrt 3) /\ s_snr sp2 0%nat = Fin 3.
Proof.
  set (c := set4 true (/ 10 ^ 14) (/ 10 ^ 8)). set (h1 := [NewExact 4]). set (h2 := [NewExact 4; Sample (MCMC 0 1 12 1 1)]).
  assert (P8 : 0 < / 10 ^ 8 < 1/100).
  { split; [apply Rinv_0_lt_compat, pow_lt; lra|]. apply (Rmult_lt_reg_l (10 ^ 8)); [apply pow_lt; lra|]. rewrite Rinv_r by (apply pow_nonzero; lra).
    assert (10 ^ 3 <= 10 ^ 8) by (apply Rle_pow; [lra|lia]). lra. }
  assert (P14 : / 10 ^ 14 < 1).
  { apply (Rmult_lt_reg_l (10 ^ 14)); [apply pow_lt; lra|]. rewrite Rinv_r by (apply pow_nonzero; lra). rewrite Rmult_1_r. apply Rlt_pow_R1; [lra|lia]. }
  destruct (C53_partial 1 eigh1 eigh1 c 4 o4 (init e4 w4) (init g4 w4) eigh1_works P8 P14) as (f1 & o1 & u1 & r1 & c1 & H1 & _).
  destruct (C53_partial 1 eigh1 eigh1 c 12 o4 (init e4 w4) (init g4 w4) eigh1_works P8 P14) as (f2 & o2 & u2 & r2 & c2 & H2 & _).
  set (f := Nat.max f1 f2). specialize (H1 f ltac:(lia)). specialize (H2 f ltac:(lia)).
  assert (RUN : forall glob o u res cut, solve 1 eigh1 eigh1 c f glob o4 (init e4 w4) (init g4 w4) = (o, Ok (u, res, cut)) ->
    exists w' sp, call4 c (fun _ _ _ => Ok e4) Exact f (mk_world psi1 o4 glob) (PVec [5]) 0 (Some O) = (w', Ok u) /\ o_sp (w_obj w') = Some sp
      /\ s_snr sp 0%nat = xsqrt (Fin (Rabs (IZR glob * (9/256) / (3/64))))).
  { intros glob o u res cut HS.
    destruct (call_runs 1 eigh1 eigh1 Exact (fun _ => Ok (tt, w4)) (fun _ => Ok tt) (fun _ _ => Ok (tt, w4)) (fun _ _ _ => Ok e4) (fun _ _ => Ok g4) c f (mk_world psi1 o4 glob) (PVec [5]) 0 (Some O)
       (set_params psi1 [[(5, 0)]]) psi1 tt w4 e4 g4 o u res cut eq_refl eq_refl eq_refl eq_refl HS eq_refl eq_refl) as (w' & HC & _).
    destruct (spectrum4 true (/ 10 ^ 14) (/ 10 ^ 8) f glob o4) as (sp & o'' & E & Esp & _ & _ & _ & Esnr & _). fold c in E.
    assert (EO : o'' = o) by (rewrite E in HS; now injection HS). subst o''.
    exists w', sp. split; [exact HC|]. split; [|exact Esnr].
    apply call_ok in HC as (q1' & configs' & p' & eloc' & g' & o1' & u' & res' & cut' & F1 & F2 & F3 & F4 & F5 & F6 & F7 & F8).
    cbn in F2. injection F2 as <- <-. injection F3 as <-. injection F4 as <-. cbn [sample_glob w_glob w_obj] in F5, F8. rewrite HS in F5. injection F5 as <- <- <- <-.
    apply (record_ok _ _ _ _ _ _ _ _ _ _ _ _ _ _ _ HS) in F8 as (_ & _ & _ & -> & _). exact Esp. }
  destruct (RUN 4%Z o1 u1 r1 c1 H1) as (w1 & sp1 & A1 & A2 & A3). destruct (RUN 12%Z o2 u2 r2 c2 H2) as (w2 & sp2 & B1 & B2 & B3).
  exists c, h1, h2, f, w1, w2, u1, u2, sp1, sp2. split; [exact A1|]. split; [exact B1|]. split; [exact A2|]. split; [exact B2|]. rewrite A3, B3.
  replace (Rabs (4 * (9/256) / (3/64))) with 3 by (rewrite Rabs_right; [field|lra]).
  replace (Rabs (12 * (9/256) / (3/64))) with (3 * 3) by (rewrite Rabs_right; [field|lra]). cbn [xsqrt].
  destruct (Rlt_dec 3 0); [lra|]. destruct (Rlt_dec (3 * 3) 0); [lra|]. split; [reflexivity|]. f_equal. apply sqrt_square. lra.
Qed.
Print Assumptions C56_exact_refuted.

(** ** C68 *)

(** In the first stage of an integration step the object records energy, variance and the TDVP
    error: the distance, per variance, between the exact motion -x H psi and the one in the manifold. *)
Theorem C68_recorded {Cfg} n ej en c smp draw markov coeffs (oloc : nqs -> Cfg -> R -> result (layout (unit -> C))) grads fuel w P t w' u q1 configs p eloc g :
  tdvp_call n ej en c smp draw markov coeffs oloc grads fuel w P t (Some O) = (w', Ok (Some u)) ->
  set_parameters (w_psi w) P = Ok q1 -> snd (do_sample smp draw markov coeffs q1) = Ok (configs, p) -> oloc q1 configs t = Ok eloc -> grads q1 configs = Ok g ->
  shape_eq g p -> shape_eq eloc p -> weights_ok (flat p) -> Cnorm2 (c_prefactor c) = 1 ->
  let T := wtriples p g eloc in let energy := fun s : (nat -> C) * (unit -> C) => snd s tt in
  0 < variance T energy ->
  exists m, o_meta (w_obj w') = Some m /\ o_mean0 (w_obj w') = Some (expect T energy) /\ o_var0 (w_obj w') = Some (variance T energy)
    /\ m_error m = Fin (variance T (fun s => csumn n (fun k => RtoC (u k) * fst s k) + c_prefactor c * energy s)%C / variance T energy).
Proof.
  intros HC E1 E2 E3 E4 Hg He Hw Hx T energy HV. apply call_ok in HC as (q1' & configs' & p' & eloc' & g' & o1 & u' & res & cut & F1 & F2 & F3 & F4 & F5 & F6 & F7 & F8).
  rewrite E1 in F1. injection F1 as <-. rewrite E2 in F2. injection F2 as <- <-. rewrite E3 in F3. injection F3 as <-. rewrite E4 in F4. injection F4 as <-.
  pose proof (solve_stores _ _ _ _ _ _ _ _ _ _ _ F5) as (T1 & _ & _).
  apply (record_ok _ _ _ _ _ _ _ _ _ _ _ _ _ _ _ F5) in F8 as (<- & _ & _ & _ & q & sp & m & A4 & A5 & A6 & A7 & A8 & A9 & _).
  rewrite A4 in T1. unfold get_tdvp_equation in T1. cbn [fst o_eq] in T1. injection T1 as ->. cbn [e_mean e_var] in *.
  assert (VE : var (init eloc p) tt = variance T energy).
  { rewrite var_ok by assumption. rewrite (wpairs_triples_r p g eloc Hg He). now rewrite variance_map. }
  assert (ME : mean (init eloc p) tt = expect T energy).
  { unfold mean. rewrite init_mean by assumption. rewrite (wpairs_triples_r p g eloc Hg He). now rewrite (expect_map snd). }
  exists m. split; [exact A8|]. split; [rewrite A6; exact (f_equal Some ME)|]. split; [rewrite A7; exact (f_equal Some VE)|]. rewrite A9, VE. unfold tdvp_error. cbn [e_S0 e_F0].
  assert (EV := error_variance n p g eloc (c_prefactor c) u Hg He Hw Hx). fold T in EV. fold energy in EV.
  rewrite xdiv_fin_ok by lra. cbn [xplus1 xabs]. f_equal.
  match goal with |- Rabs (1 + (?a - 2 * ?b) / _) = _ => assert (EA : a - 2 * b = variance T (fun s => csumn n (fun k => RtoC (u k) * fst s k) + c_prefactor c * energy s)%C - variance T energy) end.
  { etransitivity; [|exact EV]. f_equal; [|do 2 f_equal]; [f_equal|]; apply csumn_ext; intros k _; f_equal.
    - unfold dot. apply csumn_ext. intros l _. f_equal. now apply covar_self_ok.
    - f_equal. now apply covar_ok. }
  rewrite EA. replace (1 + _) with (variance T (fun s => csumn n (fun k => RtoC (u k) * fst s k) + c_prefactor c * energy s)%C / variance T energy) by (field; lra).
  apply Rabs_pos_eq. apply Rmult_le_pos; [|left; now apply Rinv_0_lt_compat]. apply variance_nonneg. intros x Hx'. unfold T in Hx'. rewrite weights_triples in Hx' by assumption. now apply Hw.
Qed.
Print Assumptions C68_recorded.
Example C68_case : exists fuel w' u, call4 (set4 true (/ 10 ^ 14) (/ 10 ^ 8)) (fun _ _ _ => Ok e4) Exact fuel (mk_world psi1 o4 4) (PVec [5]) 0 (Some O) = (w', Ok u)
  /\ Cnorm2 (c_prefactor (set4 true (/ 10 ^ 14) (/ 10 ^ 8))) = 1 /\ variance (wtriples w4 g4 e4) (fun s => snd s tt) = 3/16.
Proof.
  destruct (call4_runs Exact 4) as (f & w' & u & H). exists f, w', u. split; [exact H|]. split; [cbn; unfold Cnorm2; cbn; ring|].
  unfold variance, expect, wtriples. cbn. Cunf. cbn. lra.
Qed.
