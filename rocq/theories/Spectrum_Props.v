(** C96: what the recorded energy and its variance say about the spectrum of the Hamiltonian (tdvp.py,
    sampler.py, operator/, stats.py and the search of util.py together, exact sampler). *)
From Coq Require Import ZArith List Reals Lra Lia Bool Arith.
From Verif Require Import Base Cplx Mpi_Model Stats_Model Stats_Spec Stats_Proofs BranchFree_Model BranchFree_Spec BranchFree_Proofs BranchFree2_Proofs OpBase_Model OpBase_Spec
  Sampler_Spec Sampler2_Proofs Exact_Model Exact_Spec Exact_Proofs Exact_Props Stepper_Model Vqs_Model Tdvp_Model Tdvp_Spec Tdvp_Proofs Tdvp2_Proofs Tdvp3_Proofs Tdvp4_Proofs Tdvp5_Proofs Tdvp6_Proofs Tdvp7_Proofs Tdvp_Props
  Gs_Model Gs_Spec Gs_Proofs Gs_Props Vmc_Model Vmc_Spec Vmc_Proofs Vmc2_Proofs Vmc3_Proofs Vmc_Props Ehren_Spec Ehren_Proofs Ehren_Props Spectrum_Spec Spectrum_Proofs Spectral_Proofs.
Import ListNotations.
Local Open Scope R_scope.

(** Every Hermitian operator on the basis has a complete system of eigenvectors. *)
Theorem C96_spectrum d N (O : wavefun -> wavefun) : hermitian_on (all_configs d N) O -> exists es, eigensystem (all_configs d N) O es.
Proof. intros Hh. apply spectral; [apply NoDup_all_configs|exact Hh]. Qed.
Print Assumptions C96_spectrum.

Section Measured.
Variables (lDim : Z) (N : nat) (commSize devices : Z).
Hypothesis Hl : (0 < lDim)%Z.
Hypothesis HN : (0 < N)%nat.
Hypothesis Hc : (0 < commSize <= lDim ^ Z.of_nat N)%Z.
Hypothesis Hd : (0 < devices)%Z.
Hypothesis He : complete_enumeration N lDim commSize devices.
Context {A : Type}.
(** the Hamiltonian *)
Variables (sts : list (ostring A)) (args : list A) (vals : list C) (bs : nat).
Hypothesis Hw : Forall (wf_string (Z.to_nat lDim) N) sts.
Hypothesis Hp : Forall2 (prefactor_is args) sts vals.
Hypothesis Hclean : forall s els, wf_config (Z.to_nat lDim) N s -> operator_elements (Z.to_nat lDim) N (map to_opstr sts) args s = Ok els -> clean els.
Let basis := all_configs (Z.to_nat lDim) N.
Let H := apply_strings sts vals.
Hypothesis Hh : hermitian_on basis H.

Lemma observed lastNorm lp o : energy_obs lDim N commSize devices lastNorm lp (map to_opstr sts) args bs = Ok o ->
  0 < norm2 basis (fun s => Cexp (lp s)) /\ mean o tt = expectation basis H (fun s => Cexp (lp s)) /\ var o tt = spread basis H (fun s => Cexp (lp s)).
Proof.
  intros E. split; [apply norm2_pos; [|intros; apply Cexp_neq0]|].
  - destruct Hc. exact (basis_ne lDim N commSize devices Hl HN (proj1 (enumerates_iff N lDim commSize devices Hl ltac:(lia) Hd) He)).
  - destruct (C70_expectation_partial lDim N commSize devices lastNorm lp sts args vals bs Hl HN Hc Hd He Hw Hp Hclean) as (o' & E' & M & V & _). cbv zeta in *. rewrite E in E'. injection E' as <-. now split.
Qed.

(** The energy is real and lies between two eigenvalues, so that it is never below the ground state
    energy; and some eigenvalue is as near as the square root of the variance. *)
Theorem C96_bounds lastNorm lp o : energy_obs lDim N commSize devices lastNorm lp (map to_opstr sts) args bs = Ok o ->
  Im (mean o tt) = 0
  /\ (exists e, eigenvalue basis H e /\ e <= Re (mean o tt)) /\ (exists e, eigenvalue basis H e /\ Re (mean o tt) <= e)
  /\ exists e, eigenvalue basis H e /\ Rabs (e - Re (mean o tt)) <= sqrt (var o tt).
Proof.
  intros E. destruct (observed lastNorm lp o E) as (P & -> & ->). destruct (C96_spectrum (Z.to_nat lDim) N H Hh) as [es Hes]. fold basis in Hes.
  split; [exact (E_real basis H _ Hh P)|]. split; [exact (below_mean basis H es _ Hh Hes P)|]. split; [exact (above_mean basis H es _ Hh Hes P)|].
  destruct (near_mean basis H es _ Hh Hes P) as (e & Q1 & Q2). exists e. split; [exact Q1|]. rewrite <- (sqrt_Rsqr_abs (e - _)). apply sqrt_le_1_alt. exact Q2.
Qed.

(** A measurement of the energy deviates by d or more from the mean with probability at most the
    variance over d^2. *)
Theorem C96_deviation lastNorm lp o es d (sel : R -> bool) : energy_obs lDim N commSize devices lastNorm lp (map to_opstr sts) args bs = Ok o ->
  eigensystem basis H es -> 0 < d -> (forall e, sel e = true -> d <= Rabs (e - Re (mean o tt))) ->
  outcome basis es sel (fun s => Cexp (lp s)) <= var o tt / (d * d).
Proof. intros E Hes Hd0 Hs. destruct (observed lastNorm lp o E) as (P & M & ->). rewrite M in Hs. exact (far basis H es _ Hh Hes P d sel Hd0 Hs). Qed.

(** Let e0 be the ground state energy and let all other eigenvalues be at least e1.  If the energy is
    below e1 the ground state energy is known within var / (e1 - E), and the probability to find a
    ground state is at least (e1 - E) / (e1 - e0). *)
Theorem C96_ground lastNorm lp o e0 e1 : energy_obs lDim N commSize devices lastNorm lp (map to_opstr sts) args bs = Ok o ->
  (forall e, eigenvalue basis H e -> e = e0 \/ e1 <= e) -> e0 < e1 ->
  e0 <= Re (mean o tt)
  /\ (Re (mean o tt) < e1 -> Re (mean o tt) - var o tt / (e1 - Re (mean o tt)) <= e0)
  /\ forall es, eigensystem basis H es ->
     (e1 - Re (mean o tt)) / (e1 - e0) <= outcome basis es (fun e => if Req_EM_T e e0 then true else false) (fun s => Cexp (lp s)).
Proof.
  intros E Hg Hlt. destruct (observed lastNorm lp o E) as (P & -> & ->). destruct (C96_spectrum (Z.to_nat lDim) N H Hh) as [es Hes]. fold basis in Hes.
  split; [|split].
  - destruct (below_mean basis H es _ Hh Hes P) as (e & Q1 & Q2). destruct (Hg e Q1); lra.
  - intros HE. apply (temple basis H es _ Hh Hes P e0 e1); [|exact Hlt|exact HE]. intros e v Hin. destruct (Hg e (is_eigenvalue basis H es Hes e v Hin)) as [->|Q]; [now left|right; lra].
  - intros es' Hes'. apply (ground_weight basis H es' _ Hh Hes' P e0 e1); [exact Hlt|]. intros e v Hin. destruct (Hg e (is_eigenvalue basis H es' Hes' e v Hin)) as [->|Q].
    + split; [lra|]. destruct (Req_EM_T e0 e0); [discriminate|contradiction].
    + split; [lra|]. intros _. exact Q.
Qed.

(** *** the search *)
Context {Cfg Obs : Type}.
(** log-amplitudes and their derivatives as functions of n parameters *)
Variables (n : nat) (lp : list R -> config -> C) (g : list R -> config -> nat -> C).
Variables (ej en : (nat -> nat -> C) -> result ((nat -> R) * (nat -> nat -> C))) (c : option R -> settings) (smp : sampler).
Variables (draw : nqs -> result (Cfg * layout R)) (markov : tree * nat -> result Cfg) (coeffs : nqs -> Cfg -> result (Cfg * layout R))
  (oloc : nqs -> Cfg -> R -> result (layout (unit -> C))) (grads : nqs -> Cfg -> result (layout (nat -> C))) (fuel : nat).

(** [rhs] calls a TDVP object at the parameters p; sampler, local energies and gradients see the
    network with these parameters and the whole basis *)
Definition calls_tdvp (rhs : world -> option R -> list R -> result (list R * world)) : Prop :=
  forall w sh p u w', rhs w sh p = Ok (u, w') -> exists q0 q1 cfg e lastNorm u',
    tdvp_call n ej en (c sh) smp draw markov coeffs oloc grads fuel (mk_world q0 (w_obj w) (w_glob w)) (PVec p) 0 (Some 0%nat) = (w', Ok (Some u'))
    /\ u = map u' (seq 0 n)
    /\ set_parameters q0 (PVec p) = Ok q1
    /\ snd (do_sample smp draw markov coeffs q1) = Ok (cfg, probs lDim N commSize devices lastNorm (lp p))
    /\ local_energies lDim N commSize devices (lp p) (map to_opstr sts) args bs = Ok e /\ oloc q1 cfg 0 = Ok (lmap (fun x (_ : unit) => x) e)
    /\ grads q1 cfg = Ok (lmap (g p) (configs lDim N commSize devices)).

Lemma call_records rhs w sh p u w' : calls_tdvp rhs -> rhs w sh p = Ok (u, w') ->
  let phi := fun s => Cexp (lp p s) in o_mean0 (w_obj w') = Some (expectation basis H phi) /\ o_var0 (w_obj w') = Some (spread basis H phi) /\ 0 < norm2 basis phi.
Proof.
  intros HT HR phi. destruct (HT w sh p u w' HR) as (q0 & q1 & cfg & e & lastNorm & u' & T & _ & E1 & E2 & E3 & E4 & E5).
  assert (EO : energy_obs lDim N commSize devices lastNorm (lp p) (map to_opstr sts) args bs = Ok (init (lmap (fun x (_ : unit) => x) e) (probs lDim N commSize devices lastNorm (lp p)))) by (unfold energy_obs; rewrite E3; reflexivity).
  destruct (observed lastNorm (lp p) _ EO) as (P & M & V).
  apply call_ok in T as (q1' & configs' & p' & eloc' & g' & o1 & u'' & res & cut & F1 & F2 & F3 & F4 & F5 & F6 & F7 & F8). cbn [w_psi w_obj w_glob] in *.
  rewrite E1 in F1. injection F1 as <-. rewrite E2 in F2. injection F2 as <- <-. rewrite E4 in F3. injection F3 as <-. rewrite E5 in F4. injection F4 as <-.
  pose proof (solve_stores _ _ _ _ _ _ _ _ _ _ _ F5) as (T1 & _ & _).
  apply (record_ok _ _ _ _ _ _ _ _ _ _ _ _ _ _ _ F5) in F8 as (_ & _ & _ & _ & q & sp & m' & A4 & A5 & A6 & A7 & _).
  rewrite A4 in T1. unfold get_tdvp_equation in T1. cbn [fst o_eq] in T1. injection T1 as ->. cbn [e_mean e_var] in A6, A7. rewrite A6, A7. split; [f_equal; exact M|]. split; [f_equal; exact V|exact P].
Qed.

(** If the search stops because of the variance (after k steps, 0 < k < numSteps) the energy it reports
    is at least the ground state energy and within the square root of varianceTol of an eigenvalue.
    Energy and variance belong to the parameters y before the last step. *)
Theorem C96_search rhs (variance : world -> R) (measure : world -> list R -> result (Obs * world)) damped write numSteps tol h shift w0 p0 k s' :
  calls_tdvp rhs -> (forall w v, o_var0 (w_obj w) = Some v -> variance w = v) -> (forall w p o w', measure w p = Ok (o, w') -> w_obj w' = w_obj w) ->
  ground_state_search rhs variance measure damped write numSteps tol h shift w0 p0 = Ok (k, s') -> (0 < k < numSteps)%nat ->
  exists y u E v, Gs_Spec.moved h y u (gs_params s')
    /\ E = Re (expectation basis H (fun s => Cexp (lp y s))) /\ v = spread basis H (fun s => Cexp (lp y s))
    /\ o_mean0 (w_obj (gs_world s')) = Some (RtoC E) /\ o_var0 (w_obj (gs_world s')) = Some v /\ v <= tol
    /\ (exists e, eigenvalue basis H e /\ e <= E)
    /\ exists e, eigenvalue basis H e /\ Rabs (e - E) <= sqrt tol.
Proof.
  intros HT HV HM HS [Hk1 Hk2]. destruct (C61_search_partial _ _ rhs variance measure damped write numSteps tol h shift w0 p0 k s' HS) as (y & w & m & u & RUN & Y0 & Yk & Wk & _ & CR & _ & _).
  specialize (CR Hk2). destruct k as [|k]; [lia|]. cbn [criterion] in CR. destruct RUN as [R1 R2 R3 R4]. specialize (R1 k ltac:(lia)). specialize (R2 k ltac:(lia)).
  destruct (call_records rhs _ _ _ _ _ HT R1) as (M & V & P). set (phi := fun s => Cexp (lp (y k) s)) in *.
  assert (WO : w_obj (gs_world s') = w_obj (m k)).
  { rewrite <- Wk. destruct write; [destruct (R4 eq_refl) as (_ & _ & Q); destruct (Q k ltac:(lia)) as (o & _ & Q2); exact (HM _ _ _ _ Q2)|destruct (R3 eq_refl) as (_ & _ & Q); now rewrite (Q k ltac:(lia))]. }
  rewrite (HV _ _ V) in CR. destruct (C96_spectrum (Z.to_nat lDim) N H Hh) as [es Hes]. fold basis in Hes.
  exists (y k), (u k), (Re (expectation basis H phi)), (spread basis H phi). rewrite <- Yk. split; [exact R2|]. split; [reflexivity|]. split; [reflexivity|]. rewrite WO. split; [|split; [exact V|split; [exact CR|split]]].
  - rewrite M. f_equal. apply C_eq; [reflexivity|exact (E_real basis H phi Hh P)].
  - exact (below_mean basis H es phi Hh Hes P).
  - destruct (near_mean basis H es phi Hh Hes P) as (e & Q1 & Q2). exists e. split; [exact Q1|]. rewrite <- (sqrt_Rsqr_abs (e - _)). apply sqrt_le_1_alt. unfold Rsqr. lra.
Qed.
End Measured.
Print Assumptions C96_bounds.
Print Assumptions C96_deviation.
Print Assumptions C96_ground.
Print Assumptions C96_search.

(** The spin of [C94_case] has mean energy 0 and variance 1 under Sz; its eigenvalues are -1 and 1, and the
    lower bound 0 - 1 / (1 - 0) is exact. *)
Lemma z1_value v s : In s (all_configs 2 1) -> apply_strings z1 [C1] v s = ((if Nat.eqb (nth 0 s 0%nat) 0 then (- C1)%C else C1) * v s)%C.
Proof. intros Hs. unfold apply_strings. cbn [combine map z1 fst snd]. rewrite csum_cons, csum_nil. cbn in Hs. destruct Hs as [<-|[<-|[]]]; cbn -[Cmul Cadd]; ring. Qed.
Lemma z1_eigenvalues e : eigenvalue (all_configs 2 1) (apply_strings z1 [C1]) e -> e = -1 \/ 1 <= e.
Proof.
  intros (v & NZ & EV). destruct (Req_dec e (-1)) as [|N1]; [now left|]. destruct (Req_dec e 1) as [->|N2]; [right; lra|]. exfalso. apply NZ.
  unfold norm2. rewrite <- (rsum_zero (all_configs 2 1)). apply rsum_ext. intros s Hs. specialize (EV s Hs). rewrite z1_value in EV by exact Hs.
  assert (Z : v s = C0); [|rewrite Z; unfold Cnorm2; cbn; ring].
  revert EV. generalize (v s). intros [x y]. destruct (Nat.eqb (nth 0 s 0%nat) 0); intros Q; injection Q as Qx Qy; apply C_eq; cbn.
  - apply (Rmult_eq_reg_l (e + 1)); [|lra]. lra.
  - apply (Rmult_eq_reg_l (e + 1)); [|lra]. lra.
  - apply (Rmult_eq_reg_l (e - 1)); [|lra]. lra.
  - apply (Rmult_eq_reg_l (e - 1)); [|lra]. lra.
Qed.
Example C96_case theta : exists o, energy_obs 2 1 2 1 0 (lpP theta) (map to_opstr z1) [] 0 = Ok o /\ Re (mean o tt) = 0 /\ var o tt = 1
  /\ hermitian_on (all_configs 2 1) (apply_strings z1 [C1]) /\ (forall e, eigenvalue (all_configs 2 1) (apply_strings z1 [C1]) e -> e = -1 \/ 1 <= e)
  /\ eigenvalue (all_configs 2 1) (apply_strings z1 [C1]) (-1).
Proof.
  set (phi := fun s => Cexp (lpP theta s)). eexists. split; [exact (energy_obs_ok 2 1 2 1 0 (lpP theta) ltac:(lia) ltac:(lia) ltac:(lia) ltac:(lia) fitP ltac:(cbn; lia) z1 [] [C1] 0 z1_wf ltac:(repeat constructor) z1_clean)|].
  assert (E0 : forall x, (x < 2)%nat -> (apply_strings z1 [C1] phi [x] / phi [x])%C = (if Nat.eqb x 0 then (- C1)%C else C1)).
  { intros x Hx. assert (P : phi [x] <> C0) by apply Cexp_neq0. rewrite z1_value by (destruct x as [|[|x]]; [left; reflexivity|right; left; reflexivity|lia]). cbn [nth]. destruct (Nat.eqb x 0); field; exact P. }
  split; [|split; [|split; [exact z1_hermitian|split; [exact z1_eigenvalues|]]]].
  - etransitivity; [apply (f_equal Re); exact (mean_of 2 1 2 1 0 (lpP theta) ltac:(lia) ltac:(lia) ltac:(lia) ltac:(lia) fitP (fun s (_ : unit) => (apply_strings z1 [C1] phi s / phi s)%C) tt)|].
    unfold born_list. change (all_configs (Z.to_nat 2) 1) with [[0%nat]; [1%nat]]. cbn [map]. rewrite !phaseP. unfold expect. cbn [map fst snd]. rewrite (E0 0%nat), (E0 1%nat) by lia. cbn [Nat.eqb]. rewrite !csum_cons, csum_nil. cbn. ring.
  - etransitivity; [exact (var_of 2 1 2 1 0 (lpP theta) ltac:(lia) ltac:(lia) ltac:(lia) ltac:(lia) fitP (fun s (_ : unit) => (apply_strings z1 [C1] phi s / phi s)%C) tt)|].
    apply RtoC_inj. rewrite variance_cov by (apply born_total; [discriminate|intros; apply Cexp_neq0]). rewrite bornP. rewrite (E0 0%nat), (E0 1%nat) by lia. cbn [Nat.eqb]. apply C_eq; cbn; field.
  - exists (fun s => if Nat.eqb (nth 0 s 0%nat) 0 then C1 else C0). split.
    + unfold norm2. change (all_configs 2 1) with [[0%nat]; [1%nat]]. cbn [map nth Nat.eqb]. rewrite !rsum_cons, rsum_nil. unfold Cnorm2. cbn. lra.
    + intros s Hs. rewrite z1_value by exact Hs. destruct (Nat.eqb (nth 0 s 0%nat) 0); apply C_eq; cbn; ring.
Qed.

(** A search with the Hamiltonian Sz/2, whose variance is 1/4, and varianceTol 1/2 stops after one step. *)
Definition zh : list (ostring unit) := [(Some (PConst (RtoC (1/2))), [Sz 0])].
Lemma zh_wf : Forall (wf_string 2 1) zh.
Proof. constructor; [|constructor]. split; [|discriminate]. constructor; [|constructor]. apply (wf_2 1 0 NZ). lia. Qed.
Lemma zh_hermitian : hermitian_on (all_configs 2 1) (apply_strings zh [RtoC (1/2)]).
Proof.
  apply strings_hermitian; [apply NoDup_all_configs|intros v [<-|[]]; reflexivity|]. constructor; [|constructor].
  apply (pauli_self_adjoint 1 [(NZ, 0%nat)]); [lia|]. split; repeat constructor; cbn; try lia; try discriminate.
Qed.
Lemma zh_clean s els : wf_config 2 1 s -> operator_elements 2 1 (map to_opstr zh) [] s = Ok els -> clean els.
Proof.
  intros (L & _ & B) E. assert (K : forall m, Cnorm2 m = (1/2) * (1/2) -> m = C0 \/ / 1000000 < Cabs m) by (intros m H; right; unfold Cabs; rewrite H, sqrt_square; lra).
  destruct s as [|x [|]]; try discriminate L. pose proof (B x ltac:(now left)). destruct x as [|[|x]]; try lia; cbn in E; inversion E; intros s' m Hin; cbn in Hin;
  repeat (destruct Hin as [Hin|Hin]; [inversion Hin; apply K; unfold Cnorm2; cbn; field|]); destruct Hin.
Qed.
Lemma zh_prefactor : Forall2 (prefactor_is []) zh [RtoC (1/2)]. Proof. repeat constructor. Qed.
Lemma localH theta : local_energies 2 1 2 1 (lpP theta) (map to_opstr zh) [] 0 = Ok [[[(- RtoC (1/2))%C]]; [[RtoC (1/2)]]].
Proof.
  rewrite (local_energies_ok 2 1 2 1 (lpP theta) ltac:(lia) ltac:(lia) ltac:(lia) ltac:(lia) fitP ltac:(cbn; lia) zh [] [RtoC (1/2)] 0 zh_wf zh_prefactor zh_clean). f_equal.
  change (configs 2 1 2 1) with [[[[0%nat]]]; [[[1%nat]]]]. unfold lmap. cbn [map].
  set (phi := fun s => Cexp (lpP theta s)).
  assert (E0 : forall x, (x < 2)%nat -> (apply_strings zh [RtoC (1/2)] phi [x] / phi [x])%C = (if Nat.eqb x 0 then (- RtoC (1/2))%C else RtoC (1/2))).
  { intros x Hx. unfold apply_strings. cbn [combine map zh fst snd]. rewrite csum_cons, csum_nil. assert (P : phi [x] <> C0) by apply Cexp_neq0.
    destruct x as [|[|x]]; [| |lia]; cbn -[Cexp lpP Cmul Cadd Cdiv RtoC phi]; field; exact P. }
  rewrite !E0 by lia. reflexivity.
Qed.
Definition lpL (p : list R) : config -> C := lpP (fun _ => nth 0 p 0).
Definition setS (sh : option R) : settings := mk_settings true 2 (/ 10 ^ 14) (/ 10 ^ 8) false Ci (match sh with Some d => d | None => 0 end) false true.
Notation callH fuel sh w p := (tdvp_call 1 eigh1 eigh1 (setS sh) Exact (fun q => Ok (tt, prP (phase_of q))) (fun _ => Ok tt) (fun _ _ => Err AttributeError)
  (fun q _ _ => do e <- local_energies 2 1 2 1 (lpP (phase_of q)) (map to_opstr zh) [] 0; Ok (lmap (fun x (_ : unit) => x) e))
  (fun q _ => Ok (lmap (gP (phase_of q)) (configs 2 1 2 1))) fuel w p 0 (Some 0%nat)).
(** the call with one parameter; updates that are not numbers are left out *)
Definition rhsH (fuel : nat) (w : world) (sh : option R) (p : list R) : result (list R * world) :=
  match p with
  | [x] => match callH fuel sh (mk_world psi1 (w_obj w) (w_glob w)) (PVec [x]) with
           | (w', Ok (Some u)) => Ok (map u (seq 0 1), w')
           | (_, Ok None) => Err ValueError
           | (_, Err e) => Err e
           end
  | _ => Err ValueError
  end.
Definition varianceH (w : world) : R := match o_var0 (w_obj w) with Some v => v | None => 1 end.
Example C96_search_case : exists fuel, calls_tdvp 2 1 2 1 zh [] 0 1 lpL (fun p => gP (fun _ => nth 0 p 0)) eigh1 eigh1 setS Exact
    (fun q => Ok (tt, prP (phase_of q))) (fun _ => Ok tt) (fun _ _ => Err AttributeError)
    (fun q _ _ => do e <- local_energies 2 1 2 1 (lpP (phase_of q)) (map to_opstr zh) [] 0; Ok (lmap (fun x (_ : unit) => x) e))
    (fun q _ => Ok (lmap (gP (phase_of q)) (configs 2 1 2 1))) fuel (rhsH fuel)
  /\ exists s', ground_state_search (rhsH fuel) varianceH (fun w p => Ok (tt, w)) true true 5 (1/2) (1/10) (Some 0) (mk_world psi1 o4 0) [3] = Ok (1%nat, s').
Proof.
  assert (CT : forall fuel, calls_tdvp 2 1 2 1 zh [] 0 1 lpL (fun p => gP (fun _ => nth 0 p 0)) eigh1 eigh1 setS Exact
    (fun q => Ok (tt, prP (phase_of q))) (fun _ => Ok tt) (fun _ _ => Err AttributeError)
    (fun q _ _ => do e <- local_energies 2 1 2 1 (lpP (phase_of q)) (map to_opstr zh) [] 0; Ok (lmap (fun x (_ : unit) => x) e))
    (fun q _ => Ok (lmap (gP (phase_of q)) (configs 2 1 2 1))) fuel (rhsH fuel)).
  { intros fuel w sh p u w' HR. unfold rhsH in HR. destruct p as [|x [|]]; try discriminate HR.
    destruct (callH fuel sh (mk_world psi1 (w_obj w) (w_glob w)) (PVec [x])) as [w'' [[u'|]|]] eqn:HC; try discriminate HR. injection HR as <- <-.
    exists psi1, (set_params psi1 [[(x, 0)]]), tt, [[[(- RtoC (1/2))%C]]; [[RtoC (1/2)]]], 0, u'.
    split; [exact HC|]. split; [reflexivity|]. split; [reflexivity|]. split; [reflexivity|]. split; [apply localH|]. split; [cbv beta; rewrite localH; reflexivity|reflexivity]. }
  assert (P8 : 0 < / 10 ^ 8 < 1/100).
  { split; [apply Rinv_0_lt_compat, pow_lt; lra|]. apply (Rmult_lt_reg_l (10 ^ 8)); [apply pow_lt; lra|]. rewrite Rinv_r by (apply pow_nonzero; lra).
    assert (10 ^ 3 <= 10 ^ 8) by (apply Rle_pow; [lra|lia]). lra. }
  assert (P14 : / 10 ^ 14 < 1).
  { apply (Rmult_lt_reg_l (10 ^ 14)); [apply pow_lt; lra|]. rewrite Rinv_r by (apply pow_nonzero; lra). rewrite Rmult_1_r. apply Rlt_pow_R1; [lra|lia]. }
  set (pr := prP (fun _ => 0)). set (el := [[[(- RtoC (1/2))%C]]; [[RtoC (1/2)]]] : layout C). set (gr := lmap (gP (fun _ => 0)) (configs 2 1 2 1)).
  destruct (C53_partial 1 eigh1 eigh1 (setS (Some 0)) 0 o4 (init (lmap (fun x (_ : unit) => x) el) pr) (init gr pr) eigh1_works P8 P14) as (f & o' & u & res & cut & K1 & _ & _ & K2).
  pose proof (K1 f ltac:(lia)) as K. assert (KU : u <> None).
  { clear K1. pose proof K as K'. unfold solve in K'. destruct (get_tdvp_equation (setS (Some 0)) o4 (init (lmap (fun x (_ : unit) => x) el) pr) (init gr pr)) as [o1 [A F]] eqn:EQ.
    change (eigenbasis eigh1 eigh1 (setS (Some 0)) A) with (Ok (fun _ : nat => Re (A 0%nat 0%nat), fun _ _ : nat => C1)) in K'. cbv beta iota zeta in K'. apply (f_equal fst) in K'. cbn [fst] in K'.
    eapply K2; [rewrite <- K'; reflexivity| |left; reflexivity]. cbn [s_ev Nat.sub]. unfold get_tdvp_equation in EQ. apply (f_equal (fun x => fst (snd x) 0%nat 0%nat)) in EQ. cbn [fst snd] in EQ. rewrite <- EQ.
    destruct (Rlt_dec (/ 10 ^ 10) (c_shift (setS (Some 0)))) as [Hbad|_]; [exfalso; revert Hbad; cbn [setS c_shift]; apply Rle_not_lt; left; apply Rinv_0_lt_compat, pow_lt; lra|].
    unfold gr, pr. rewrite (cov_of 2 1 2 1 0 (lpP (fun _ => 0)) ltac:(lia) ltac:(lia) ltac:(lia) ltac:(lia) fitP (gP (fun _ => 0)) (gP (fun _ => 0))). rewrite bornP. unfold gP. cbn. lra. }
  destruct u as [u|]; [|congruence]. exists f. split; [apply CT|].
  assert (RUN : exists w', callH f (Some 0) (mk_world psi1 o4 0) (PVec [3]) = (w', Ok (Some u))).
  { set (q1 := set_params psi1 [[(3, 0)]]).
    assert (E1 : set_parameters psi1 (PVec [3]) = Ok q1) by reflexivity.
    unfold tdvp_call. cbn [w_psi w_obj w_glob]. rewrite E1. unfold do_sample, sample_exact.
    cbn -[probs local_energies configs lmap solve record_step lpP gP init el pr gr psi1 setS].
    rewrite probsP, localH. cbn -[probs configs lmap solve record_step lpP gP init el pr gr psi1 setS RtoC]. fold el pr. change (lmap (gP (phase_of q1)) (configs 2 1 2 1)) with gr. rewrite K.
    pose proof (solve_stores _ _ _ _ _ _ _ _ _ _ _ K) as (T1 & T2 & T3).
    cbn -[probs configs lmap solve record_step lpP gP init el pr gr setS RtoC].
    destruct (record_step 1 eigh1 eigh1 (setS (Some 0)) f 0 o' (Some u) res cut (init (lmap (fun x (_ : unit) => x) el) pr) (init gr pr)) as [o2 r2] eqn:ER.
    exists (mk_world psi1 o2 0). f_equal. apply (f_equal snd) in ER. cbn [snd] in ER. rewrite <- ER. unfold record_step. rewrite T1. unfold get_tdvp_equation at 1. cbn [fst o_eq]. destruct (o_sp o'); [|congruence]. reflexivity. }
  destruct RUN as [w' RUN]. assert (HR : rhsH f (mk_world psi1 o4 0) (Some 0) [3] = Ok (map u (seq 0 1), w')) by (unfold rhsH; cbn [w_obj w_glob]; rewrite RUN; reflexivity).
  destruct (call_records 2 1 2 1 ltac:(lia) ltac:(lia) ltac:(cbn; lia) ltac:(lia) z1_complete zh [] [RtoC (1/2)] 0 zh_wf zh_prefactor zh_clean 1 lpL _ eigh1 eigh1 setS Exact _ _ _ _ _ f (rhsH f) _ _ _ _ _ (CT f) HR) as (_ & HV & _).
  assert (VV : varianceH w' <= 1/2).
  { unfold varianceH. rewrite HV. set (phi := fun s => Cexp (lpL [3] s)).
    rewrite <- (born_variance (all_configs (Z.to_nat 2) 1) phi (apply_strings zh [RtoC (1/2)]) ltac:(discriminate) ltac:(intros; apply Cexp_neq0)).
    assert (Q : variance (born_list (all_configs (Z.to_nat 2) 1) phi) (fun s => (apply_strings zh [RtoC (1/2)] phi s / phi s)%C) = 1/4); [|lra].
    apply RtoC_inj. rewrite variance_cov by (apply born_total; [discriminate|intros; apply Cexp_neq0]). etransitivity; [exact (bornP (fun _ => nth 0 [3] 0) (fun s => (apply_strings zh [RtoC (1/2)] phi s / phi s)%C) (fun s => (apply_strings zh [RtoC (1/2)] phi s / phi s)%C))|].
    assert (E0 : forall x, (x < 2)%nat -> (apply_strings zh [RtoC (1/2)] phi [x] / phi [x])%C = (if Nat.eqb x 0 then (- RtoC (1/2))%C else RtoC (1/2))).
    { intros x Hx. unfold apply_strings. cbn [combine map zh fst snd]. rewrite csum_cons, csum_nil. assert (P : phi [x] <> C0) by apply Cexp_neq0.
      destruct x as [|[|x]]; [| |lia]; cbn -[Cexp lpP Cmul Cadd Cdiv RtoC phi]; field; exact P. }
    cbv beta. rewrite (E0 0%nat), (E0 1%nat) by lia. cbn [Nat.eqb]. apply C_eq; cbn; field. }
  unfold ground_state_search. cbn [record_obs bind gs_world gs_params gs_shift gs_delta gs_records fst snd app gs_loop].
  destruct (Rlt_dec (1/2) 1) as [_|]; [|lra]. unfold gs_step at 1. cbn [gs_world gs_params gs_shift gs_delta gs_records]. rewrite HR. cbn [bind fst snd gs_world gs_params gs_shift gs_delta gs_records record_obs damp app].
  destruct (Rlt_dec (1/2) (varianceH w')) as [|_]; [lra|]. eexists. reflexivity.
Qed.
