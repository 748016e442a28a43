(** C97: imaginary time evolution reaches the ground state at a rate the recorded TDVP errors certify
    (tdvp.py, sampler.py, operator/ and stats.py together, exact sampler). *)
From Coq Require Import ZArith List Reals Lra Lia Bool Arith FunctionalExtensionality.
From Verif Require Import Base Cplx Mpi_Model Stats_Model Stats_Spec Stats_Proofs BranchFree_Model BranchFree_Spec BranchFree_Proofs BranchFree2_Proofs OpBase_Model OpBase_Spec
  Sampler_Spec Sampler2_Proofs Exact_Model Exact_Spec Exact_Proofs Exact_Props Stepper_Model Vqs_Model Tdvp_Model Tdvp_Spec Tdvp_Proofs Tdvp2_Proofs Tdvp3_Proofs Tdvp4_Proofs Tdvp5_Proofs Tdvp6_Proofs Tdvp7_Proofs Tdvp_Props
  Vmc_Model Vmc_Spec Vmc_Proofs Vmc2_Proofs Vmc3_Proofs Vmc_Props Ehren_Spec Ehren_Proofs Ehren_Props Spectrum_Spec Spectrum_Proofs Spectral_Proofs Spectrum_Props Descent_Proofs.
Import ListNotations.
Local Open Scope R_scope.

Section Descent.
Variables (lDim : Z) (N : nat) (commSize devices : Z).
Hypothesis Hl : (0 < lDim)%Z.
Hypothesis HN : (0 < N)%nat.
Hypothesis Hc : (0 < commSize <= lDim ^ Z.of_nat N)%Z.
Hypothesis Hd : (0 < devices)%Z.
Hypothesis He : complete_enumeration N lDim commSize devices.
Context {A Cfg : Type}.
(** log-amplitudes and their derivatives as functions of n parameters *)
Variables (n : nat) (lp : (nat -> R) -> config -> C) (g : (nat -> R) -> config -> nat -> C).
(** the Hamiltonian *)
Variables (sts : list (ostring A)) (args : list A) (vals : list C) (bs : nat).
Hypothesis Hw : Forall (wf_string (Z.to_nat lDim) N) sts.
Hypothesis Hp : Forall2 (prefactor_is args) sts vals.
Hypothesis Hclean : forall s els, wf_config (Z.to_nat lDim) N s -> operator_elements (Z.to_nat lDim) N (map to_opstr sts) args s = Ok els -> clean els.
Let basis := all_configs (Z.to_nat lDim) N.
Let H := apply_strings sts vals.
Hypothesis Hh : hermitian_on basis H.
Let phi (theta : nat -> R) : wavefun := fun s => Cexp (lp theta s).
Let energy theta := Re (expectation basis H (phi theta)).

Variables (ej en : (nat -> nat -> C) -> result ((nat -> R) * (nat -> nat -> C))) (c : settings) (smp : sampler).
Variables (draw : nqs -> result (Cfg * layout R)) (markov : tree * nat -> result Cfg) (coeffs : nqs -> Cfg -> result (Cfg * layout R))
  (oloc : nqs -> Cfg -> R -> result (layout (unit -> C))) (grads : nqs -> Cfg -> result (layout (nat -> C))) (fuel : nat).
(** imaginary time: rhsPrefactor = 1 *)
Hypothesis Hx : c_prefactor c = C1.
Let eval := evaluation lDim N commSize devices n lp g sts (fun _ => args) bs ej en c smp draw markov coeffs oloc grads fuel.

Lemma energy_slope theta t u m v : eval t (theta t) u m v -> follows_chain_rule n lp theta u (g (theta t)) t ->
  exists d, derivable_pt_lim (fun t => energy (theta t)) t d
    /\ v = spread basis H (phi (theta t))
    /\ (0 < v -> exists e, m_error m = Fin e /\ 0 <= e /\ - 2 * (1 + sqrt e) * v <= d <= - 2 * (1 - sqrt e) * v)
    /\ (v = 0 -> d = 0).
Proof.
  intros HE HC. pose proof (basis_ne_m lDim N commSize devices Hl HN Hc Hd He) as NE. fold basis in NE.
  assert (PN : forall s, phi (theta t) s <> C0) by (intros; apply Cexp_neq0).
  destruct (evaluation_records lDim N commSize devices Hl HN Hc Hd He n lp g sts (fun _ => args) (fun _ => vals) bs Hw (fun _ => Hp) (fun _ => Hclean) ej en c smp draw markov coeffs oloc grads fuel t (theta t) u m v HE) as [Ev Em].
  { rewrite Hx. unfold Cnorm2. cbn. ring. }
  set (gs := fun s => csumn n (fun k => (g (theta t) s k * RtoC (u k))%C)). set (el := fun s => (H (phi (theta t)) s / phi (theta t) s)%C). set (xs := born_list basis (phi (theta t))).
  exists (2 * Re (cov xs gs el)).
  pose proof (born_total basis (phi (theta t)) NE PN) as TW. pose proof (born_weights_nonneg basis (phi (theta t)) NE PN) as WN. fold xs in TW, WN.
  assert (VE : variance xs el = v) by (rewrite Ev; exact (born_variance basis (phi (theta t)) H NE PN)).
  split; [|split; [exact Ev|split]].
  - refine (energy_deriv basis sts vals (fun t => phi (theta t)) t gs NE PN _ _ Hh).
    + now apply strings_closed.
    + intros s _. exact (cderiv_exp (fun t => lp (theta t) s) t _ (HC s)).
  - intros HV. specialize (Em HV). eexists. split; [exact Em|]. rewrite Hx.
    destruct (slope_bound xs gs el TW WN (variance xs (fun s => (gs s + C1 * el s)%C) / v)) as (Q1 & Q2 & Q3); [rewrite VE; exact HV|now rewrite VE|].
    rewrite VE in Q2, Q3. split; [exact Q1|].
    assert (Q4 : - 2 * (1 + sqrt (variance xs (fun s => (gs s + C1 * el s)%C) / v)) * v <= 2 * Re (cov xs gs el) <= - 2 * (1 - sqrt (variance xs (fun s => (gs s + C1 * el s)%C) / v)) * v) by lra. exact Q4.
  - intros HV. rewrite (slope_zero xs gs el TW WN); [ring|]. rewrite VE. exact HV.
Qed.

(** At each call: the parameters move with the returned velocity.  The rate of the energy is twice
    the recorded variance, up to the square root of the recorded error; so the energy falls while
    the error is below 1. *)
Theorem C97_rate theta t u m v d : eval t (theta t) u m v -> follows_chain_rule n lp theta u (g (theta t)) t ->
  derivable_pt_lim (fun t => energy (theta t)) t d ->
  (0 < v -> exists e, m_error m = Fin e /\ 0 <= e /\ - 2 * (1 + sqrt e) * v <= d <= - 2 * (1 - sqrt e) * v /\ (e < 1 -> d < 0))
  /\ (v = 0 -> d = 0).
Proof.
  intros HE HC D. destruct (energy_slope theta t u m v HE HC) as (d' & D' & _ & Q1 & Q2). assert (d = d') by exact (uniqueness_limite _ _ _ _ D D'). subst d'.
  split; [|exact Q2]. intros HV. destruct (Q1 HV) as (e & E1 & E2 & E3). exists e. split; [exact E1|]. split; [exact E2|]. split; [exact E3|]. intros L.
  assert (SL : sqrt e < 1) by (eapply Rlt_le_trans; [apply (sqrt_lt_1 e 1); lra|rewrite sqrt_1; lra]). assert (0 < (1 - sqrt e) * v) by (apply Rmult_lt_0_compat; lra). lra.
Qed.

Lemma slope_along theta u T (m : R -> metadata) (v : R -> R) eps : 0 <= eps ->
  (forall t, 0 <= t <= T -> eval t (theta t) (u t) (m t) (v t) /\ follows_chain_rule n lp theta (u t) (g (theta t)) t) ->
  (forall t e, 0 <= t <= T -> m_error (m t) = Fin e -> e <= eps * eps) ->
  forall t, 0 <= t <= T -> exists d, derivable_pt_lim (fun t => energy (theta t)) t d /\ d <= - (2 * (1 - eps)) * spread basis H (phi (theta t)) /\ 0 <= spread basis H (phi (theta t)).
Proof.
  intros Hε HE HM t Ht. destruct (HE t Ht) as [E1 E2]. destruct (energy_slope theta t (u t) (m t) (v t) E1 E2) as (d & D & V & Q1 & Q2). exists d. split; [exact D|]. rewrite <- V.
  assert (VN : 0 <= v t).
  { rewrite V. apply Rmult_le_pos; [apply rsum_map_nonneg; intros; apply Cnorm2_ge|]. left. apply Rinv_0_lt_compat. apply norm2_pos; [exact (basis_ne_m lDim N commSize devices Hl HN Hc Hd He)|intros; apply Cexp_neq0]. }
  split; [|exact VN]. destruct (Rle_lt_or_eq_dec 0 (v t) VN) as [HV|HV].
  - destruct (Q1 HV) as (e & E & E0 & _ & L). specialize (HM t e Ht E). assert (SL : sqrt e <= eps) by (rewrite <- (sqrt_square eps) by exact Hε; now apply sqrt_le_1_alt).
    eapply Rle_trans; [exact L|]. assert (sqrt e * v t <= eps * v t) by (apply Rmult_le_compat_r; lra). lra.
  - rewrite (Q2 (eq_sym HV)), <- HV. lra.
Qed.

(** Along a trajectory: all recorded errors are at most eps^2 with eps <= 1, e0 is the ground state
    energy and all other eigenvalues are at least e1.  Then the energy does not grow; and if it
    starts below e1, its distance from e0 and the weight outside the ground states decay
    exponentially. *)
Theorem C97_decay theta u T (m : R -> metadata) (v : R -> R) eps e0 e1 : 0 <= T -> 0 <= eps <= 1 ->
  (forall t, 0 <= t <= T -> eval t (theta t) (u t) (m t) (v t) /\ follows_chain_rule n lp theta (u t) (g (theta t)) t) ->
  (forall t e, 0 <= t <= T -> m_error (m t) = Fin e -> e <= eps * eps) ->
  energy (theta T) <= energy (theta 0)
  /\ ((forall e, eigenvalue basis H e -> e = e0 \/ e1 <= e) -> e0 < e1 -> energy (theta 0) < e1 ->
      let bound := (energy (theta 0) - e0) * exp (- (2 * (1 - eps) * (e1 - energy (theta 0))) * T) in
      e0 <= energy (theta T) <= e0 + bound
      /\ forall es, eigensystem basis H es -> 1 - bound / (e1 - e0) <= outcome basis es (fun e => if Req_EM_T e e0 then true else false) (phi (theta T))).
Proof.
  intros HT Hε HE HM. pose proof (slope_along theta u T m v eps ltac:(lra) HE HM) as SL.
  set (E' := fun s => 2 * Re (cov (born_list basis (phi (theta s))) (fun s0 => csumn n (fun k => (g (theta s) s0 k * RtoC (u s k))%C)) (fun s0 => (H (phi (theta s)) s0 / phi (theta s) s0)%C))).
  assert (DE : forall t, 0 <= t <= T -> derivable_pt_lim (fun t => energy (theta t)) t (E' t)).
  { intros s Hs. refine (energy_deriv basis sts vals (fun t => phi (theta t)) s _ (basis_ne_m lDim N commSize devices Hl HN Hc Hd He) ltac:(intros; apply Cexp_neq0) _ _ Hh); [now apply strings_closed|].
    intros s0 _. exact (cderiv_exp (fun t => lp (theta t) s0) s _ (proj2 (HE s Hs) s0)). }
  assert (LE : forall t, 0 <= t <= T -> E' t <= - (2 * (1 - eps)) * spread basis H (phi (theta t)) /\ 0 <= spread basis H (phi (theta t))).
  { intros t Ht. destruct (SL t Ht) as (d & D' & L & V). assert (Ed : E' t = d) by exact (uniqueness_limite _ _ _ _ (DE t Ht) D'). rewrite Ed. now split. }
  assert (MONO : forall t, 0 <= t <= T -> energy (theta t) <= energy (theta 0)).
  { intros t Ht. apply (falls (fun t => energy (theta t)) E' t (proj1 Ht)). intros s Hs. split; [apply DE; lra|].
    destruct (LE s ltac:(lra)) as [L V]. assert (0 <= (1 - eps) * spread basis H (phi (theta s))) by (apply Rmult_le_pos; lra). lra. }
  split; [apply MONO; lra|]. intros Hg Hlt HE0 bound. destruct (C96_spectrum (Z.to_nat lDim) N H Hh) as [es Hes]. fold basis in Hes.
  assert (PN : forall th, 0 < norm2 basis (phi th)) by (intros th; apply norm2_pos; [exact (basis_ne_m lDim N commSize devices Hl HN Hc Hd He)|intros; apply Cexp_neq0]).
  assert (HB : e0 <= energy (theta T) <= e0 + bound).
  { split.
    - destruct (below_mean basis H es _ Hh Hes (PN (theta T))) as (e & Q1 & Q2). fold (energy (theta T)) in Q2. destruct (Hg e Q1); lra.
    - set (k := 2 * (1 - eps) * (e1 - energy (theta 0))) in *.
      assert (Q : (fun t => energy (theta t) - e0) T <= (fun t => energy (theta t) - e0) 0 * exp (- k * T)); [|cbv beta in Q; fold bound in Q; lra].
      apply (decays (fun t => energy (theta t) - e0) E' k T HT). intros t Ht. split.
      + eapply deriv_value; [apply (derivable_pt_lim_minus (fun t => energy (theta t)) (fun _ => e0)); [exact (DE t Ht)|apply derivable_pt_lim_const]|ring].
      + destruct (LE t Ht) as [L V]. eapply Rle_trans; [exact L|].
        pose proof (MONO t Ht) as ML. pose proof (spread_gap basis H es (phi (theta t)) e0 e1 Hh Hes (PN (theta t)) ltac:(intros e v' Hin; exact (Hg e (is_eigenvalue basis H es Hes e v' Hin))) Hlt ltac:(fold (energy (theta t)); lra)) as SG.
        fold (energy (theta t)) in SG. assert (EL : e0 <= energy (theta t)).
        { destruct (below_mean basis H es _ Hh Hes (PN (theta t))) as (e & Q1 & Q2). fold (energy (theta t)) in Q2. destruct (Hg e Q1); lra. }
        assert (P1 : (energy (theta t) - e0) * (e1 - energy (theta 0)) <= (energy (theta t) - e0) * (e1 - energy (theta t))) by (apply Rmult_le_compat_l; lra).
        assert (P2 : (1 - eps) * ((energy (theta t) - e0) * (e1 - energy (theta 0))) <= (1 - eps) * spread basis H (phi (theta t))) by (apply Rmult_le_compat_l; lra).
        unfold k. lra. }
  split; [exact HB|]. intros es' Hes'.
  eapply Rle_trans; [|apply (ground_weight basis H es' _ Hh Hes' (PN (theta T)) e0 e1 _ Hlt)].
  - fold (energy (theta T)). apply (Rmult_le_reg_r (e1 - e0)); [lra|]. unfold Rdiv. rewrite Rmult_minus_distr_r, !Rmult_assoc, Rinv_l by lra. lra.
  - intros e v' Hin. destruct (Hg e (is_eigenvalue basis H es' Hes' e v' Hin)) as [->|Q].
    + split; [lra|]. destruct (Req_EM_T e0 e0); [discriminate|contradiction].
    + split; [lra|]. intros _. exact Q.
Qed.

(** Hence a trajectory that never ends, with all errors at most eps^2 < 1 and started below e1,
    converges: energy and probability of the ground states come as near to e0 and 1 as one likes. *)
Theorem C97_converges theta u (m : R -> metadata) (v : R -> R) eps e0 e1 delta : 0 <= eps < 1 -> 0 < delta ->
  (forall t, 0 <= t -> eval t (theta t) (u t) (m t) (v t) /\ follows_chain_rule n lp theta (u t) (g (theta t)) t) ->
  (forall t e, 0 <= t -> m_error (m t) = Fin e -> e <= eps * eps) ->
  (forall e, eigenvalue basis H e -> e = e0 \/ e1 <= e) -> e0 < e1 -> energy (theta 0) < e1 ->
  exists T0, 0 <= T0 /\ forall T, T0 <= T ->
    e0 <= energy (theta T) <= e0 + delta
    /\ forall es, eigensystem basis H es -> 1 - delta <= outcome basis es (fun e => if Req_EM_T e e0 then true else false) (phi (theta T)).
Proof.
  intros Hε Hδ HE HM Hg Hlt HE0. set (k := 2 * (1 - eps) * (e1 - energy (theta 0))). assert (Hk : 0 < k) by (unfold k; apply Rmult_lt_0_compat; lra).
  assert (G0 : e0 <= energy (theta 0)).
  { destruct (C97_decay theta u 0 m v eps e0 e1 ltac:(lra) ltac:(lra) ltac:(intros; apply HE; lra) ltac:(intros; eapply HM; [|eassumption]; lra)) as [_ Q]. destruct (Q Hg Hlt HE0) as [[? _] _]. assumption. }
  set (b := energy (theta 0) - e0). set (d := delta * Rmin 1 (e1 - e0)).
  assert (Hd0 : 0 < d) by (unfold d; apply Rmult_lt_0_compat; [exact Hδ|apply Rmin_glb_lt; lra]).
  set (T0 := b / (d * k)).
  assert (HT0 : 0 <= T0) by (unfold T0; apply Rmult_le_pos; [unfold b; lra|left; apply Rinv_0_lt_compat, Rmult_lt_0_compat; assumption]).
  exists T0. split; [exact HT0|]. intros T HT. destruct (C97_decay theta u T m v eps e0 e1 ltac:(lra) ltac:(lra) ltac:(intros; apply HE; lra) ltac:(intros; eapply HM; [|eassumption]; lra)) as [_ Q].
  destruct (Q Hg Hlt HE0) as [[Q1 Q2] Q3]. fold k in Q2, Q3. fold b in Q2, Q3.
  assert (BD : b * exp (- k * T) <= d).
  { assert (X : 1 + k * T <= exp (k * T)) by (destruct (Req_dec (k * T) 0) as [->|NZ]; [rewrite exp_0; lra|left; now apply exp_ineq1]).
    assert (Y : b <= d * (k * T)).
    { replace b with (d * (k * T0)) by (unfold T0; field; lra). apply Rmult_le_compat_l; [lra|]. apply Rmult_le_compat_l; lra. }
    pose proof (exp_pos (- k * T)) as P. assert (Z : d * exp (k * T) * exp (- k * T) = d) by (rewrite Rmult_assoc, <- exp_plus; replace (k * T + - k * T) with 0 by ring; rewrite exp_0; ring).
    rewrite <- Z. apply Rmult_le_compat_r; [lra|]. eapply Rle_trans; [exact Y|]. apply Rmult_le_compat_l; lra. }
  assert (D1 : d <= delta) by (unfold d; rewrite <- (Rmult_1_r delta) at 2; apply Rmult_le_compat_l; [lra|apply Rmin_l]).
  assert (D2 : d <= delta * (e1 - e0)) by (unfold d; apply Rmult_le_compat_l; [lra|apply Rmin_r]).
  split; [lra|]. intros es Hes. eapply Rle_trans; [|exact (Q3 es Hes)].
  assert (b * exp (- k * T) / (e1 - e0) <= delta); [|lra]. apply (Rmult_le_reg_r (e1 - e0)); [lra|]. unfold Rdiv. rewrite Rmult_assoc, Rinv_l by lra. lra.
Qed.
End Descent.
Print Assumptions C97_rate.
Print Assumptions C97_decay.
Print Assumptions C97_converges.

(** One spin with the weights 1 and exp(2 theta), log psi(s) = theta s, and the Hamiltonian Sz.  The
    eigenvalues are -1 and 1; the object returns nearly the exact velocity -2 at all parameters. *)
Definition lpA (theta : nat -> R) (s : config) : C := RtoC (theta 0%nat * INR (nth 0 s 0%nat)).
Definition gA (theta : nat -> R) (s : config) (k : nat) : C := RtoC (INR (nth 0 s 0%nat)).
Definition setA : settings := mk_settings true 2 (1/2) (/ 10 ^ 8) false C1 0 false true.
Definition damping : R := 1 / (1 + (8/1000) ^ 6).
Definition speed : R := - 2 * damping.
Notation prA theta := (probs 2 1 2 1 0 (lpA theta)).
Notation callA x := (tdvp_call 1 eigh1 eigh1 setA Exact (fun q => Ok (tt, prA (phase_of q))) (fun _ => Ok tt) (fun _ _ => Err AttributeError)
  (fun q _ _ => do e <- local_energies 2 1 2 1 (lpA (phase_of q)) (map to_opstr z1) [] 0; Ok (lmap (fun x (_ : unit) => x) e))
  (fun q _ => Ok (lmap (gA (phase_of q)) (configs 2 1 2 1))) 1 (mk_world psi1 o4 0) (PVec [x])).
Notation callsA := (evaluation 2 1 2 1 1 lpA gA z1 (fun _ => []) 0 eigh1 eigh1 setA Exact
  (fun q => Ok (tt, prA (phase_of q))) (fun _ => Ok tt) (fun _ _ => Err AttributeError)
  (fun q _ _ => do e <- local_energies 2 1 2 1 (lpA (phase_of q)) (map to_opstr z1) [] 0; Ok (lmap (fun x (_ : unit) => x) e))
  (fun q _ => Ok (lmap (gA (phase_of q)) (configs 2 1 2 1))) 1).
Definition metaA (x t : R) : metadata := match o_meta (w_obj (fst (callA x t (Some 0%nat)))) with Some m => m | None => mk_meta NaN NaN 0 (fun _ => NaN) (fun _ => 0) None None end.
Definition varA (x : R) : R := 4 * (exp (2 * x) / ((1 + exp (2 * x)) * (1 + exp (2 * x)))).

Lemma damping_bounds : 1/2 < damping < 1.
Proof.
  assert (P : 0 < (8/1000) ^ 6 < 1) by (split; [apply pow_lt; lra|apply pow_lt_1_compat; [lra|lia]]).
  assert (Q : damping * (1 + (8/1000) ^ 6) = 1) by (unfold damping; field; lra).
  assert (0 < damping) by (unfold damping; apply Rmult_lt_0_compat; [lra|apply Rinv_0_lt_compat; lra]).
  set (y := (8/1000) ^ 6) in *. split; nra.
Qed.
Lemma weightA x (s : nat) : Cnorm2 (Cexp (lpA (fun _ => x) [s])) = exp (2 * (x * INR s)).
Proof. unfold lpA, Cexp, Cnorm2. cbn [nth RtoC fst snd Re Im]. rewrite cos_0, sin_0. replace (2 * (x * INR s)) with (x * INR s + x * INR s) by ring. rewrite exp_plus. cbn. ring. Qed.
Lemma bornA x (h1 h2 : config -> C) : cov (born_list (all_configs (Z.to_nat 2) 1) (fun s => Cexp (lpA (fun _ => x) s))) h1 h2
  = (RtoC (exp (2 * x) / ((1 + exp (2 * x)) * (1 + exp (2 * x)))) * (Cconj (h1 [1%nat] - h1 [0%nat]) * (h2 [1%nat] - h2 [0%nat])))%C.
Proof.
  pose proof (exp_pos (2 * x)) as P. unfold born_list, norm2. change (all_configs (Z.to_nat 2) 1) with [[0%nat]; [1%nat]]. cbn [map]. rewrite !weightA, !rsum_cons, rsum_nil. cbn [INR]. rewrite !Rmult_0_r, exp_0, !Rmult_1_r, Rplus_0_r.
  set (e := exp (2 * x)) in *. unfold cov, expect. cbn [map fst snd]. rewrite !csum_cons, !csum_nil.
  destruct (h1 [0%nat]) as [a0 b0], (h1 [1%nat]) as [a1 b1], (h2 [0%nat]) as [c0 d0], (h2 [1%nat]) as [c1 d1]. apply C_eq; cbn; field; lra.
Qed.
Lemma valueA theta x : (x < 2)%nat -> (apply_strings z1 [C1] (fun s => Cexp (lpA theta s)) [x] / Cexp (lpA theta [x]))%C = (if Nat.eqb x 0 then (- C1)%C else C1).
Proof.
  intros Hx. assert (P : Cexp (lpA theta [x]) <> C0) by apply Cexp_neq0. rewrite z1_value by (destruct x as [|[|x]]; [left; reflexivity|right; left; reflexivity|lia]). cbn [nth]. destruct (Nat.eqb x 0); field; exact P.
Qed.
Lemma localA theta : local_energies 2 1 2 1 (lpA theta) (map to_opstr z1) [] 0 = Ok [[[(- C1)%C]]; [[C1]]].
Proof.
  rewrite (local_energies_ok 2 1 2 1 (lpA theta) ltac:(lia) ltac:(lia) ltac:(lia) ltac:(lia) fitP ltac:(cbn; lia) z1 [] [C1] 0 z1_wf ltac:(repeat constructor) z1_clean). f_equal.
  change (configs 2 1 2 1) with [[[[0%nat]]]; [[[1%nat]]]]. unfold lmap. cbn [map]. rewrite !valueA by lia. reflexivity.
Qed.
(** one pass of the loop suffices *)
Lemma solveA x E G : Re (covar G G (0%nat, 0%nat)) = x -> Re (covar G E (0%nat, tt)) = 2 * x -> 0 < x ->
  exists o' res cut, solve 1 eigh1 eigh1 setA 1 0 o4 E G = (o', Ok (Some (fun _ => speed), res, cut)).
Proof.
  intros E1 E2 Hx. unfold solve. destruct (get_tdvp_equation setA o4 E G) as [o1 [A F]] eqn:EQ.
  assert (HA : A 0%nat 0%nat = RtoC x /\ F 0%nat = RtoC (- (2 * x))).
  { unfold get_tdvp_equation in EQ. pose proof (f_equal (fun x => fst (snd x) 0%nat 0%nat) EQ) as Q1. pose proof (f_equal (fun x => snd (snd x) 0%nat) EQ) as Q2. cbn [fst snd] in Q1, Q2. rewrite <- Q1, <- Q2. clear Q1 Q2 EQ.
    destruct (Rlt_dec (/ 10 ^ 10) (c_shift setA)) as [Hbad|_]; [exfalso; revert Hbad; cbn [setA c_shift]; apply Rle_not_lt; left; apply Rinv_0_lt_compat, pow_lt; lra|].
    rewrite !makeReal_part. unfold part, setA. cbn [c_imag c_prefactor]. split; [now rewrite E1|]. f_equal. rewrite <- E2. destruct (covar G E (0%nat, tt)) as [a b]. cbn. ring. }
  destruct HA as [HA HF]. clear EQ.
  change (eigenbasis eigh1 eigh1 setA A) with (Ok (fun _ : nat => Re (A 0%nat 0%nat), fun _ _ : nat => C1)). cbv beta iota zeta.
  set (sp := mk_spectrum _ _ _ _ _ _).
  assert (P8 : 0 < / 10 ^ 8 < 8/1000).
  { split; [apply Rinv_0_lt_compat, pow_lt; lra|]. apply (Rmult_lt_reg_l (10 ^ 8)); [apply pow_lt; lra|]. rewrite Rinv_r by (apply pow_nonzero; lra).
    assert (10 ^ 3 <= 10 ^ 8) by (apply Rle_pow; [lra|lia]). lra. }
  assert (EVx : s_ev sp 0%nat = x) by (cbn [sp s_ev]; rewrite HA; reflexivity).
  assert (RE : rel_ev 1 (s_ev sp) 0 = Fin 1).
  { unfold rel_ev. cbn [Nat.sub]. rewrite EVx. unfold xdiv. destruct (Req_EM_T (Rabs x) 0) as [Q|Q]; [rewrite Rabs_right in Q by lra; lra|]. f_equal. field. exact Q. }
  assert (IV : s_invEv sp 0%nat = 1 / x).
  { cbn [sp s_invEv]. unfold inv_ev. change (rel_ev 1 (fun _ : nat => Re (A 0%nat 0%nat)) 0) with (rel_ev 1 (s_ev sp) 0). rewrite RE. unfold xlt.
    destruct (Rlt_dec (/ 10 ^ 14) 1) as [_|Q]; [now rewrite HA|]. exfalso. apply Q. apply (Rmult_lt_reg_l (10 ^ 14)); [apply pow_lt; lra|]. rewrite Rinv_r by (apply pow_nonzero; lra). rewrite Rmult_1_r. apply Rlt_pow_R1; [lra|lia]. }
  assert (VT : s_VtF sp 0%nat = RtoC (- (2 * x))).
  { cbn [sp s_VtF]. unfold dot, csumn. cbn [seq map]. rewrite csum_cons, csum_nil, HF. unfold conj_transpose. apply C_eq; cbn; ring. }
  assert (CU : / 10 ^ 2 * (8/10) = 8/1000) by field.
  assert (PI : pinv_ev 1 setA sp (/ 10 ^ 2 * (8/10)) 0 = Fin (1 / x * damping)).
  { unfold pinv_ev. rewrite RE, CU. change (c_pinvCutoff setA) with (/ 10 ^ 8). change (c_exact setA) with true. cbv beta iota zeta. rewrite Rmax_left by lra. unfold soft_cutoff, xdiv, xpow6, xplus1.
    destruct (Req_EM_T 1 0) as [Q|_]; [lra|]. replace (8 / 1000 / 1) with (8/1000) by field. destruct (Req_EM_T (1 + (8/1000) ^ 6) 0) as [Q|_]; [exfalso; assert (0 < (8/1000) ^ 6) by (apply pow_lt; lra); lra|]. unfold xmul. rewrite IV. reflexivity. }
  destruct (finite_vec_ok 1 (pinv_ev 1 setA sp (/ 10 ^ 2 * (8/10))) (fun _ => 1 / x * damping)) as (p & FV & Hp'); [intros k Hk; assert (k = 0)%nat by lia; subst k; exact PI|].
  assert (RS : residual_of 1 sp (norm 1 F) (pinv_ev 1 setA sp (/ 10 ^ 2 * (8/10))) = Fin (1 - damping)).
  { unfold residual_of. rewrite FV. unfold norm, rsumn. cbn [seq map]. rewrite !rsum_cons, rsum_nil, Hp', EVx, VT, HF by lia.
    rewrite !Rplus_0_r. assert (N1 : sqrt (Cnorm2 (RtoC (- (2 * x)))) = 2 * x) by (transitivity (sqrt ((2 * x) * (2 * x))); [f_equal; unfold Cnorm2; cbn; ring|apply sqrt_square; lra]).
    assert (N2 : sqrt (Cnorm2 (RtoC (1 / x * damping * x - 1) * RtoC (- (2 * x)))%C) = (1 - damping) * (2 * x)).
    { pose proof damping_bounds. transitivity (sqrt (((1 - damping) * (2 * x)) * ((1 - damping) * (2 * x)))); [f_equal; unfold Cnorm2; cbn; field; lra|apply sqrt_square; apply Rmult_le_pos; lra]. }
    rewrite N1, N2. unfold xdiv. destruct (Req_EM_T (2 * x) 0) as [Q|_]; [lra|]. f_equal. field. lra. }
  assert (SE : search 1 setA 1 sp (norm 1 F) (Fin 1) (/ 10 ^ 2) None = Ok (Fin (1 - damping), / 10 ^ 2 * (8/10), Some (pinv_ev 1 setA sp (/ 10 ^ 2 * (8/10))))).
  { cbn [search]. change (c_pinvTol setA) with (1/2). change (c_pinvCutoff setA) with (/ 10 ^ 8). unfold xlt at 1. destruct (Rlt_dec (1/2) 1) as [_|Q]; [|lra]. destruct (Rlt_dec (/ 10 ^ 8) (/ 10 ^ 2)) as [_|Q]; [|exfalso; apply Q; lra].
    cbn [andb]. rewrite RS. unfold xlt. pose proof damping_bounds. destruct (Rlt_dec (1/2) (1 - damping)) as [Q|_]; [lra|]. reflexivity. }
  unfold regularise. rewrite SE. cbn [bind]. rewrite FV. eexists _, _, _. f_equal. f_equal. f_equal. f_equal. f_equal. apply functional_extensionality. intros k.
  unfold dot, csumn. cbn [seq map]. rewrite csum_cons, csum_nil, Hp', VT by lia. cbn [sp s_V]. unfold speed. cbn. field. lra.
Qed.
(** every call returns this velocity and records metadata and variance *)
Lemma runsA x t : callsA t (fun _ => x) (fun _ => speed) (metaA x t) (varA x).
Proof.
  set (el := [[[(- C1)%C]]; [[C1]]] : layout C). set (pr := prA (fun _ : nat => x)). set (gr := lmap (gA (fun _ : nat => x)) (configs 2 1 2 1)).
  assert (EV : lmap (fun x (_ : unit) => x) el = lmap (fun (s : config) (_ : unit) => if Nat.eqb (nth 0 s 0%nat) 0 then (- C1)%C else C1) (configs 2 1 2 1)) by reflexivity.
  pose proof (exp_pos (2 * x)) as PE.
  destruct (solveA (exp (2 * x) / ((1 + exp (2 * x)) * (1 + exp (2 * x)))) (init (lmap (fun x (_ : unit) => x) el) pr) (init gr pr)) as (o' & res & cut & K).
  { unfold gr, pr. rewrite (cov_of 2 1 2 1 0 (lpA (fun _ => x)) ltac:(lia) ltac:(lia) ltac:(lia) ltac:(lia) fitP (gA (fun _ => x)) (gA (fun _ => x))), bornA. unfold gA. cbn. field. lra. }
  { rewrite EV. unfold gr, pr. rewrite (cov_of 2 1 2 1 0 (lpA (fun _ => x)) ltac:(lia) ltac:(lia) ltac:(lia) ltac:(lia) fitP (gA (fun _ => x)) (fun (s : config) (_ : unit) => if Nat.eqb (nth 0 s 0%nat) 0 then (- C1)%C else C1)), bornA. unfold gA. cbn. field. lra. }
  { apply Rmult_lt_0_compat; [exact PE|]. apply Rinv_0_lt_compat. apply Rmult_lt_0_compat; lra. }
  set (q1 := set_params psi1 [[(x, 0)]]).
  assert (RUN : exists w', callA x t (Some 0%nat) = (w', Ok (Some (fun _ => speed))) /\ o_var0 (w_obj w') = Some (var (init (lmap (fun x (_ : unit) => x) el) pr) tt) /\ o_meta (w_obj w') <> None).
  { assert (E1 : set_parameters psi1 (PVec [x]) = Ok q1) by reflexivity.
    unfold tdvp_call. cbn [w_psi w_obj w_glob]. rewrite E1. unfold do_sample, sample_exact.
    cbn -[probs local_energies configs lmap solve record_step lpA gA init el pr gr psi1 setA].
    rewrite localA. cbn -[probs configs lmap solve record_step lpA gA init el pr gr psi1 setA]. fold el pr.
    change (probs 2 1 2 1 0 (lpA (phase_of q1))) with pr. change (lmap (gA (phase_of q1)) (configs 2 1 2 1)) with gr. rewrite K.
    pose proof (solve_stores _ _ _ _ _ _ _ _ _ _ _ K) as (T1 & T2 & T3).
    cbn -[probs configs lmap solve record_step lpA gA init el pr gr setA].
    unfold record_step. rewrite T1. unfold get_tdvp_equation at 1. cbn [fst o_eq]. destruct (o_sp o'); [|congruence]. cbn [c_crossVal setA].
    eexists. split; [reflexivity|]. cbn [w_obj o_var0 o_meta]. split; [reflexivity|discriminate]. }
  destruct RUN as (w' & R1 & R2 & R3).
  exists (mk_world psi1 o4 0), (PVec [x]), w', q1, tt, el, 0.
  split; [exact R1|]. split; [reflexivity|]. split; [reflexivity|]. split; [apply localA|]. split; [cbv beta; rewrite localA; reflexivity|]. split; [reflexivity|].
  split; [unfold metaA; rewrite R1; cbn [fst]; destruct (o_meta (w_obj w')); [reflexivity|congruence]|]. rewrite R2. f_equal. rewrite EV. unfold pr.
  rewrite (var_of 2 1 2 1 0 (lpA (fun _ => x)) ltac:(lia) ltac:(lia) ltac:(lia) ltac:(lia) fitP (fun s (_ : unit) => if Nat.eqb (nth 0 s 0%nat) 0 then (- C1)%C else C1) tt).
  apply RtoC_inj. rewrite variance_cov by (apply born_total; [discriminate|intros; apply Cexp_neq0]). rewrite bornA. cbn [nth Nat.eqb]. unfold varA. apply C_eq; cbn; field; lra.
Qed.
Lemma varA_pos x : 0 < varA x.
Proof. pose proof (exp_pos (2 * x)). unfold varA. apply Rmult_lt_0_compat; [lra|]. apply Rmult_lt_0_compat; [assumption|]. apply Rinv_0_lt_compat. apply Rmult_lt_0_compat; lra. Qed.
(** the error is the square of 1 - damping *)
Lemma errorA x t : m_error (metaA x t) = Fin ((1 - damping) * (1 - damping)).
Proof.
  destruct (evaluation_records 2 1 2 1 ltac:(lia) ltac:(lia) ltac:(cbn; lia) ltac:(lia) z1_complete 1 lpA gA z1 (fun _ => []) (fun _ => [C1]) 0 z1_wf ltac:(intros; repeat constructor) (fun _ => z1_clean) eigh1 eigh1 setA Exact
    _ _ _ _ _ 1%nat t (fun _ => x) (fun _ => speed) (metaA x t) (varA x) (runsA x t)) as [_ Q]; [unfold Cnorm2; cbn; ring|].
  specialize (Q (varA_pos x)). rewrite Q. f_equal. pose proof (exp_pos (2 * x)) as PE.
  apply (Rmult_eq_reg_r (varA x)); [|pose proof (varA_pos x); lra]. unfold Rdiv. rewrite Rmult_assoc, Rinv_l by (pose proof (varA_pos x); lra). rewrite Rmult_1_r.
  apply RtoC_inj. rewrite variance_cov by (apply born_total; [discriminate|intros; apply Cexp_neq0]). rewrite bornA. cbv beta. rewrite !valueA by lia. cbn [Nat.eqb setA c_prefactor]. unfold csumn, gA. cbn [seq map nth]. rewrite !csum_cons, !csum_nil.
  unfold varA, speed. apply C_eq; cbn; field; lra.
Qed.
Lemma energyA : Re (expectation (all_configs 2 1) (apply_strings z1 [C1]) (fun s => Cexp (lpA (fun _ => 0) s))) = 0.
Proof.
  assert (E1 : forall s, Cexp (lpA (fun _ => 0) s) = C1) by (intros s; unfold lpA, Cexp; cbn; rewrite !Rmult_0_l, exp_0, cos_0, sin_0; apply C_eq; cbn; ring).
  unfold expectation, braket, norm2. change (all_configs 2 1) with [[0%nat]; [1%nat]]. cbn [map]. rewrite !z1_value by (cbn; auto). rewrite !E1, !csum_cons, csum_nil, !rsum_cons, rsum_nil. cbn. unfold Cnorm2. cbn. field.
Qed.
(** a trajectory that never ends; it starts with the energy 0 *)
Example C97_case : let theta := fun t (_ : nat) => speed * t in
  (forall t, callsA t (theta t) (fun _ => speed) (metaA (speed * t) t) (varA (speed * t)) /\ 0 < varA (speed * t) /\ follows_chain_rule 1 lpA theta (fun _ => speed) (gA (theta t)) t)
  /\ (forall t e, m_error (metaA (speed * t) t) = Fin e -> e <= (1/2) * (1/2))
  /\ c_prefactor setA = C1 /\ hermitian_on (all_configs 2 1) (apply_strings z1 [C1])
  /\ (forall e, eigenvalue (all_configs 2 1) (apply_strings z1 [C1]) e -> e = -1 \/ 1 <= e)
  /\ Re (expectation (all_configs 2 1) (apply_strings z1 [C1]) (fun s => Cexp (lpA (theta 0) s))) < 1
  /\ exists T0, 0 <= T0 /\ forall T, T0 <= T -> -1 <= Re (expectation (all_configs 2 1) (apply_strings z1 [C1]) (fun s => Cexp (lpA (theta T) s))) <= -1 + 1/100.
Proof.
  intros theta.
  assert (H1 : forall t, callsA t (theta t) (fun _ => speed) (metaA (speed * t) t) (varA (speed * t)) /\ 0 < varA (speed * t) /\ follows_chain_rule 1 lpA theta (fun _ => speed) (gA (theta t)) t).
  { intros t. split; [apply runsA|]. split; [apply varA_pos|]. intros s. unfold lpA, gA, theta, csumn. cbn [seq map]. rewrite csum_cons, csum_nil. set (y := INR (nth 0 s 0%nat)). split.
    - eapply deriv_value; [apply (deriv_ext (fun t => (speed * y) * t)); [intros t'; cbn; ring|apply (derivable_pt_lim_scal (fun t => t)); apply derivable_pt_lim_id]|cbn; ring].
    - eapply deriv_value; [apply (deriv_ext (fun _ => 0)); [intros t'; cbn; ring|apply derivable_pt_lim_const]|cbn; ring]. }
  assert (H2 : forall t e, m_error (metaA (speed * t) t) = Fin e -> e <= (1/2) * (1/2)) by (intros t e; rewrite errorA; intros Q; injection Q as <-; pose proof damping_bounds; apply Rmult_le_compat; lra).
  assert (T0' : theta 0 = fun _ => 0) by (unfold theta; apply functional_extensionality; intros; ring).
  assert (H3 : Re (expectation (all_configs 2 1) (apply_strings z1 [C1]) (fun s => Cexp (lpA (theta 0) s))) < 1) by (rewrite T0', energyA; lra).
  split; [exact H1|]. split; [exact H2|]. split; [reflexivity|]. split; [exact z1_hermitian|]. split; [exact z1_eigenvalues|]. split; [exact H3|].
  destruct (C97_converges 2 1 2 1 ltac:(lia) ltac:(lia) ltac:(cbn; lia) ltac:(lia) z1_complete 1 lpA gA z1 [] [C1] 0 z1_wf ltac:(repeat constructor) z1_clean z1_hermitian eigh1 eigh1 setA Exact
    _ _ _ _ _ 1%nat eq_refl theta (fun _ _ => speed) (fun t => metaA (speed * t) t) (fun t => varA (speed * t)) (1/2) (-1) 1 (1/100) ltac:(lra) ltac:(lra) (fun t _ => conj (proj1 (H1 t)) (proj2 (proj2 (H1 t)))) (fun t e _ => H2 t e) z1_eigenvalues ltac:(lra) H3) as (T0 & HT0 & Q).
  exists T0. split; [exact HT0|]. intros T HT. exact (proj1 (Q T HT)).
Qed.
