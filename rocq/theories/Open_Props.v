(** C98: the recorded TDVP errors bound the distance of a POVM network from the exact solution of the
    Lindblad equation (tdvp.py, sampler.py, operator/povm.py and stats.py together, exact sampler). *)
From Coq Require Import ZArith String List Reals Lra Lia Bool Arith Permutation FunctionalExtensionality.
From Verif Require Import OpBase_Model OpBase_Spec.
From Verif Require Import Tdvp2_Proofs Tdvp3_Proofs Ehren_Props Descent_Props.
From Verif Require Import Base Cplx Mpi_Model Povm_Model Povm_Spec Povm_Proofs Povm2_Proofs Povm_Props PovmOp_Model PovmOp_Spec PovmOp_Props Many_Model Many_Spec Many_Proofs Many2_Proofs Many_Props.
From Verif Require Import Stats_Model Stats_Spec Stats_Proofs BranchFree_Model Sampler_Spec Exact_Model Exact_Spec Exact_Proofs Exact_Props Stepper_Model Vqs_Model Tdvp_Model Tdvp_Spec Tdvp_Proofs Tdvp6_Proofs Tdvp7_Proofs Tdvp_Props.
From Verif Require Import Vmc_Model Vmc_Spec Vmc_Proofs Vmc2_Proofs Lind_Model Lind_Spec Lind_Proofs Lind2_Proofs Lind3_Proofs Lind4_Proofs Lind_Props Open_Spec Open_Proofs.
Import ListNotations.
Local Open Scope R_scope.

Section Open.
(** the measurement *)
Variables (theta0 phi0 : R) (M : nat -> cmat) (T_inv : cmat).
Hypothesis sic : get_M theta0 phi0 "SIC" = Ok M.
Hypothesis inv : inverse 4 (overlap 2 M) T_inv.
(** the operator, compiled after any history of additions *)
Variables (N : nat) (operators : list (string * sized)) (order : list (list nat) -> list (list nat)) (h : heap) (events : list (nat * nat)) (k : nat) (terms : list term).
Hypothesis HO : forall l, iterates l (order l).
Hypothesis HU : unshared k events.
Hypothesis HNE : PovmOp_Props.added k events <> [].
Hypothesis HF : Forall2 (stored M T_inv N operators) (map h (PovmOp_Props.added k events)) terms.
Variable mc : nat * list (list nat * (nat -> nat -> R)).
Hypothesis HC : PovmOp_Model.compile operators order (fst (history h events)) (snd (history h events) k) = Ok mc.
Hypothesis Hclean : forall s, In s (words 4 N) -> clean (povm_elements mc s).
(** ranks and devices, batch size *)
Variables (commSize devices : Z) (bs : nat).
Hypothesis HN : (0 < N)%nat.
Hypothesis Hc : (0 < commSize <= 4 ^ Z.of_nat N)%Z.
Hypothesis Hd : (0 < devices)%Z.
Hypothesis Hco : complete_enumeration N 4 commSize devices.
(** logarithms of the probabilities and their derivatives as functions of n parameters *)
Variables (n : nat) (lp : (nat -> R) -> config -> R) (g : (nat -> R) -> config -> nat -> R).
Context {Cfg : Type}.
Variables (ej en : (nat -> nat -> C) -> result ((nat -> R) * (nat -> nat -> C))) (c : settings) (smp : sampler).
Variables (draw : nqs -> result (Cfg * layout R)) (markov : tree * nat -> result Cfg) (coeffs : nqs -> Cfg -> result (Cfg * layout R))
  (oloc : nqs -> Cfg -> R -> result (layout (unit -> C))) (grads : nqs -> Cfg -> result (layout (nat -> C))) (fuel : nat).
(** open systems: rhsPrefactor = -1 *)
Hypothesis Hx : c_prefactor c = (- C1)%C.

(** some call in the first stage of a step at the time t returns the velocity u and records the
    metadata m and the variance v, with probabilities, local values and log-derivatives of the network
    with the parameters theta, whatever happened before *)
Definition povm_evaluation (t : R) (theta u : nat -> R) (m : metadata) (v : R) : Prop :=
  exists w P w' q1 cfg e lastNorm,
    tdvp_call n ej en c smp draw markov coeffs oloc grads fuel w P t (Some 0%nat) = (w', Ok (Some u))
    /\ set_parameters (w_psi w) P = Ok q1
    /\ snd (do_sample smp draw markov coeffs q1) = Ok (cfg, povm_probs N commSize devices lastNorm (lp theta))
    /\ povm_local N commSize devices (lp theta) mc bs = Ok e /\ oloc q1 cfg t = Ok (lmap (fun x (_ : unit) => x) e)
    /\ grads q1 cfg = Ok (lmap (fun s j => RtoC (g theta s j)) (configs 4 N commSize devices))
    /\ o_meta (w_obj w') = Some m /\ o_var0 (w_obj w') = Some v.

(** what the object records, in terms of the currents *)
Lemma povm_records t theta u m v rho : povm_evaluation t theta u m v -> state_of N M (distribution N (lp theta)) rho ->
  let current := fun a => inflow N M terms rho a / distribution N (lp theta) a in
  v = variation N (lp theta) current
  /\ (0 < v -> m_error m = Fin (variation N (lp theta) (fun a => rsumn n (fun j => g theta a j * u j) - current a) / v)).
Proof.
  intros (w & P & w' & q1 & cfg & e & lastNorm & HT & E1 & E2 & E3 & E4 & E5 & HM & HVv) Hrho current. destruct Hc as [Hc1 Hc2]. pose proof (fit_4 N commSize devices HN Hc Hd Hco) as Hfit.
  rewrite (proj1 (C87_local theta0 phi0 M T_inv sic inv N operators order h events k terms HO HU HNE HF mc HC Hclean commSize devices lastNorm bs HN Hc Hd Hco lp theta rho Hrho)) in E3. injection E3 as <-.
  set (cf := configs 4 N commSize devices) in *. set (pr := povm_probs N commSize devices lastNorm (lp theta)) in *.
  set (eloc := lmap (fun x (_ : unit) => x) (lmap (fun a => RtoC (inflow N M terms rho a / distribution N (lp theta) a)) cf)) in *.
  assert (EL : eloc = lmap (fun a (_ : unit) => RtoC (current a)) cf).
  { unfold eloc, lmap. rewrite map_map. apply map_ext. intros r. rewrite map_map. apply map_ext. intros l. now rewrite map_map. }
  assert (Hx' : Cnorm2 (c_prefactor c) = 1) by (rewrite Hx; unfold Cnorm2; cbn; ring).
  assert (VE : variance (wtriples pr (lmap (fun s j => RtoC (g theta s j)) cf) eloc) (fun s : (nat -> C) * (unit -> C) => snd s tt) = variation N (lp theta) current).
  { rewrite EL. apply (povm_triples_variance N commSize devices lastNorm (lp theta) HN Hc1 Hd Hfit (fun s j => RtoC (g theta s j)) (fun a (_ : unit) => RtoC (current a))). reflexivity. }
  assert (VD : variance (wtriples pr (lmap (fun s j => RtoC (g theta s j)) cf) eloc) (fun s : (nat -> C) * (unit -> C) => csumn n (fun j => RtoC (u j) * fst s j) + c_prefactor c * snd s tt)%C
     = variation N (lp theta) (fun a => rsumn n (fun j => g theta a j * u j) - current a)).
  { rewrite EL, Hx. apply (povm_triples_variance N commSize devices lastNorm (lp theta) HN Hc1 Hd Hfit (fun s j => RtoC (g theta s j)) (fun a (_ : unit) => RtoC (current a))).
    intros s. cbn [fst snd]. rewrite (csumn_ext n _ (fun j => RtoC (g theta s j * u j))) by (intros; rewrite <- RtoC_mul; f_equal; ring). unfold csumn, rsumn. rewrite <- (map_map (fun j => g theta s j * u j) RtoC), csum_RtoC.
    generalize (rsum (map (fun j => g theta s j * u j) (seq 0 n))). intros x. apply C_eq; cbn; ring. }
  assert (SG : shape_eq (lmap (fun s j => RtoC (g theta s j)) cf) pr) by (apply povm_shape; assumption).
  assert (SE : shape_eq eloc pr) by (rewrite EL; apply povm_shape; assumption).
  assert (WK : weights_ok (flat pr)) by (apply povm_ok; assumption).
  assert (MV : o_var0 (w_obj w') = Some (variation N (lp theta) current)).
  { pose proof HT as HT'. apply call_ok in HT' as (q1' & configs' & p' & eloc' & g' & o1 & u' & res & cut & F1 & F2 & F3 & F4 & F5 & F6 & F7 & F8).
    rewrite E1 in F1. injection F1 as <-. rewrite E2 in F2. injection F2 as <- <-. rewrite E4 in F3. injection F3 as <-. rewrite E5 in F4. injection F4 as <-.
    pose proof (solve_stores _ _ _ _ _ _ _ _ _ _ _ F5) as (T1 & _ & _).
    apply (record_ok _ _ _ _ _ _ _ _ _ _ _ _ _ _ _ F5) in F8 as (<- & _ & _ & _ & q & sp & m' & A4 & A5 & A6 & A7 & A8 & A9 & _).
    rewrite A4 in T1. unfold get_tdvp_equation in T1. cbn [fst o_eq] in T1. injection T1 as ->. cbn [e_mean e_var] in *. rewrite A7. f_equal. rewrite EL.
    exact (povm_var N commSize devices lastNorm (lp theta) HN Hc1 Hd Hfit (fun a (_ : unit) => current a) tt). }
  rewrite HVv in MV. injection MV as ->. split; [reflexivity|]. intros HV.
  destruct (C68_recorded n ej en c smp draw markov coeffs oloc grads fuel w P t w' u q1 cfg pr eloc (lmap (fun s j => RtoC (g theta s j)) cf) HT E1 E2 E4 E5 SG SE WK Hx') as (m' & M1 & M2 & M3 & M4). { rewrite VE. exact HV. }
  rewrite HM in M1. injection M1 as <-. rewrite VD, VE in M4. exact M4.
Qed.

(** the matrix with the difference of the probabilities *)
Lemma represented_minus P Q a : represented mc (fun b => P b - Q b) a = represented mc P a - represented mc Q a.
Proof. unfold represented. rewrite <- rsum_sub. apply rsum_ext. intros; ring. Qed.
Let flux P rho a (H : state_of N M P rho) (Ha : In a (words 4 N)) : represented mc P a = inflow N M terms rho a :=
  represented_inflow theta0 phi0 M T_inv sic inv N operators order h events k terms HO HU HNE HF mc HC P rho a H Ha.

(** the rate of the squared distance *)
Lemma distance_slope theta t u m v chi L b : lindbladian terms -> expands_at_most N M terms L -> mhermitian N (chi t) -> solves_lindblad N terms chi t ->
  povm_evaluation t (theta t) u m v -> 0 < v -> real_chain_rule n lp theta u (g (theta t)) t -> 0 <= b ->
  (forall e, m_error m = Fin e -> e * v <= b * b) ->
  let y := fun t => rsum (map (fun a => (distribution N (lp (theta t)) a - probability N M (chi t) a) * (distribution N (lp (theta t)) a - probability N M (chi t) a)) (words 4 N)) in
  let G := fun a => rsumn n (fun j => g (theta t) a j * u j) in
  let y' := rsum (map (fun a => 2 * ((distribution N (lp (theta t)) a - probability N M (chi t) a) * (distribution N (lp (theta t)) a * (G a - average N (lp (theta t)) G) - inflow N M terms (chi t) a))) (words 4 N)) in
  derivable_pt_lim y t y' /\ y' <= 2 * (L * y t) + 2 * (sqrt (y t) * b).
Proof.
  intros HL HX Hh HS HE HV HCh Hb Hm y G y'. split.
  - apply (deriv_rsum (words 4 N) (fun a t => (distribution N (lp (theta t)) a - probability N M (chi t) a) * (distribution N (lp (theta t)) a - probability N M (chi t) a))). intros a _.
    assert (D : derivable_pt_lim (fun t => distribution N (lp (theta t)) a - probability N M (chi t) a) t (distribution N (lp (theta t)) a * (G a - average N (lp (theta t)) G) - inflow N M terms (chi t) a)).
    { apply (derivable_pt_lim_minus (fun t => distribution N (lp (theta t)) a) (fun t => probability N M (chi t) a)); [exact (distribution_rate N n lp theta u (g (theta t)) t a HCh)|exact (probability_rate N M terms chi t a HS)]. }
    eapply deriv_value; [apply (derivable_pt_lim_mult (fun t => distribution N (lp (theta t)) a - probability N M (chi t) a) (fun t => distribution N (lp (theta t)) a - probability N M (chi t) a)); exact D|]. ring.
  - set (l := lp (theta t)) in *. set (P := distribution N l) in *. set (Q := probability N M (chi t)) in *. set (D := fun a => P a - Q a).
    destruct (C87_state theta0 phi0 M N P sic) as (rho & Hr & _). destruct (C87_state theta0 phi0 M N D sic) as (sigma & Hs & _).
    destruct (povm_records t (theta t) u m v rho HE Hr) as [V Em]. specialize (Hm _ (Em HV)).
    set (cu := fun a => inflow N M terms rho a / P a). set (r := fun a => G a - cu a).
    assert (VR : variation N l r <= b * b).
    { unfold Rdiv in Hm. rewrite Rmult_assoc, Rinv_l, Rmult_1_r in Hm by lra. exact Hm. }
    assert (AC : average N l cu = 0).
    { unfold average. rewrite <- (inflow_balance theta0 phi0 M T_inv sic N operators h events k terms HF rho (proj1 Hr) HL). apply rsum_ext. intros a _. unfold cu, P. pose proof (distribution_pos N l a). field. lra. }
    assert (AR : average N l r = average N l G).
    { transitivity (average N l (fun a => G a + (-1) * cu a)); [apply average_ext; intros; unfold r; ring|]. rewrite average_add, average_scal, AC. ring. }
    assert (HQ : state_of N M Q (chi t)) by (split; [exact Hh|reflexivity]).
    assert (FS : forall a, In a (words 4 N) -> inflow N M terms sigma a = inflow N M terms rho a - inflow N M terms (chi t) a).
    { intros a Ha. rewrite <- (flux D sigma a Hs Ha), <- (flux P rho a Hr Ha), <- (flux Q (chi t) a HQ Ha). apply represented_minus. }
    pose proof (HX sigma (proj1 Hs)) as XS.
    rewrite (rsum_ext _ (fun a => D a * inflow N M terms sigma a)) in XS by (intros a Ha; now rewrite (proj2 Hs a Ha)).
    rewrite (rsum_ext (fun a => probability N M sigma a * probability N M sigma a) (fun a => D a * D a)) in XS by (intros a Ha; now rewrite (proj2 Hs a Ha)).
    pose proof (residual_pull N l D r b Hb VR) as RP.
    assert (EY : y' = 2 * rsum (map (fun a => D a * inflow N M terms sigma a) (words 4 N)) + 2 * rsum (map (fun a => D a * (distribution N l a * (r a - average N l r))) (words 4 N))).
    { unfold y'. rewrite <- !rsum_scal, <- rsum_map_add. apply rsum_ext. intros a Ha. rewrite (FS a Ha), AR. unfold r, cu. assert (PP : 0 < P a) by apply distribution_pos. change (distribution N l a) with (P a). unfold D. field. lra. }
    change (y t) with (rsum (map (fun a => D a * D a) (words 4 N))). rewrite EY. lra.
Qed.

(** Along a trajectory whose parameters move with the returned velocities: if error times variance
    stays below b^2, the distance of the outcome probabilities from those of the exact solution is at
    most the initial distance plus the integral of b, stretched as the exact dynamics stretches
    distances. *)
Theorem C98_distance theta u T (m : R -> metadata) (v b B : R -> R) chi L : 0 <= T -> lindbladian terms -> expands_at_most N M terms L ->
  (forall t, 0 <= t <= T -> mhermitian N (chi t) /\ solves_lindblad N terms chi t) ->
  (forall t, 0 <= t <= T -> povm_evaluation t (theta t) (u t) (m t) (v t) /\ 0 < v t /\ real_chain_rule n lp theta (u t) (g (theta t)) t) ->
  (forall t, 0 <= t <= T -> 0 <= b t /\ derivable_pt_lim B t (exp (- L * t) * b t)) ->
  (forall t e, 0 <= t <= T -> m_error (m t) = Fin e -> e * v t <= b t * b t) ->
  outcome_distance N (distribution N (lp (theta T))) (probability N M (chi T))
    <= exp (L * T) * (outcome_distance N (distribution N (lp (theta 0))) (probability N M (chi 0)) + (B T - B 0)).
Proof.
  intros HT HL HX HS HE HB Hm. unfold outcome_distance.
  set (G := fun t a => rsumn n (fun j => g (theta t) a j * u t j)).
  apply (stretched (fun t => rsum (map (fun a => (distribution N (lp (theta t)) a - probability N M (chi t) a) * (distribution N (lp (theta t)) a - probability N M (chi t) a)) (words 4 N)))
    (fun t => rsum (map (fun a => 2 * ((distribution N (lp (theta t)) a - probability N M (chi t) a) * (distribution N (lp (theta t)) a * (G t a - average N (lp (theta t)) (G t)) - inflow N M terms (chi t) a))) (words 4 N))) b B L T HT).
  - intros t Ht. destruct (HS t Ht) as [S1 S2]. destruct (HE t Ht) as (E1 & E2 & E3). destruct (HB t Ht) as [B1 B2].
    exact (proj1 (distance_slope theta t (u t) (m t) (v t) chi L (b t) HL HX S1 S2 E1 E2 E3 B1 (fun e => Hm t e Ht))).
  - intros t Ht. apply HB, Ht.
  - intros t Ht. destruct (HS t Ht) as [S1 S2]. destruct (HE t Ht) as (E1 & E2 & E3). destruct (HB t Ht) as [B1 B2].
    split; [apply rsum_map_nonneg; intros; apply Rle_0_sqr|]. split; [exact B1|]. exact (proj2 (distance_slope theta t (u t) (m t) (v t) chi L (b t) HL HX S1 S2 E1 E2 E3 B1 (fun e => Hm t e Ht))).
Qed.

(** Some rate L always exists. *)
Theorem C98_growth : exists L, 0 <= L /\ expands_at_most N M terms L.
Proof.
  set (W := fun a => rsum (map (fun cw => Rabs (snd cw)) (get_s_primes mc a))). exists (rsum (map W (words 4 N))).
  assert (W0 : forall a, 0 <= W a) by (intros; apply rsum_map_nonneg; intros; apply Rabs_pos).
  split; [apply rsum_map_nonneg; intros; apply W0|]. intros sigma Hs. set (D := probability N M sigma). set (S := rsum (map (fun a => D a * D a) (words 4 N))).
  assert (S0 : 0 <= S) by (apply rsum_map_nonneg; intros; apply Rle_0_sqr).
  assert (DS : forall a, In a (words 4 N) -> D a * D a <= S).
  { unfold S. clear. induction (words 4 N) as [|b w IH]; intros a H; [destruct H|]. cbn [map]. rewrite rsum_cons. pose proof (rsum_map_nonneg (fun a => D a * D a) w ltac:(intros; apply Rle_0_sqr)) as Q. cbv beta in Q.
    destruct H as [<-|H]; [lra|]. specialize (IH a H). pose proof (Rle_0_sqr (D b)) as Q'. unfold Rsqr in Q'. lra. }
  set (D' := fun a => if in_dec (list_eq_dec Nat.eq_dec) a (words 4 N) then D a else 0).
  assert (D'S : forall a, D' a * D' a <= S). { intros a. unfold D'. destruct (in_dec _ a (words 4 N)) as [H|H]; [now apply DS|lra]. }
  rewrite <- rsum_scal_r. apply rsum_map_le. intros a Ha.
  rewrite <- (flux D sigma a (conj Hs (fun b _ => eq_refl)) Ha).
  rewrite (represented_ext M T_inv N operators order h events k terms HO HU HNE HF mc HC D D' a Ha) by (intros b Hb; unfold D'; destruct (in_dec _ b (words 4 N)); [reflexivity|contradiction]).
  unfold represented, W. rewrite <- rsum_scal, <- rsum_scal_r. apply rsum_map_le. intros [c' w] _. cbn [fst snd]. specialize (DS a Ha). specialize (D'S c').
  eapply Rle_trans; [apply Rle_abs|]. replace (D a * (w * D' c')) with (w * (D a * D' c')) by ring. rewrite Rabs_mult. apply Rmult_le_compat_l; [apply Rabs_pos|].
  apply Rabs_le. split; nra.
Qed.

(** The same bound for every converted observable, times the size of its array. *)
Theorem C98_observables theta u T (m : R -> metadata) (v b B : R -> R) chi L X_sites A O : 0 <= T -> lindbladian terms -> expands_at_most N M terms L ->
  (forall t, 0 <= t <= T -> mhermitian N (chi t) /\ solves_lindblad N terms chi t) ->
  (forall t, 0 <= t <= T -> povm_evaluation t (theta t) (u t) (m t) (v t) /\ 0 < v t /\ real_chain_rule n lp theta (u t) (g (theta t)) t) ->
  (forall t, 0 <= t <= T -> 0 <= b t /\ derivable_pt_lim B t (exp (- L * t) * b t)) ->
  (forall t e, 0 <= t <= T -> m_error (m t) = Fin e -> e * v t <= b t * b t) ->
  NoDup X_sites -> (forall i, In i X_sites -> (i < N)%nat) -> observable_array M T_inv X_sites A O -> hermitian (2 ^ length X_sites) A ->
  Rabs (average N (lp (theta T)) (fun a => O (digits4 (on a X_sites))) - Re (mtr N (mmul N (chi T) (embedded N A X_sites))))
    <= size N (fun a => O (digits4 (on a X_sites))) * (exp (L * T) * (outcome_distance N (distribution N (lp (theta 0))) (probability N M (chi 0)) + (B T - B 0))).
Proof.
  intros HT HL HX HS HE HB Hm ND IN HA HH. eapply Rle_trans; [|apply Rmult_le_compat_l; [apply sqrt_pos|exact (C98_distance theta u T m v b B chi L HT HL HX HS HE HB Hm)]].
  pose proof (C86_observable theta0 phi0 M T_inv N X_sites A O (chi T) sic inv ND IN HA HH (proj1 (HS T ltac:(lra)))) as EO. apply (f_equal Re) in EO. cbn [Re RtoC fst] in EO. rewrite <- EO.
  set (X := fun a => O (digits4 (on a X_sites))). set (D := fun a => distribution N (lp (theta T)) a - probability N M (chi T) a).
  assert (E : average N (lp (theta T)) X - rsum (map (fun a => probability N M (chi T) a * O (digits4 (on a X_sites))) (words 4 N)) = rsum (map (fun a => X a * D a) (words 4 N))).
  { unfold average. rewrite <- rsum_sub. apply rsum_ext. intros a _. unfold D, X. ring. }
  rewrite E. unfold size, outcome_distance. rewrite <- sqrt_mult by (apply rsum_map_nonneg; intros; apply Rle_0_sqr). rewrite <- sqrt_Rsqr_abs. apply sqrt_le_1_alt. exact (cs_list (words 4 N) X D).
Qed.
End Open.
Print Assumptions C98_distance.
Print Assumptions C98_growth.
Print Assumptions C98_observables.

(** A dephasing spin and a network with one parameter tau: the outcomes 1 and 2 have the
    probabilities 1/4 + exp(-2 tau)/8 and 1/4 - exp(-2 tau)/8, the others 1/4.  The exact solution has
    tau = t; the object returns nearly the velocity 1 at all parameters. *)
Definition pO (tau : R) (x : nat) : R := match x with 1%nat => 1/4 + exp (- 2 * tau) / 8 | 2%nat => 1/4 - exp (- 2 * tau) / 8 | _ => 1/4 end.
Definition dO (tau : R) (x : nat) : R := match x with 1%nat => - (exp (- 2 * tau) / 4) | 2%nat => exp (- 2 * tau) / 4 | _ => 0 end.
Definition lpO (theta : nat -> R) (s : config) : R := ln (pO (theta 0%nat) (nth 0 s 0%nat)).
Definition gO (theta : nat -> R) (s : config) (k : nat) : R := dO (theta 0%nat) (nth 0 s 0%nat) / pO (theta 0%nat) (nth 0 s 0%nat).
Definition setO : settings := mk_settings true 2 (1/2) (/ 10 ^ 8) false (- C1)%C 0 false true.
Definition chiO (t : R) : mmat := state 0 0 1 (fun a => pO t (nth 0 a 0%nat)).
Notation prO theta := (povm_probs 1 2 1 0 (lpO theta)).
Notation callO x := (tdvp_call 1 eigh1 eigh1 setO Exact (fun q => Ok (tt, prO (phase_of q))) (fun _ => Ok tt) (fun _ _ => Err AttributeError)
  (fun q _ _ => do e <- povm_local 1 2 1 (lpO (phase_of q)) spin_mc 0; Ok (lmap (fun x (_ : unit) => x) e))
  (fun q _ => Ok (lmap (fun s j => RtoC (gO (phase_of q) s j)) (configs 4 1 2 1))) 1 (mk_world psi1 o4 0) (PVec [x])).
Notation callsO := (povm_evaluation 1 spin_mc 2 1 0 1 lpO gO eigh1 eigh1 setO Exact
  (fun q => Ok (tt, prO (phase_of q))) (fun _ => Ok tt) (fun _ _ => Err AttributeError)
  (fun q _ _ => do e <- povm_local 1 2 1 (lpO (phase_of q)) spin_mc 0; Ok (lmap (fun x (_ : unit) => x) e))
  (fun q _ => Ok (lmap (fun s j => RtoC (gO (phase_of q) s j)) (configs 4 1 2 1))) 1).
Definition metaO (x t : R) : metadata := match o_meta (w_obj (fst (callO x t (Some 0%nat)))) with Some m => m | None => mk_meta NaN NaN 0 (fun _ => NaN) (fun _ => 0) None None end.
Definition varO (x : R) : R := variation 1 (lpO (fun _ => x)) (fun a => gO (fun _ => x) a 0%nat).

Lemma expO x : 0 <= x -> 0 < exp (- 2 * x) <= 1.
Proof. intros Hx. split; [apply exp_pos|]. rewrite <- exp_0. destruct (Rle_lt_or_eq_dec 0 x Hx) as [H|<-]; [left; apply exp_increasing; lra|right; f_equal; ring]. Qed.
Lemma pO_pos x s : 0 <= x -> 0 < pO x s.
Proof. intros Hx. pose proof (expO x Hx). unfold pO. destruct s as [|[|[|s]]]; lra. Qed.
Lemma words41 : words 4 1 = [[0%nat]; [1%nat]; [2%nat]; [3%nat]]. Proof. reflexivity. Qed.
Lemma distributionO x s : 0 <= x -> distribution 1 (lpO (fun _ => x)) s = pO x (nth 0 s 0%nat).
Proof.
  intros Hx. unfold distribution, lpO. rewrite words41. cbn [map nth]. rewrite !exp_ln by (now apply pO_pos). rewrite !rsum_cons, rsum_nil.
  assert (Z : pO x 0 + (pO x 1 + (pO x 2 + (pO x 3 + 0))) = 1) by (unfold pO; field). rewrite Z. field.
Qed.
Lemma average4 x X : 0 <= x -> average 1 (lpO (fun _ => x)) X = pO x 0 * X [0%nat] + pO x 1 * X [1%nat] + pO x 2 * X [2%nat] + pO x 3 * X [3%nat].
Proof. intros Hx. unfold average. rewrite words41. cbn [map]. rewrite !rsum_cons, rsum_nil, !distributionO by exact Hx. cbn [nth]. ring. Qed.
Lemma averageO x : 0 <= x -> average 1 (lpO (fun _ => x)) (fun a => gO (fun _ => x) a 0%nat) = 0.
Proof.
  intros Hx. rewrite average4 by exact Hx. unfold gO. cbn [nth]. pose proof (pO_pos x 0 Hx). pose proof (pO_pos x 1 Hx). pose proof (pO_pos x 2 Hx). pose proof (pO_pos x 3 Hx).
  transitivity (dO x 0 + dO x 1 + dO x 2 + dO x 3); [field; lra|]. unfold dO. ring.
Qed.
Lemma varO_value x : 0 <= x -> varO x = dO x 1 * dO x 1 / pO x 1 + dO x 2 * dO x 2 / pO x 2.
Proof.
  intros Hx. unfold varO, variation. rewrite averageO, average4 by exact Hx. unfold gO. cbn [nth]. pose proof (pO_pos x 1 Hx). pose proof (pO_pos x 2 Hx).
  change (dO x 0) with 0. change (dO x 3) with 0. unfold Rdiv. rewrite !Rmult_0_l, !Rminus_0_r, !Rmult_0_l, !Rmult_0_r. field. lra.
Qed.
Lemma varO_bounds x : 0 <= x -> 0 < varO x <= 1.
Proof.
  intros Hx. pose proof (expO x Hx) as [E1 E2]. rewrite (varO_value x Hx). unfold dO, pO. set (e := exp (- 2 * x)) in *. clearbody e.
  assert (V : - (e / 4) * - (e / 4) / (1 / 4 + e / 8) + e / 4 * (e / 4) / (1 / 4 - e / 8) = 2 * (e * e) / (4 - e * e)) by (field; split; nra).
  rewrite V. assert (P : 0 < 4 - e * e) by nra. split; [apply Rmult_lt_0_compat; [nra|now apply Rinv_0_lt_compat]|]. apply (Rmult_le_reg_r (4 - e * e)); [exact P|]. unfold Rdiv. rewrite Rmult_assoc, Rinv_l by lra. nra.
Qed.
(** the motion of the probabilities *)
Lemma qO_deriv t : derivable_pt_lim (fun t => exp (- 2 * t)) t (- 2 * exp (- 2 * t)).
Proof. eapply deriv_value; [apply (derivable_pt_lim_comp (fun t => - 2 * t) exp); [apply (derivable_pt_lim_scal (fun t => t)); apply derivable_pt_lim_id|apply derivable_pt_lim_exp]|ring]. Qed.
Lemma pO_deriv t x : derivable_pt_lim (fun t => pO t x) t (dO t x).
Proof.
  destruct x as [|[|[|x]]]; cbn [pO dO]; try apply derivable_pt_lim_const.
  - eapply deriv_value; [apply (deriv_ext (fun t => 1/4 + 1/8 * exp (- 2 * t))); [intros; field|apply (derivable_pt_lim_plus (fun _ => 1/4) (fun t => 1/8 * exp (- 2 * t))); [apply derivable_pt_lim_const|apply (derivable_pt_lim_scal (fun t => exp (- 2 * t))); apply qO_deriv]]|]. field.
  - eapply deriv_value; [apply (deriv_ext (fun t => 1/4 + (-1/8) * exp (- 2 * t))); [intros; field|apply (derivable_pt_lim_plus (fun _ => 1/4) (fun t => (-1/8) * exp (- 2 * t))); [apply derivable_pt_lim_const|apply (derivable_pt_lim_scal (fun t => exp (- 2 * t))); apply qO_deriv]]|]. field.
Qed.
Lemma chain_ruleO v t : 0 <= v * t -> real_chain_rule 1 lpO (fun t _ => v * t) (fun _ => v) (gO (fun _ => v * t)) t.
Proof.
  intros Ht s. unfold lpO, gO, rsumn. cbn [seq map]. rewrite rsum_cons, rsum_nil. set (x := nth 0 s 0%nat). pose proof (pO_pos (v * t) x Ht) as P.
  eapply deriv_value; [apply (derivable_pt_lim_comp (fun t => pO (v * t) x) ln); [apply (derivable_pt_lim_comp (fun t => v * t) (fun t => pO t x)); [apply (derivable_pt_lim_scal (fun t => t)); apply derivable_pt_lim_id|apply pO_deriv]|apply derivable_pt_lim_ln; exact P]|]. field. lra.
Qed.
(** states *)
Lemma state_ok N P : state_of N M0 P (state 0 0 N P).
Proof. split; [apply state_hermitian|]. intros a Ha. unfold probability, M0. now rewrite state_probability. Qed.
Lemma spin_motion P rho x s : (forall y, (y < 4)%nat -> P [y] = pO x y) -> state_of 1 M0 P rho -> In s (words 4 1) -> inflow 1 M0 spin_terms rho s = dO x (nth 0 s 0%nat).
Proof.
  intros HP Hr Hs. apply words_1 in Hs as (y & Hy & ->). rewrite (spin_inflow P rho y Hr Hy), rsumn4, !HP by lia. cbn [nth]. unfold spin_w. cases4 y Hy; cbn [Nat.eqb orb pO dO]; field.
Qed.
Lemma localO x : 0 <= x -> povm_local 1 2 1 (lpO (fun _ => x)) spin_mc 0 = Ok (lmap (fun a => RtoC (gO (fun _ => x) a 0%nat)) (configs 4 1 2 1)).
Proof.
  intros Hx. pose proof (state_ok 1 (distribution 1 (lpO (fun _ => x)))) as Hr.
  rewrite (proj1 (C87_local 0 0 M0 sic_inv M0_sic (sic_inverse 0 0) 1 _ dedup spin_heap spin_events 0 spin_terms dedup_iterates spin_unshared ltac:(discriminate) spin_stored spin_mc spin_compile spin_clean 2 1 0 0 ltac:(lia) ltac:(cbn; lia) ltac:(lia) spin_complete lpO (fun _ => x) _ Hr)).
  f_equal. apply (lmap_words M0 1 dedup spin_terms dedup_iterates spin_mc spin_clean 2 1 ltac:(lia) ltac:(cbn; lia) ltac:(lia) spin_complete lpO (fun _ => x) (state 0 0 1 (distribution 1 (lpO (fun _ => x))))). intros s Hs. f_equal. rewrite (spin_motion _ _ x s ltac:(intros y _; now apply distributionO) Hr Hs), distributionO by exact Hx. reflexivity.
Qed.
(** one pass of the loop suffices *)
Lemma solveO x E G : Re (covar G G (0%nat, 0%nat)) = x -> Re (covar G E (0%nat, tt)) = x -> 0 < x ->
  exists o' res cut, solve 1 eigh1 eigh1 setO 1 0 o4 E G = (o', Ok (Some (fun _ => damping), res, cut)).
Proof.
  intros E1 E2 Hx. unfold solve. destruct (get_tdvp_equation setO o4 E G) as [o1 [A F]] eqn:EQ.
  assert (HA : A 0%nat 0%nat = RtoC x /\ F 0%nat = RtoC x).
  { unfold get_tdvp_equation in EQ. pose proof (f_equal (fun x => fst (snd x) 0%nat 0%nat) EQ) as Q1. pose proof (f_equal (fun x => snd (snd x) 0%nat) EQ) as Q2. cbn [fst snd] in Q1, Q2. rewrite <- Q1, <- Q2. clear Q1 Q2 EQ.
    destruct (Rlt_dec (/ 10 ^ 10) (c_shift setO)) as [Hbad|_]; [exfalso; revert Hbad; cbn [setO c_shift]; apply Rle_not_lt; left; apply Rinv_0_lt_compat, pow_lt; lra|].
    rewrite !Tdvp3_Proofs.makeReal_part. unfold part, setO. cbn [c_imag c_prefactor]. split; [now rewrite E1|]. f_equal. rewrite <- E2. destruct (covar G E (0%nat, tt)) as [a b]. cbn. ring. }
  destruct HA as [HA HF]. clear EQ.
  change (eigenbasis eigh1 eigh1 setO A) with (Ok (fun _ : nat => Re (A 0%nat 0%nat), fun _ _ : nat => C1)). cbv beta iota zeta.
  set (sp := mk_spectrum _ _ _ _ _ _).
  assert (P8 : 0 < / 10 ^ 8 < 8/1000).
  { split; [apply Rinv_0_lt_compat, pow_lt; lra|]. apply (Rmult_lt_reg_l (10 ^ 8)); [apply pow_lt; lra|]. rewrite Rinv_r by (apply pow_nonzero; lra).
    assert (10 ^ 3 <= 10 ^ 8) by (apply Rle_pow; [lra|lia]). lra. }
  assert (EVx : s_ev sp 0%nat = x) by (cbn [sp s_ev]; rewrite HA; reflexivity).
  assert (RE : rel_ev 1 (s_ev sp) 0 = Fin 1).
  { unfold rel_ev. cbn [Nat.sub]. rewrite EVx. unfold xdiv. destruct (Req_EM_T (Rabs x) 0) as [Q|Q]; [rewrite Rabs_right in Q by lra; lra|]. f_equal. field. exact Q. }
  assert (IV : s_invEv sp 0%nat = 1 / x).
  { cbn [sp s_invEv]. unfold inv_ev. change (rel_ev 1 (fun _ : nat => Re (A 0%nat 0%nat)) 0) with (rel_ev 1 (s_ev sp) 0). rewrite RE. unfold xlt.
    destruct (Rlt_dec (/ 10 ^ 14) 1) as [_|Q]; [now rewrite HA|]. exfalso. apply Q. apply (Rmult_lt_reg_l (10 ^ 14)); [apply pow_lt; lra|]. rewrite Rinv_r by (apply pow_nonzero; lra). rewrite Rmult_1_r. apply Rlt_pow_R1; [lra|lia]. }
  assert (VT : s_VtF sp 0%nat = RtoC x).
  { cbn [sp s_VtF]. unfold dot, csumn. cbn [seq map]. rewrite csum_cons, csum_nil, HF. unfold conj_transpose. apply C_eq; cbn; ring. }
  assert (CU : / 10 ^ 2 * (8/10) = 8/1000) by field.
  assert (PI : pinv_ev 1 setO sp (/ 10 ^ 2 * (8/10)) 0 = Fin (1 / x * damping)).
  { unfold pinv_ev. rewrite RE, CU. change (c_pinvCutoff setO) with (/ 10 ^ 8). change (c_exact setO) with true. cbv beta iota zeta. rewrite Rmax_left by lra. unfold soft_cutoff, xdiv, xpow6, xplus1.
    destruct (Req_EM_T 1 0) as [Q|_]; [lra|]. replace (8 / 1000 / 1) with (8/1000) by field. destruct (Req_EM_T (1 + (8/1000) ^ 6) 0) as [Q|_]; [exfalso; assert (0 < (8/1000) ^ 6) by (apply pow_lt; lra); lra|]. unfold xmul. rewrite IV. reflexivity. }
  destruct (Tdvp2_Proofs.finite_vec_ok 1 (pinv_ev 1 setO sp (/ 10 ^ 2 * (8/10))) (fun _ => 1 / x * damping)) as (p & FV & Hp'); [intros j Hj; assert (j = 0)%nat by lia; subst j; exact PI|].
  assert (RS : residual_of 1 sp (norm 1 F) (pinv_ev 1 setO sp (/ 10 ^ 2 * (8/10))) = Fin (1 - damping)).
  { unfold residual_of. rewrite FV. unfold norm, rsumn. cbn [seq map]. rewrite !rsum_cons, rsum_nil, Hp', EVx, VT, HF by lia.
    rewrite !Rplus_0_r. assert (N1 : sqrt (Cnorm2 (RtoC x)) = x) by (transitivity (sqrt (x * x)); [f_equal; unfold Cnorm2; cbn; ring|apply sqrt_square; lra]).
    assert (N2 : sqrt (Cnorm2 (RtoC (1 / x * damping * x - 1) * RtoC x)%C) = (1 - damping) * x).
    { pose proof damping_bounds. transitivity (sqrt (((1 - damping) * x) * ((1 - damping) * x))); [f_equal; unfold Cnorm2; cbn; field; lra|apply sqrt_square; apply Rmult_le_pos; lra]. }
    rewrite N1, N2. unfold xdiv. destruct (Req_EM_T x 0) as [Q|_]; [lra|]. f_equal. field. lra. }
  assert (SE : search 1 setO 1 sp (norm 1 F) (Fin 1) (/ 10 ^ 2) None = Ok (Fin (1 - damping), / 10 ^ 2 * (8/10), Some (pinv_ev 1 setO sp (/ 10 ^ 2 * (8/10))))).
  { cbn [search]. change (c_pinvTol setO) with (1/2). change (c_pinvCutoff setO) with (/ 10 ^ 8). unfold xlt at 1. destruct (Rlt_dec (1/2) 1) as [_|Q]; [|lra]. destruct (Rlt_dec (/ 10 ^ 8) (/ 10 ^ 2)) as [_|Q]; [|exfalso; apply Q; lra].
    cbn [andb]. rewrite RS. unfold xlt. pose proof damping_bounds. destruct (Rlt_dec (1/2) (1 - damping)) as [Q|_]; [lra|]. reflexivity. }
  unfold regularise. rewrite SE. cbn [bind]. rewrite FV. eexists _, _, _. f_equal. f_equal. f_equal. f_equal. f_equal. apply functional_extensionality. intros j.
  unfold dot, csumn. cbn [seq map]. rewrite csum_cons, csum_nil, Hp', VT by lia. cbn [sp s_V]. cbn. field. lra.
Qed.
(** every call returns this velocity and records metadata and variance *)
Lemma runsO x t : 0 <= x -> callsO t (fun _ => x) (fun _ => damping) (metaO x t) (varO x).
Proof.
  intros Hx0. pose proof (fit_4 1 2 1 ltac:(lia) ltac:(cbn; lia) ltac:(lia) spin_complete) as Hfit.
  set (el := lmap (fun a => RtoC (gO (fun _ => x) a 0%nat)) (configs 4 1 2 1)). set (pr := prO (fun _ : nat => x)). set (gr := lmap (fun s j => RtoC (gO (fun _ : nat => x) s j)) (configs 4 1 2 1)).
  assert (EV : lmap (fun x (_ : unit) => x) el = lmap (fun (s : config) (_ : unit) => RtoC (gO (fun _ => x) s 0%nat)) (configs 4 1 2 1)) by reflexivity.
  destruct (solveO (varO x) (init (lmap (fun x (_ : unit) => x) el) pr) (init gr pr)) as (o' & res & cut & K).
  { unfold gr, pr. rewrite (povm_cov 1 2 1 0 (lpO (fun _ => x)) ltac:(lia) ltac:(lia) ltac:(lia) Hfit (gO (fun _ => x)) (gO (fun _ => x))). cbn [Re RtoC fst]. now rewrite <- variation_covariance. }
  { rewrite EV. unfold gr, pr. rewrite (povm_cov 1 2 1 0 (lpO (fun _ => x)) ltac:(lia) ltac:(lia) ltac:(lia) Hfit (gO (fun _ => x)) (fun s (_ : unit) => gO (fun _ => x) s 0%nat)). cbn [Re RtoC fst]. now rewrite <- variation_covariance. }
  { now apply varO_bounds. }
  set (q1 := set_params psi1 [[(x, 0)]]).
  assert (RUN : exists w', callO x t (Some 0%nat) = (w', Ok (Some (fun _ => damping))) /\ o_var0 (w_obj w') = Some (var (init (lmap (fun x (_ : unit) => x) el) pr) tt) /\ o_meta (w_obj w') <> None).
  { assert (E1 : set_parameters psi1 (PVec [x]) = Ok q1) by reflexivity.
    unfold tdvp_call. cbn [w_psi w_obj w_glob]. rewrite E1. unfold do_sample, sample_exact.
    cbn -[povm_probs povm_local configs lmap solve record_step lpO gO init el pr gr psi1 setO].
    change (povm_local 1 2 1 (lpO (phase_of q1)) spin_mc 0) with (povm_local 1 2 1 (lpO (fun _ => x)) spin_mc 0).
    rewrite (localO x Hx0). cbn -[povm_probs configs lmap solve record_step lpO gO init el pr gr psi1 setO]. fold el pr.
    change (povm_probs 1 2 1 0 (lpO (phase_of q1))) with pr. change (lmap (fun s j => RtoC (gO (phase_of q1) s j)) (configs 4 1 2 1)) with gr. rewrite K.
    pose proof (solve_stores _ _ _ _ _ _ _ _ _ _ _ K) as (T1 & T2 & T3).
    cbn -[povm_probs configs lmap solve record_step lpO gO init el pr gr setO].
    unfold record_step. rewrite T1. unfold get_tdvp_equation at 1. cbn [fst o_eq]. destruct (o_sp o'); [|congruence]. cbn [c_crossVal setO].
    eexists. split; [reflexivity|]. cbn [w_obj o_var0 o_meta]. split; [reflexivity|discriminate]. }
  destruct RUN as (w' & K1 & K2 & K3).
  exists (mk_world psi1 o4 0), (PVec [x]), w', q1, tt, el, 0.
  split; [exact K1|]. split; [reflexivity|]. split; [reflexivity|]. split; [now apply localO|]. split; [change (povm_local 1 2 1 (lpO (phase_of q1)) spin_mc 0) with (povm_local 1 2 1 (lpO (fun _ => x)) spin_mc 0); rewrite (localO x Hx0); reflexivity|]. split; [reflexivity|].
  split; [unfold metaO; rewrite K1; cbn [fst]; destruct (o_meta (w_obj w')); [reflexivity|congruence]|]. rewrite K2. f_equal. rewrite EV. unfold pr.
  exact (povm_var 1 2 1 0 (lpO (fun _ => x)) ltac:(lia) ltac:(lia) ltac:(lia) Hfit (fun s (_ : unit) => gO (fun _ => x) s 0%nat) tt).
Qed.
(** the error is the square of 1 - damping *)
Lemma errorO x t : 0 <= x -> m_error (metaO x t) = Fin ((1 - damping) * (1 - damping)).
Proof.
  intros Hx. set (l := lpO (fun _ => x)). pose proof (state_ok 1 (distribution 1 l)) as Hr.
  destruct (povm_records 0 0 M0 sic_inv M0_sic (sic_inverse 0 0) 1 _ dedup spin_heap spin_events 0 spin_terms dedup_iterates spin_unshared ltac:(discriminate) spin_stored spin_mc spin_compile spin_clean 2 1 0 ltac:(lia) ltac:(cbn; lia) ltac:(lia) spin_complete
    1 lpO gO eigh1 eigh1 setO Exact _ _ _ _ _ 1%nat eq_refl t (fun _ => x) (fun _ => damping) (metaO x t) (varO x) _ (runsO x t Hx) Hr) as [_ Q].
  pose proof (varO_bounds x Hx) as [V _]. rewrite (Q V). f_equal. fold l.
  assert (E : forall a, In a (words 4 1) -> rsumn 1 (fun j => gO (fun _ => x) a j * damping) - inflow 1 M0 spin_terms (state 0 0 1 (distribution 1 l)) a / distribution 1 l a = (damping - 1) * gO (fun _ => x) a 0%nat).
  { intros a Ha. rewrite (spin_motion _ _ x a ltac:(intros y _; now apply distributionO) Hr Ha). unfold l. rewrite distributionO by exact Hx. unfold rsumn, gO. cbn [seq map]. rewrite rsum_cons, rsum_nil. pose proof (pO_pos x (nth 0 a 0%nat) Hx). field. lra. }
  rewrite (variation_ext 1 l _ _ E). unfold variation. rewrite average_scal. unfold l. rewrite averageO by exact Hx.
  rewrite (average_ext 1 (lpO (fun _ => x)) _ (fun a => ((1 - damping) * (1 - damping)) * ((gO (fun _ => x) a 0%nat - 0) * (gO (fun _ => x) a 0%nat - 0)))) by (intros; ring). rewrite average_scal.
  assert (EV : average 1 (lpO (fun _ => x)) (fun a => (gO (fun _ => x) a 0%nat - 0) * (gO (fun _ => x) a 0%nat - 0)) = varO x) by (unfold varO, variation; now rewrite averageO). 
  match goal with |- _ * ?z / _ = _ => replace z with (varO x) by (symmetry; exact EV) end. field. lra.
Qed.
(** the exact solution *)
Lemma chiO_solves t : solves_lindblad 1 spin_terms chiO t.
Proof.
  intros x y Hx Hy. assert (HQ : state_of 1 M0 (fun a => pO t (nth 0 a 0%nat)) (chiO t)) by apply state_ok.
  assert (HG : state_of 1 M0 (fun a => dO t (nth 0 a 0%nat)) (generator 1 spin_terms (chiO t))).
  { split; [exact (generator_herm M0 sic_inv 1 _ spin_heap spin_events 0 spin_terms spin_stored (chiO t) (proj1 HQ))|]. intros a Ha. rewrite <- inflow_probability. exact (spin_motion (fun a => pO t (nth 0 a 0%nat)) _ t a (fun y _ => eq_refl) HQ Ha). }
  destruct (C87_state 0 0 M0 1 (fun a => dO t (nth 0 a 0%nat)) M0_sic) as (rho & _ & U). rewrite (U _ HG x y Hx Hy), <- (U _ (state_ok 1 _) x y Hx Hy).
  unfold chiO, state, over. apply (cderiv_csum (words 4 1) (fun a s => (RtoC (pO s (nth 0 a 0%nat)) * dual_product 0 0 1 a x y)%C) (fun a => (RtoC (dO t (nth 0 a 0%nat)) * dual_product 0 0 1 a x y)%C)). intros a _.
  assert (D : cderiv (fun s => RtoC (pO s (nth 0 a 0%nat))) t (RtoC (dO t (nth 0 a 0%nat)))) by (split; cbn [Re Im RtoC fst snd]; [apply pO_deriv|apply derivable_pt_lim_const]).
  pose proof (cderiv_mul _ (fun _ => dual_product 0 0 1 a x y) t _ _ D (cderiv_const _ _)) as Q. cbv beta in Q.
  replace (RtoC (dO t (nth 0 a 0%nat)) * dual_product 0 0 1 a x y)%C with (RtoC (dO t (nth 0 a 0%nat)) * dual_product 0 0 1 a x y + RtoC (pO t (nth 0 a 0%nat)) * C0)%C by ring. exact Q.
Qed.
(** dephasing stretches no distances *)
Lemma spin_contracts : expands_at_most 1 M0 spin_terms 0.
Proof.
  intros sigma Hs. assert (HD : state_of 1 M0 (probability 1 M0 sigma) sigma) by (split; [exact Hs|reflexivity]). rewrite Rmult_0_l, words41. cbn [map]. rewrite !rsum_cons, rsum_nil, !(spin_inflow _ sigma _ HD) by lia. rewrite !rsumn4. unfold spin_w. cbn [Nat.eqb orb].
  set (a := probability 1 M0 sigma [0%nat]). set (b := probability 1 M0 sigma [1%nat]). set (e := probability 1 M0 sigma [2%nat]). set (f := probability 1 M0 sigma [3%nat]). clearbody a b e f.
  pose proof (Rle_0_sqr (b - e)) as Q1. pose proof (Rle_0_sqr (b - f)) as Q2. pose proof (Rle_0_sqr (e - f)) as Q3. unfold Rsqr in *. lra.
Qed.
(** all hypotheses hold at all times; the distance stays below (1 - damping) T *)
Example C98_case : let theta := fun t (_ : nat) => damping * t in
  (forall t, mhermitian 1 (chiO t) /\ solves_lindblad 1 spin_terms chiO t)
  /\ (forall t, 0 <= t -> callsO t (theta t) (fun _ => damping) (metaO (damping * t) t) (varO (damping * t)) /\ 0 < varO (damping * t) /\ real_chain_rule 1 lpO theta (fun _ => damping) (gO (theta t)) t)
  /\ (forall t e, 0 <= t -> m_error (metaO (damping * t) t) = Fin e -> e * varO (damping * t) <= (1 - damping) * (1 - damping))
  /\ lindbladian spin_terms /\ expands_at_most 1 M0 spin_terms 0 /\ c_prefactor setO = (- C1)%C
  /\ outcome_distance 1 (distribution 1 (lpO (theta 0))) (probability 1 M0 (chiO 0)) = 0
  /\ forall T, 0 <= T -> outcome_distance 1 (distribution 1 (lpO (theta T))) (probability 1 M0 (chiO T)) <= (1 - damping) * T.
Proof.
  intros theta. pose proof damping_bounds as DB.
  assert (H1 : forall t, mhermitian 1 (chiO t) /\ solves_lindblad 1 spin_terms chiO t) by (intros t; split; [apply state_hermitian|apply chiO_solves]).
  assert (HP : forall t, 0 <= t -> 0 <= damping * t) by (intros; apply Rmult_le_pos; lra).
  assert (H2 : forall t, 0 <= t -> callsO t (theta t) (fun _ => damping) (metaO (damping * t) t) (varO (damping * t)) /\ 0 < varO (damping * t) /\ real_chain_rule 1 lpO theta (fun _ => damping) (gO (theta t)) t).
  { intros t Ht. split; [apply runsO; auto|]. split; [apply varO_bounds; auto|apply chain_ruleO; auto]. }
  assert (H3 : forall t e, 0 <= t -> m_error (metaO (damping * t) t) = Fin e -> e * varO (damping * t) <= (1 - damping) * (1 - damping)).
  { intros t e Ht. rewrite errorO by auto. intros Q. injection Q as <-. pose proof (varO_bounds (damping * t) (HP t Ht)). rewrite <- (Rmult_1_r ((1 - damping) * (1 - damping))) at 2. apply Rmult_le_compat_l; [apply Rmult_le_pos; lra|lra]. }
  assert (H4 : outcome_distance 1 (distribution 1 (lpO (theta 0))) (probability 1 M0 (chiO 0)) = 0).
  { unfold outcome_distance. etransitivity; [|exact sqrt_0]. f_equal. etransitivity; [|exact (rsum_zero (words 4 1))]. apply rsum_ext. intros a Ha. replace (probability 1 M0 (chiO 0) a) with (pO 0 (nth 0 a 0%nat)) by (symmetry; exact (proj2 (state_ok 1 (fun a => pO 0 (nth 0 a 0%nat))) a Ha)).
    unfold theta. rewrite Rmult_0_r, distributionO by lra. ring. }
  split; [exact H1|]. split; [exact H2|]. split; [exact H3|]. split; [exact spin_lindbladian|]. split; [exact spin_contracts|]. split; [reflexivity|]. split; [exact H4|]. intros T HT.
  pose proof (C98_distance 0 0 M0 sic_inv M0_sic (sic_inverse 0 0) 1 _ dedup spin_heap spin_events 0 spin_terms dedup_iterates spin_unshared ltac:(discriminate) spin_stored spin_mc spin_compile spin_clean 2 1 0 ltac:(lia) ltac:(cbn; lia) ltac:(lia) spin_complete
    1 lpO gO eigh1 eigh1 setO Exact _ _ _ _ _ 1%nat eq_refl theta (fun _ _ => damping) T (fun t => metaO (damping * t) t) (fun t => varO (damping * t)) (fun _ => 1 - damping) (fun t => (1 - damping) * t) chiO 0 HT spin_lindbladian spin_contracts
    (fun t _ => H1 t) (fun t Ht => H2 t (proj1 Ht))) as Q.
  rewrite H4 in Q. cbv beta in Q. rewrite Rmult_0_l, exp_0 in Q. eapply Rle_trans; [apply Q|right; ring].
  - intros t Ht. split; [lra|]. eapply deriv_value; [apply (derivable_pt_lim_scal (fun t => t)); apply derivable_pt_lim_id|]. rewrite Ropp_0, Rmult_0_l, exp_0. ring.
  - intros t e Ht. apply H3, Ht.
Qed.
