(** Time evolution of open systems: the network of outcome probabilities follows the Lindblad equation
    up to the error that the TDVP object records (C87). *)
From Coq Require Import ZArith String List Reals Lra Lia Bool Arith Permutation.
From Verif Require Import OpBase_Model OpBase_Spec.
From Verif Require Import Base Cplx Mpi_Model Povm_Model Povm_Spec Povm_Proofs Povm2_Proofs Povm_Props PovmOp_Model PovmOp_Spec PovmOp_Props Many_Model Many_Spec Many_Proofs Many_Props.
From Verif Require Import Stats_Model Stats_Spec Stats_Proofs BranchFree_Model Sampler_Spec Exact_Model Exact_Spec Exact_Proofs Exact_Props Stepper_Model Vqs_Model Tdvp_Model Tdvp_Spec Tdvp_Proofs Tdvp6_Proofs Tdvp7_Proofs Tdvp_Props.
From Verif Require Import Vmc_Model Vmc_Spec Vmc_Proofs Vmc2_Proofs Lind_Model Lind_Spec Lind_Proofs Lind2_Proofs Lind3_Proofs Lind4_Proofs.
Import ListNotations.
Local Open Scope R_scope.

(** ** C87 *)

(** Every distribution on the outcomes belongs to exactly one Hermitian matrix of N spins. *)
Theorem C87_state theta phi M N (P : list nat -> R) : get_M theta phi "SIC" = Ok M ->
  exists rho, state_of N M P rho /\ forall rho', state_of N M P rho' -> forall x y, In x (words 2 N) -> In y (words 2 N) -> rho' x y = rho x y.
Proof.
  intros HS. injection HS as E. exists (state theta phi N P). split.
  - split; [apply state_hermitian|]. intros a Ha. unfold probability. rewrite <- E. now rewrite state_probability.
  - intros rho' [H1 H2] x y Hx Hy. rewrite <- (reconstruct theta phi N rho' x y Hx Hy). unfold state. apply over_ext. intros a Ha. f_equal. rewrite <- (H2 a Ha). unfold probability. rewrite <- E. symmetry. apply m_real; [exact H1|].
    apply element_hermitian; [|exact Ha]. intros c _. apply M_hermitian.
Qed.
Print Assumptions C87_state.

(** the array that [matrix_to_povm] returns for the observable A on the sites l *)
Definition observable_array (M : nat -> cmat) (T_inv : cmat) (l : list nat) (A : mat) (O : nat -> R) : Prop :=
  (length l = 1%nat /\ matrix_to_povm 2 4 A M T_inv "observable" = Ok (Vec O)) \/
  (length l = 2%nat /\ matrix_to_povm 4 16 A (M_2Body M) (T_inv_2Body T_inv) "observable" = Ok (Vec O)).

Section Evolution.
(** the measurement *)
Variables (theta phi : R) (M : nat -> cmat) (T_inv : cmat).
Hypothesis sic : get_M theta phi "SIC" = Ok M.
Hypothesis inv : inverse 4 (overlap 2 M) T_inv.
(** the operator, compiled after any history of additions *)
Variables (N : nat) (operators : list (string * sized)) (order : list (list nat) -> list (list nat)) (h : heap) (events : list (nat * nat)) (k : nat) (terms : list term).
Hypothesis HO : forall l, iterates l (order l).
Hypothesis HU : unshared k events.
Hypothesis HNE : added k events <> [].
Hypothesis HF : Forall2 (stored M T_inv N operators) (map h (added k events)) terms.
Variable mc : nat * list (list nat * (nat -> nat -> R)).
Hypothesis HC : PovmOp_Model.compile operators order (fst (history h events)) (snd (history h events) k) = Ok mc.
Hypothesis Hclean : forall s, In s (words 4 N) -> clean (povm_elements mc s).
(** ranks and devices, earlier calls of the sampler, batch size *)
Variables (commSize devices : Z) (lastNorm : R) (bs : nat).
Hypothesis HN : (0 < N)%nat.
Hypothesis Hc : (0 < commSize <= 4 ^ Z.of_nat N)%Z.
Hypothesis Hd : (0 < devices)%Z.
Hypothesis Hco : complete_enumeration N 4 commSize devices.
(** the network with n parameters, at the parameters th *)
Variables (n : nat) (lp : (nat -> R) -> config -> R) (th : nat -> R) (g : config -> nat -> R).
Hypothesis Hg : real_gradient n lp th g.
(** the state of the spins *)
Variable rho : mmat.
Hypothesis Hrho : state_of N M (distribution N (lp th)) rho.

Let current (a : config) : R := inflow N M terms rho a / distribution N (lp th) a.

Lemma fit_4 : forall r, (0 <= r < commSize)%Z -> fits (4 ^ Z.of_nat N) commSize devices r.
Proof. destruct Hc. apply (enumerates_iff N 4 commSize devices); [lia|assumption|assumption|exact Hco]. Qed.
Lemma value_current a : In a (words 4 N) -> local_value N (lp th) mc a = current a.
Proof. intros Ha. unfold local_value, current. f_equal. exact (represented_inflow theta phi M T_inv sic inv N operators order h events k terms HO HU HNE HF mc HC _ rho a Hrho Ha). Qed.
Lemma configs_words : forall s, In s (flat (configs 4 N commSize devices)) -> In s (words 4 N).
Proof.
  intros s Hs. unfold flat in Hs. apply in_concat in Hs as (l & Hl & Hs). apply in_concat in Hl as (r & Hr & Hl). unfold configs, bases in Hr. rewrite map_map in Hr. apply in_map_iff in Hr as (q & <- & Hq). apply in_seq in Hq.
  destruct Hc. destruct (rank_shape 4 N commSize devices ltac:(lia) HN ltac:(lia) Hd fit_4 ltac:(assumption) (Z.of_nat q) ltac:(lia)) as (_ & kk & _ & _ & F).
  rewrite Forall_forall in F. specialize (F l Hl). rewrite Forall_forall in F. apply wf_words. now apply F.
Qed.
Lemma lmap_words {B} (f f' : config -> B) : (forall s, In s (words 4 N) -> f s = f' s) -> lmap f (configs 4 N commSize devices) = lmap f' (configs 4 N commSize devices).
Proof.
  intros E. unfold lmap. apply map_ext_in. intros r Hr. apply map_ext_in. intros l Hl. apply map_ext_in. intros s Hs. apply E, configs_words. unfold flat. apply in_concat. exists l. split; [|exact Hs]. apply in_concat. now exists r.
Qed.
Lemma average_current X : average N (lp th) (fun a => X a * current a) = rsum (map (fun a => X a * inflow N M terms rho a) (words 4 N)).
Proof. unfold average. apply rsum_ext. intros a _. unfold current. pose proof (distribution_pos N (lp th) a). field. lra. Qed.

(** The local values are the currents Tr(M_a L(rho)) per probability, and their mean is the change of
    the trace of the state, zero for a Lindbladian. *)
Theorem C87_local :
  povm_local N commSize devices (lp th) mc bs = Ok (lmap (fun a => RtoC (inflow N M terms rho a / distribution N (lp th) a)) (configs 4 N commSize devices)) /\
  exists E, povm_obs N commSize devices lastNorm (lp th) mc bs = Ok E /\
    mean E tt = mtr N (generator N terms rho) /\ (lindbladian terms -> mean E tt = C0) /\
    var E tt = variation N (lp th) (fun a => inflow N M terms rho a / distribution N (lp th) a).
Proof.
  destruct Hc as [Hc1 Hc2]. pose proof fit_4 as Hfit. destruct Hrho as [HR _].
  rewrite (povm_local_ok N commSize devices (lp th) HN Hc1 Hd Hfit Hc2 mc bs Hclean). split.
  - f_equal. apply lmap_words. intros s Hs. f_equal. now apply value_current.
  - eexists. split; [exact (povm_obs_ok N commSize devices lastNorm (lp th) HN Hc1 Hd Hfit Hc2 mc bs Hclean)|].
    assert (ME : average N (lp th) (local_value N (lp th) mc) = rsum (map (inflow N M terms rho) (words 4 N))).
    { rewrite (average_ext N (lp th) (local_value N (lp th) mc) (fun a => 1 * current a)) by (intros a Ha; rewrite value_current by exact Ha; ring). rewrite average_current. apply rsum_ext. intros; ring. }
    rewrite (povm_mean N commSize devices lastNorm (lp th) HN Hc1 Hd Hfit (fun s (_ : unit) => local_value N (lp th) mc s)).
    rewrite (povm_var N commSize devices lastNorm (lp th) HN Hc1 Hd Hfit (fun s (_ : unit) => local_value N (lp th) mc s)).
    split; [|split].
    + rewrite <- (inflow_total theta phi M T_inv sic N operators h events k terms HF rho HR). f_equal. exact ME.
    + intros HL. rewrite <- RtoC_0. f_equal. etransitivity; [exact ME|]. exact (inflow_balance theta phi M T_inv sic N operators h events k terms HF rho HR HL).
    + apply variation_ext. intros a Ha. now apply value_current.
Qed.

(** Whatever the velocity u of the parameters, the mean value of any function X of the outcomes moves
    as under the Lindblad equation up to the distance between the motion of the network and the currents. *)
Theorem C87_bound u X d : lindbladian terms ->
  derivable_pt_lim (fun t => average N (lp (moved th u t)) X) 0 d ->
  let exact := rsum (map (fun a => X a * inflow N M terms rho a) (words 4 N)) in
  (d - exact) * (d - exact) <= variation N (lp th) X *
    variation N (lp th) (fun a => rsumn n (fun j => g a j * u j) - inflow N M terms rho a / distribution N (lp th) a).
Proof.
  intros HL HD exact. destruct Hrho as [HR _].
  pose proof (uniqueness_limite _ _ _ _ HD (average_rate N n lp th g X u Hg)) as ED. rewrite moved_0 in ED.
  assert (EE : exact = covariance N (lp th) X current).
  { unfold covariance. rewrite average_current. fold exact. rewrite (average_ext N (lp th) current (fun a => 1 * current a)) by (intros; ring). rewrite average_current.
    rewrite (rsum_ext _ (inflow N M terms rho)) by (intros; ring). rewrite (inflow_balance theta phi M T_inv sic N operators h events k terms HF rho HR HL). ring. }
  rewrite ED, EE, <- covariance_minus. apply covariance_square.
Qed.

(** the exact rate of an observable *)
Lemma observable_rate l A O : NoDup l -> (forall i, In i l -> (i < N)%nat) -> observable_array M T_inv l A O -> hermitian (2 ^ length l) A ->
  RtoC (rsum (map (fun a => O (digits4 (on a l)) * inflow N M terms rho a) (words 4 N))) = mtr N (mmul N (generator N terms rho) (embedded N A l)).
Proof.
  intros ND IN HA HH. destruct Hrho as [HR _]. rewrite <- (C86_observable theta phi M T_inv N l A O (generator N terms rho) sic inv ND IN HA HH (generator_herm M T_inv N operators h events k terms HF rho HR)).
  f_equal. apply rsum_ext. intros a _. rewrite inflow_probability. ring.
Qed.

(** With the TDVP error that the object records in the first stage of a step: the rate of every
    converted observable differs from Tr(L(rho) A) by at most the square root of
    Var(observable) * Var(local values) * error. *)
Theorem C87_recorded {Cfg} ej en c smp draw markov coeffs (oloc : nqs -> Cfg -> R -> result (layout (unit -> C))) grads fuel w P t w' u q1 cfg el m X_sites A O d :
  tdvp_call n ej en c smp draw markov coeffs oloc grads fuel w P t (Some 0%nat) = (w', Ok (Some u)) ->
  set_parameters (w_psi w) P = Ok q1 -> snd (do_sample smp draw markov coeffs q1) = Ok (cfg, povm_probs N commSize devices lastNorm (lp th)) ->
  povm_local N commSize devices (lp th) mc bs = Ok el -> oloc q1 cfg t = Ok (lmap (fun x (_ : unit) => x) el) ->
  grads q1 cfg = Ok (lmap (fun s j => RtoC (g s j)) (configs 4 N commSize devices)) ->
  c_prefactor c = (- C1)%C -> o_meta (w_obj w') = Some m -> lindbladian terms ->
  NoDup X_sites -> (forall i, In i X_sites -> (i < N)%nat) -> observable_array M T_inv X_sites A O -> hermitian (2 ^ length X_sites) A ->
  derivable_pt_lim (fun s => average N (lp (moved th u s)) (fun a => O (digits4 (on a X_sites)))) 0 d ->
  let v := variation N (lp th) (fun a => inflow N M terms rho a / distribution N (lp th) a) in
  o_var0 (w_obj w') = Some v /\ (0 < v ->
  exists e, m_error m = Fin e /\ (d - Re (mtr N (mmul N (generator N terms rho) (embedded N A X_sites)))) ^ 2
      <= variation N (lp th) (fun a => O (digits4 (on a X_sites))) * v * e).
Proof.
  intros HT E1 E2 E3 E4 E5 HP HM HL ND IN HA HH HD v. destruct Hc as [Hc1 Hc2]. pose proof fit_4 as Hfit.
  rewrite (proj1 C87_local) in E3. injection E3 as <-.
  set (cf := configs 4 N commSize devices) in *. set (pr := povm_probs N commSize devices lastNorm (lp th)) in *.
  set (eloc := lmap (fun x (_ : unit) => x) (lmap (fun a => RtoC (inflow N M terms rho a / distribution N (lp th) a)) cf)) in *.
  assert (EL : eloc = lmap (fun a (_ : unit) => RtoC (current a)) cf).
  { unfold eloc, lmap. rewrite map_map. apply map_ext. intros r. rewrite map_map. apply map_ext. intros l. now rewrite map_map. }
  assert (Hx : Cnorm2 (c_prefactor c) = 1) by (rewrite HP; unfold Cnorm2; cbn; ring).
  assert (VE : variance (wtriples pr (lmap (fun s j => RtoC (g s j)) cf) eloc) (fun s : (nat -> C) * (unit -> C) => snd s tt) = variation N (lp th) current).
  { rewrite EL. apply (povm_triples_variance N commSize devices lastNorm (lp th) HN Hc1 Hd Hfit (fun s j => RtoC (g s j)) (fun a (_ : unit) => RtoC (current a))). reflexivity. }
  assert (VD : variance (wtriples pr (lmap (fun s j => RtoC (g s j)) cf) eloc) (fun s : (nat -> C) * (unit -> C) => csumn n (fun j => RtoC (u j) * fst s j) + c_prefactor c * snd s tt)%C
     = variation N (lp th) (fun a => rsumn n (fun j => g a j * u j) - current a)).
  { rewrite EL, HP. apply (povm_triples_variance N commSize devices lastNorm (lp th) HN Hc1 Hd Hfit (fun s j => RtoC (g s j)) (fun a (_ : unit) => RtoC (current a))).
    intros s. cbn [fst snd]. rewrite (csumn_ext n _ (fun j => RtoC (g s j * u j))) by (intros; rewrite <- RtoC_mul; f_equal; ring). unfold csumn, rsumn. rewrite <- (map_map (fun j => g s j * u j) RtoC), csum_RtoC.
    generalize (rsum (map (fun j => g s j * u j) (seq 0 n))). intros x. apply C_eq; cbn; ring. }
  assert (SG : shape_eq (lmap (fun s j => RtoC (g s j)) cf) pr) by (apply povm_shape; assumption).
  assert (SE : shape_eq eloc pr) by (rewrite EL; apply povm_shape; assumption).
  assert (WK : weights_ok (flat pr)) by (apply povm_ok; assumption).
  destruct (Rtotal_order (variation N (lp th) current) 0) as [V|V]; [pose proof (variation_nonneg N (lp th) current); lra|].
  assert (MV : o_var0 (w_obj w') = Some (variation N (lp th) current)).
  { pose proof HT as HT'. apply call_ok in HT' as (q1' & configs' & p' & eloc' & g' & o1 & u' & res & cut & F1 & F2 & F3 & F4 & F5 & F6 & F7 & F8).
    rewrite E1 in F1. injection F1 as <-. rewrite E2 in F2. injection F2 as <- <-. rewrite E4 in F3. injection F3 as <-. rewrite E5 in F4. injection F4 as <-.
    pose proof (solve_stores _ _ _ _ _ _ _ _ _ _ _ F5) as (T1 & _ & _).
    apply (record_ok _ _ _ _ _ _ _ _ _ _ _ _ _ _ _ F5) in F8 as (<- & _ & _ & _ & q & sp & m' & A4 & A5 & A6 & A7 & A8 & A9 & _).
    rewrite A4 in T1. unfold get_tdvp_equation in T1. cbn [fst o_eq] in T1. injection T1 as ->. cbn [e_mean e_var] in *. rewrite A7. f_equal. rewrite EL.
    exact (povm_var N commSize devices lastNorm (lp th) HN Hc1 Hd Hfit (fun a (_ : unit) => current a) tt). }
  split; [exact MV|]. change v with (variation N (lp th) current). clear v. intros HV.
  destruct (C68_recorded n ej en c smp draw markov coeffs oloc grads fuel w P t w' u q1 cfg pr eloc (lmap (fun s j => RtoC (g s j)) cf) HT E1 E2 E4 E5 SG SE WK Hx) as (m' & M1 & M2 & M3 & M4). { rewrite VE. exact HV. }
  rewrite HM in M1. injection M1 as <-. rewrite VD, VE in M4. eexists. split; [exact M4|].
  pose proof (C87_bound u (fun a => O (digits4 (on a X_sites))) d HL HD) as B. cbv zeta in B. pose proof (observable_rate X_sites A O ND IN HA HH) as R.
  apply (f_equal Re) in R. cbn [Re RtoC fst] in R. rewrite <- R. cbn [pow]. rewrite Rmult_1_r. eapply Rle_trans; [exact B|]. apply Req_le. match goal with |- _ = ?x * ?c * (?y / ?c) => transitivity (x * y); [reflexivity|field; lra] end.
Qed.

(** the rows of the unregularised equation *)
Lemma equation_row c o E u j : povm_obs N commSize devices lastNorm (lp th) mc bs = Ok E ->
  let eq := snd (get_tdvp_equation c o E (povm_gradients N commSize devices lastNorm (lp th) g)) in
  c_prefactor c = (- C1)%C -> c_imag c = false -> c_shift c <= / 10 ^ 10 ->
  apply n (fst eq) (real u) j = RtoC (rsumn n (fun i => covariance N (lp th) (fun a => g a j) (fun a => g a i) * u i)) /\
  snd eq j = RtoC (covariance N (lp th) (fun a => g a j) current).
Proof.
  intros HE eq HP HI Hs. destruct Hc as [Hc1 Hc2]. pose proof fit_4 as Hfit.
  assert (EF : E = init (lmap (fun s (_ : unit) => RtoC (local_value N (lp th) mc s)) (configs 4 N commSize devices)) (povm_probs N commSize devices lastNorm (lp th))).
  { rewrite (povm_obs_ok N commSize devices lastNorm (lp th) HN Hc1 Hd Hfit Hc2 mc bs Hclean) in HE. now injection HE. }
  unfold eq, povm_gradients, get_tdvp_equation. cbn [fst snd]. destruct (Rlt_dec (/ 10 ^ 10) (c_shift c)) as [Hbad|_]; [lra|]. rewrite HI, HP, EF.
  rewrite (povm_cov N commSize devices lastNorm (lp th) HN Hc1 Hd Hfit g (fun s (_ : unit) => local_value N (lp th) mc s)).
  split.
  - unfold apply. rewrite (csumn_ext n _ (fun i => RtoC (covariance N (lp th) (fun a => g a j) (fun a => g a i) * u i))).
    + unfold csumn. rewrite <- (map_map (fun i => covariance N (lp th) (fun a => g a j) (fun a => g a i) * u i) RtoC), csum_RtoC. reflexivity.
    + intros i Hi. rewrite (povm_cov N commSize devices lastNorm (lp th) HN Hc1 Hd Hfit g g). generalize (covariance N (lp th) (fun a => g a j) (fun a => g a i)). intros x. unfold real. apply C_eq; cbn; ring.
  - rewrite (covariance_ext N (lp th) (fun a => g a j) (fun a => g a j) current (local_value N (lp th) mc)) by (try reflexivity; intros a Ha; symmetry; now apply value_current).
    assert (Z : forall x, makeReal false (- - C1 * RtoC x)%C = RtoC x) by (intros x; unfold makeReal, Re; apply C_eq; cbn; ring). apply Z.
Qed.
(** a velocity that reproduces the currents solves it *)
Lemma follows_solves c o E v (const : R) j : povm_obs N commSize devices lastNorm (lp th) mc bs = Ok E ->
  let eq := snd (get_tdvp_equation c o E (povm_gradients N commSize devices lastNorm (lp th) g)) in
  c_prefactor c = (- C1)%C -> c_imag c = false -> c_shift c <= / 10 ^ 10 ->
  (forall a, In a (words 4 N) -> rsumn n (fun j => g a j * v j) = inflow N M terms rho a / distribution N (lp th) a + const) ->
  apply n (fst eq) (real v) j = snd eq j.
Proof.
  intros HE eq HP HI Hs HV. destruct (equation_row c o E v j HE HP HI Hs) as [E1 E2]. unfold eq. rewrite E1, E2. f_equal. rewrite <- covariance_sum.
  rewrite (covariance_ext N (lp th) (fun a => g a j) (fun a => g a j) (fun a => rsumn n (fun i => g a i * v i)) (fun a => current a + const)) by (try reflexivity; exact HV). rewrite covariance_add, covariance_const. ring.
Qed.

(** A network that can follow does follow: if some velocity v of the parameters reproduces the currents,
    every solution of the unregularised equation gives all observables their exact rates. *)
Theorem C87_exact c o E u v (const : R) l A O d :
  povm_obs N commSize devices lastNorm (lp th) mc bs = Ok E ->
  let eq := snd (get_tdvp_equation c o E (povm_gradients N commSize devices lastNorm (lp th) g)) in
  c_prefactor c = (- C1)%C -> c_imag c = false -> c_shift c <= / 10 ^ 10 ->
  (forall j, (j < n)%nat -> apply n (fst eq) (real u) j = snd eq j) ->
  (forall a, In a (words 4 N) -> rsumn n (fun j => g a j * v j) = inflow N M terms rho a / distribution N (lp th) a + const) ->
  lindbladian terms -> NoDup l -> (forall i, In i l -> (i < N)%nat) -> observable_array M T_inv l A O -> hermitian (2 ^ length l) A ->
  derivable_pt_lim (fun t => average N (lp (moved th u t)) (fun a => O (digits4 (on a l)))) 0 d ->
  RtoC d = mtr N (mmul N (generator N terms rho) (embedded N A l)).
Proof.
  intros HE eq HP HI Hs HQ HV HL ND IN HA HH HD. destruct Hc as [Hc1 Hc2]. pose proof fit_4 as Hfit.
  rewrite <- (observable_rate l A O ND IN HA HH). f_equal.
  pose proof (C87_bound u (fun a => O (digits4 (on a l))) d HL HD) as B. cbv zeta in B.
  set (ex := rsum _) in *. fold current in B.
  assert (Q : forall j, (j < n)%nat -> rsumn n (fun i => covariance N (lp th) (fun a => g a j) (fun a => g a i) * u i) = covariance N (lp th) (fun a => g a j) current).
  { intros j Hj. specialize (HQ j Hj). destruct (equation_row c o E u j HE HP HI Hs) as [E1 E2]. unfold eq in HQ. rewrite E1, E2 in HQ. now injection HQ. }
  assert (QW : forall j, (j < n)%nat -> rsumn n (fun i => covariance N (lp th) (fun a => g a j) (fun a => g a i) * (u i - v i)) = 0).
  { intros j Hj. transitivity (rsumn n (fun i => covariance N (lp th) (fun a => g a j) (fun a => g a i) * u i) - rsumn n (fun i => covariance N (lp th) (fun a => g a j) (fun a => g a i) * v i)).
    - unfold rsumn. rewrite <- rsum_sub. apply rsum_ext. intros; ring.
    - rewrite (Q j Hj), <- covariance_sum. rewrite (covariance_ext N (lp th) (fun a => g a j) (fun a => g a j) (fun a => rsumn n (fun i => g a i * v i)) (fun a => current a + const)) by (try reflexivity; exact HV).
      rewrite covariance_add, covariance_const. ring. }
  assert (V0 : variation N (lp th) (fun a => rsumn n (fun j => g a j * u j) - current a) = 0).
  { rewrite variation_covariance. set (D := fun a => rsumn n (fun j => g a j * (u j - v j))).
    assert (ED : forall a, In a (words 4 N) -> rsumn n (fun j => g a j * u j) - current a = D a + const).
    { intros a Ha. specialize (HV a Ha). fold (current a) in HV. unfold D. transitivity (rsumn n (fun j => g a j * u j) - rsumn n (fun j => g a j * v j) + const); [rewrite HV; ring|]. f_equal. unfold rsumn. rewrite <- rsum_sub. apply rsum_ext. intros; ring. }
    rewrite (covariance_ext N (lp th) _ (fun a => D a + const) _ (fun a => D a + const) ED ED). rewrite covariance_add, covariance_const, covariance_sym, covariance_add, covariance_const. rewrite !Rplus_0_r.
    unfold D at 2. rewrite covariance_sum. rewrite (rsumn_ext n _ (fun _ => 0)); [unfold rsumn; apply rsum_zero|]. intros j Hj. rewrite covariance_sym. unfold D. rewrite covariance_sum, (QW j Hj). ring. }
  match type of B with _ <= _ * ?y => replace y with 0 in B by (symmetry; exact V0) end. rewrite Rmult_0_r in B. assert (d - ex = 0); [|lra]. apply Rsqr_0_uniq. unfold Rsqr. apply Rle_antisym; [exact B|apply Rle_0_sqr].
Qed.
End Evolution.
Print Assumptions C87_local.
Print Assumptions C87_bound.
Print Assumptions C87_recorded.
Print Assumptions C87_exact.

(** a dephasing spin; two networks for its outcome probabilities: one parameter per outcome, and a
    single parameter for the outcome 1 *)
Definition lpA (th : nat -> R) (s : config) : R := th (nth 0 s 0 mod 4)%nat.
Definition gpA (s : config) (k : nat) : R := if (k =? nth 0 s 0 mod 4)%nat then 1 else 0.
Definition thA (k : nat) : R := if (k =? 1)%nat then 1 else 0.
Definition lpB (th : nat -> R) (s : config) : R := th 0%nat * (if (nth 0 s 0 =? 1)%nat then 1 else 0).
Definition gpB (s : config) (k : nat) : R := if (nth 0 s 0 =? 1)%nat then 1 else 0.
Definition thB (k : nat) : R := 1.
Lemma line_deriv a b : derivable_pt_lim (fun t => a + t * b) 0 b.
Proof. apply (deriv_ext (fun t => a + b * t)); [intros; ring|]. eapply deriv_value; [apply (derivable_pt_lim_plus (fun _ => a) (fun t => b * t)); [apply derivable_pt_lim_const|apply (derivable_pt_lim_scal (fun t => t)); apply derivable_pt_lim_id]|ring]. Qed.
Lemma gpA_row s v : rsumn 4 (fun k => gpA s k * v k) = v (nth 0 s 0 mod 4)%nat.
Proof. unfold gpA. pose proof (Nat.mod_upper_bound (nth 0 s 0%nat) 4 ltac:(lia)) as H. remember (nth 0 s 0 mod 4)%nat as m. clear Heqm. rewrite rsumn4. cases4 m H; cbn [Nat.eqb]; ring. Qed.
Lemma gpA_gradient : real_gradient 4 lpA thA gpA.
Proof. intros s v. rewrite gpA_row. apply line_deriv. Qed.
Lemma gpB_gradient : real_gradient 1 lpB thB gpB.
Proof.
  intros s v. unfold lpB, gpB, moved, rsumn. cbn [seq map]. rewrite rsum_cons, rsum_nil. set (x := if (nth 0 s 0 =? 1)%nat then 1 else 0).
  apply (deriv_ext (fun t => thB 0 * x + t * (v 0%nat * x))); [intros; ring|]. eapply deriv_value; [apply line_deriv|ring].
Qed.
(** the outcome 1 is lost *)
Lemma spin_current l rho : (forall c, (c < 4)%nat -> l [c] = if (c =? 1)%nat then 1 else 0) -> state_of 1 M0 (distribution 1 l) rho -> inflow 1 M0 spin_terms rho [1%nat] < 0.
Proof.
  intros Hl Hr. rewrite (spin_inflow _ rho 1%nat Hr ltac:(lia)). rewrite rsumn4. unfold spin_w. cbn [Nat.eqb orb]. unfold distribution. pose proof (total_pos 1 l) as Z. set (z := rsum _) in *. clearbody z.
  rewrite !Hl by lia. cbn [Nat.eqb]. rewrite exp_0. assert (1 < exp 1) by (rewrite <- exp_0 at 1; apply exp_increasing; lra). set (e := exp 1) in *. clearbody e.
  apply (Rmult_lt_reg_r z); [exact Z|]. match goal with |- ?x < ?y => replace x with (4/3 * (1 - e)) by (field; lra); replace y with 0 by ring end. lra.
Qed.
Example C87_case c o : c_prefactor c = (- C1)%C -> c_imag c = false -> c_shift c = 0 ->
  exists rho E v O,
  inverse 4 (overlap 2 M0) sic_inv /\ (forall l, iterates l (dedup l)) /\ unshared 0 spin_events /\
  Forall2 (stored M0 sic_inv 1 (standard_operators M0 sic_inv)) (map spin_heap (PovmOp_Props.added 0 spin_events)) spin_terms /\
  PovmOp_Model.compile (standard_operators M0 sic_inv) dedup (fst (history spin_heap spin_events)) (snd (history spin_heap spin_events) 0%nat) = Ok spin_mc /\
  (forall s, In s (words 4 1) -> clean (povm_elements spin_mc s)) /\ complete_enumeration 1 4 2 1 /\ real_gradient 4 lpA thA gpA /\
  state_of 1 M0 (distribution 1 (lpA thA)) rho /\ lindbladian spin_terms /\
  povm_obs 1 2 1 0 (lpA thA) spin_mc 0 = Ok E /\
  (forall j, let eq := snd (get_tdvp_equation c o E (povm_gradients 1 2 1 0 (lpA thA) gpA)) in apply 4 (fst eq) (real v) j = snd eq j) /\
  (forall a, In a (words 4 1) -> rsumn 4 (fun j => gpA a j * v j) = inflow 1 M0 spin_terms rho a / distribution 1 (lpA thA) a + 0) /\
  observable_array M0 sic_inv [0%nat] sx O /\ hermitian 2 sx /\
  (exists d, derivable_pt_lim (fun t => average 1 (lpA (moved thA v t)) (fun a => O (digits4 (on a [0%nat])))) 0 d) /\ v 1%nat < 0.
Proof.
  intros H1 H2 H3. destruct (C87_state 0 0 M0 1 (distribution 1 (lpA thA)) M0_sic) as (rho & Hr & _). exists rho.
  set (v := fun k => inflow 1 M0 spin_terms rho [k] / distribution 1 (lpA thA) [k]).
  assert (HV : forall a, In a (words 4 1) -> rsumn 4 (fun j => gpA a j * v j) = inflow 1 M0 spin_terms rho a / distribution 1 (lpA thA) a + 0).
  { intros a Ha. rewrite gpA_row, Rplus_0_r. apply words_1 in Ha as (k & Hk & ->). cbn [nth]. rewrite Nat.mod_small by exact Hk. reflexivity. }
  destruct (C87_local 0 0 M0 sic_inv M0_sic (sic_inverse 0 0) 1 _ dedup spin_heap spin_events 0 spin_terms dedup_iterates spin_unshared ltac:(discriminate) spin_stored spin_mc spin_compile spin_clean 2 1 0 0 ltac:(lia) ltac:(cbn; lia) ltac:(lia) spin_complete lpA thA rho Hr) as (_ & E & HE & _).
  exists E, v. eexists. split; [apply sic_inverse|]. split; [apply dedup_iterates|]. split; [apply spin_unshared|]. split; [apply spin_stored|]. split; [apply spin_compile|]. split; [apply spin_clean|]. split; [apply spin_complete|]. split; [apply gpA_gradient|].
  split; [exact Hr|]. split; [apply spin_lindbladian|]. split; [exact HE|]. split.
  { intros j. apply (follows_solves 0 0 M0 sic_inv M0_sic (sic_inverse 0 0) 1 _ dedup spin_heap spin_events 0 spin_terms dedup_iterates spin_unshared ltac:(discriminate) spin_stored spin_mc spin_compile spin_clean 2 1 0 0 ltac:(lia) ltac:(cbn; lia) ltac:(lia) spin_complete 4 lpA thA gpA rho Hr c o E v 0 j HE H1 H2).
    - rewrite H3. left. apply Rinv_0_lt_compat, pow_lt. lra.
    - exact HV. }
  split; [exact HV|]. split; [left; split; reflexivity|]. split; [apply sx_hermitian|]. split; [eexists; apply (average_rate 1 4 lpA thA gpA _ v gpA_gradient)|].
  unfold v. pose proof (distribution_pos 1 (lpA thA) [1%nat]) as PP. assert (PC : inflow 1 M0 spin_terms rho [1%nat] < 0) by (apply (spin_current (lpA thA)); [intros k Hk; cases4 k Hk; reflexivity|exact Hr]).
  apply (Rmult_lt_reg_r (distribution 1 (lpA thA) [1%nat])); [exact PP|]. rewrite Rmult_0_l. match goal with |- ?x / ?y * ?y < 0 => replace (x / y * y) with x by (field; lra) end. exact PC.
Qed.

Definition setB : settings := mk_settings true 2 (/ 10 ^ 14) (/ 10 ^ 8) false (- C1)%C 0 false true.
Example C87_recorded_case : exists rho el fuel w' u m O d,
  let w := mk_world psi1 o4 0 in let q1 := set_params psi1 [[(1, 0)]] in
  real_gradient 1 lpB thB gpB /\ state_of 1 M0 (distribution 1 (lpB thB)) rho /\
  tdvp_call 1 eigh1 eigh1 setB Exact (fun _ => Ok (tt, povm_probs 1 2 1 0 (lpB thB))) (fun _ => Ok tt) (fun _ _ => Err AttributeError)
    (fun _ _ _ => Ok (lmap (fun x (_ : unit) => x) el)) (fun _ _ => Ok (lmap (fun s j => RtoC (gpB s j)) (configs 4 1 2 1))) fuel w (PVec [1]) 0 (Some 0%nat) = (w', Ok (Some u)) /\
  set_parameters (w_psi w) (PVec [1]) = Ok q1 /\ povm_local 1 2 1 (lpB thB) spin_mc 0 = Ok el /\
  o_meta (w_obj w') = Some m /\ observable_array M0 sic_inv [0%nat] sx O /\
  derivable_pt_lim (fun s => average 1 (lpB (moved thB u s)) (fun a => O (digits4 (on a [0%nat])))) 0 d /\
  0 < variation 1 (lpB thB) (fun a => inflow 1 M0 spin_terms rho a / distribution 1 (lpB thB) a).
Proof.
  destruct (C87_state 0 0 M0 1 (distribution 1 (lpB thB)) M0_sic) as (rho & Hr & _).
  pose proof (C87_local 0 0 M0 sic_inv M0_sic (sic_inverse 0 0) 1 _ dedup spin_heap spin_events 0 spin_terms dedup_iterates spin_unshared ltac:(discriminate) spin_stored spin_mc spin_compile spin_clean 2 1 0 0 ltac:(lia) ltac:(cbn; lia) ltac:(lia) spin_complete lpB thB rho Hr) as (HL & _).
  pose proof (fit_4 1 2 1 ltac:(lia) ltac:(cbn; lia) ltac:(lia) spin_complete) as Hfit.
  set (pr := povm_probs 1 2 1 0 (lpB thB)). set (gr := lmap (fun s j => RtoC (gpB s j)) (configs 4 1 2 1)).
  match type of HL with _ = Ok ?e => set (el := e) in * end.
  assert (P8 : 0 < / 10 ^ 8 < 1/100).
  { split; [apply Rinv_0_lt_compat, pow_lt; lra|]. apply (Rmult_lt_reg_l (10 ^ 8)); [apply pow_lt; lra|]. rewrite Rinv_r by (apply pow_nonzero; lra).
    assert (10 ^ 3 <= 10 ^ 8) by (apply Rle_pow; [lra|lia]). lra. }
  assert (P14 : / 10 ^ 14 < 1).
  { apply (Rmult_lt_reg_l (10 ^ 14)); [apply pow_lt; lra|]. rewrite Rinv_r by (apply pow_nonzero; lra). rewrite Rmult_1_r. apply Rlt_pow_R1; [lra|lia]. }
  assert (VG : variation 1 (lpB thB) (fun a => gpB a 0%nat) <> 0).
  { intros V. pose proof (no_variation 1 (lpB thB) _ [1%nat] V ltac:(cbn; tauto)) as V1. pose proof (no_variation 1 (lpB thB) _ [0%nat] V ltac:(cbn; tauto)) as V0. rewrite <- V0 in V1. unfold gpB in V1. cbn in V1. lra. }
  destruct (C53_partial 1 eigh1 eigh1 setB 0 o4 (init (lmap (fun x (_ : unit) => x) el) pr) (init gr pr) eigh1_works P8 P14) as (f & o' & u & res & cut & K1 & _ & _ & K2).
  pose proof (K1 f ltac:(lia)) as K. assert (KU : u <> None).
  { clear K1. pose proof K as K'. unfold solve in K'. destruct (get_tdvp_equation setB o4 (init (lmap (fun x (_ : unit) => x) el) pr) (init gr pr)) as [o1 [A F]] eqn:EQ.
    change (eigenbasis eigh1 eigh1 setB A) with (Ok (fun _ : nat => Re (A 0%nat 0%nat), fun _ _ : nat => C1)) in K'. cbv beta iota zeta in K'. apply (f_equal fst) in K'. cbn [fst] in K'.
    eapply K2; [rewrite <- K'; reflexivity| |left; reflexivity]. cbn [s_ev Nat.sub]. unfold get_tdvp_equation in EQ. apply (f_equal (fun x => fst (snd x) 0%nat 0%nat)) in EQ. cbn [fst snd] in EQ. rewrite <- EQ.
    destruct (Rlt_dec (/ 10 ^ 10) (c_shift setB)) as [Hbad|_]; [exfalso; revert Hbad; cbn [setB c_shift]; apply Rle_not_lt; left; apply Rinv_0_lt_compat, pow_lt; lra|].
    unfold gr, pr. rewrite (povm_cov 1 2 1 0 (lpB thB) ltac:(lia) ltac:(lia) ltac:(lia) Hfit gpB gpB). rewrite <- variation_covariance. exact VG. }
  destruct u as [u|]; [|congruence].
  destruct (call_runs 1 eigh1 eigh1 Exact (fun _ => Ok (tt, pr)) (fun _ => Ok tt) (fun _ _ => Err AttributeError) (fun _ _ _ => Ok (lmap (fun x (_ : unit) => x) el)) (fun _ _ => Ok gr) setB f (mk_world psi1 o4 0) (PVec [1]) 0 (Some O)
     (set_params psi1 [[(1, 0)]]) psi1 tt pr (lmap (fun x (_ : unit) => x) el) gr o' (Some u) res cut) as (w' & HC & _); try reflexivity; [exact K|].
  assert (HM : exists m, o_meta (w_obj w') = Some m).
  { pose proof HC as HC'. apply call_ok in HC' as (q1' & configs' & p' & eloc' & g' & o1 & u' & res' & cut' & F1 & F2 & F3 & F4 & F5 & F6 & F7 & F8).
    apply (record_ok _ _ _ _ _ _ _ _ _ _ _ _ _ _ _ F5) in F8 as (_ & _ & _ & _ & q & sp & m' & _ & _ & _ & _ & A8 & _). now exists m'. }
  destruct HM as [m HM]. exists rho, el, f, w', u, m. eexists. eexists. cbv zeta. split; [apply gpB_gradient|]. split; [exact Hr|]. split; [exact HC|]. split; [reflexivity|]. split; [exact HL|]. split; [exact HM|].
  split; [left; split; reflexivity|]. split; [apply (average_rate 1 1 lpB thB gpB _ u gpB_gradient)|].
  set (X := fun a => inflow 1 M0 spin_terms rho a / distribution 1 (lpB thB) a). destruct (Rtotal_order (variation 1 (lpB thB) X) 0) as [V|[V|V]]; [pose proof (variation_nonneg 1 (lpB thB) X); lra| |exact V].
  exfalso. pose proof (no_variation 1 (lpB thB) X [1%nat] V ltac:(cbn; tauto)) as V1. pose proof (no_variation 1 (lpB thB) X [0%nat] V ltac:(cbn; tauto)) as V0. rewrite <- V0 in V1. unfold X in V1.
  pose proof (spin_current (lpB thB) rho ltac:(intros k Hk; unfold lpB, thB; cbn [nth]; ring) Hr) as N1. pose proof (distribution_pos 1 (lpB thB) [1%nat]) as D1.
  assert (N0 : inflow 1 M0 spin_terms rho [0%nat] = 0). { rewrite (spin_inflow _ rho 0%nat Hr ltac:(lia)), rsumn4. unfold spin_w. cbn [Nat.eqb orb]. ring. }
  rewrite N0 in V1. unfold Rdiv at 2 in V1. rewrite Rmult_0_l in V1. apply (f_equal (fun x => x * distribution 1 (lpB thB) [1%nat])) in V1. rewrite Rmult_0_l in V1. unfold Rdiv in V1. rewrite Rmult_assoc, Rinv_l in V1 by lra. lra.
Qed.
