(** An evolution with one parameter whose metric depends on the parameter. *)
From Coq Require Import List Reals Lra Lia Arith ZArith Bool.
From Verif Require Import Base Cplx Povm_Spec Povm_Proofs Mpi_Model Stats_Model Stats_Spec Stats_Proofs Sampler_Model Stepper_Model
  Vqs_Model Vqs_Spec Vqs_Proofs Tdvp_Model Tdvp_Spec Tdvp_Proofs Tdvp2_Proofs Tdvp3_Proofs Tdvp5_Proofs Tdvp6_Proofs Tdvp7_Proofs Tdvp_Props
  Evo_Model Evo_Spec Evo_Proofs Evo2_Proofs Evo3_Proofs.
Import ListNotations.
Local Open Scope R_scope.

Definition g4b : layout (nat -> C) := [[[fun _ => RtoC 2; fun _ => C0; fun _ => C0; fun _ => C0]]].
Lemma g4b_shape : shape_eq g4b w4. Proof. repeat constructor. Qed.
Lemma fisher4b k l : fisher false 0 w4 g4b k l = RtoC (3/4).
Proof.
  assert (E : cov (wpairs w4 g4b) (fun s => s k) (fun s => s l) = RtoC (3/4)) by (unfold cov, expect, wpairs; cbn; Cunf; apply C_eq; cbn; lra).
  unfold fisher, part. rewrite E. destruct (Nat.eqb k l); Cunf; apply C_eq; cbn; lra.
Qed.
Lemma force4b k : force false C1 w4 g4b e4 k = RtoC (- (3/8)).
Proof.
  assert (M : expect (wtriples w4 g4b e4) (fun s => fst s k) = RtoC (1/2)) by (unfold expect, wtriples; cbn; Cunf; apply C_eq; cbn; lra).
  assert (M2 : expect (wtriples w4 g4b e4) (fun s => snd s tt) = RtoC (1/4)) by (unfold expect, wtriples; cbn; Cunf; apply C_eq; cbn; lra).
  unfold force, part, cov. rewrite M, M2. unfold expect, wtriples. cbn. Cunf. apply C_eq; cbn; lra.
Qed.

Definition c5 : settings := set4 true (/ 10 ^ 14) (/ 10 ^ 8).
Lemma P8 : 0 < / 10 ^ 8 < 1/100.
Proof.
  split; [apply Rinv_0_lt_compat, pow_lt; lra|]. apply (Rmult_lt_reg_l (10 ^ 8)); [apply pow_lt; lra|]. rewrite Rinv_r by (apply pow_nonzero; lra).
  assert (10 ^ 3 <= 10 ^ 8) by (apply Rle_pow; [lra|lia]). lra.
Qed.
Lemma P14 : / 10 ^ 14 < 1.
Proof. apply (Rmult_lt_reg_l (10 ^ 14)); [apply pow_lt; lra|]. rewrite Rinv_r by (apply pow_nonzero; lra). rewrite Rmult_1_r. apply Rlt_pow_R1; [lra|lia]. Qed.

(** the regularised inverse of a single eigenvalue is not zero *)
Lemma pinv_one sp cut p : s_ev sp O <> 0 -> s_invEv sp = inv_ev 1 (s_ev sp) -> finite_vec 1 (pinv_ev 1 c5 sp cut) = Some p -> p O <> 0.
Proof.
  intros HE HI. unfold finite_vec. cbn [seq forallb].
  assert (R1 : rel_ev 1 (s_ev sp) O = Fin 1).
  { unfold rel_ev, xdiv. cbn [Nat.sub]. destruct (Req_EM_T _ _) as [Z|Z]; [exfalso; revert Z; now apply Rabs_no_R0|]. f_equal. field. exact Z. }
  assert (PV : exists x, pinv_ev 1 c5 sp cut O = Fin x /\ x <> 0).
  { unfold pinv_ev. change (c_exact c5) with true. cbv beta iota zeta. rewrite R1, HI. unfold soft_cutoff. set (a := Rmax cut (c_pinvCutoff c5)).
    assert (X1 : xdiv a (Fin 1) = Fin (a / 1)) by (unfold xdiv; destruct (Req_EM_T 1 0); [lra|reflexivity]). rewrite X1. cbn [xpow6 xplus1].
    assert (PP : 0 < 1 + (a / 1) ^ 6). { assert (0 <= (a / 1) ^ 6) by (replace ((a / 1) ^ 6) with (((a / 1) ^ 3) ^ 2) by ring; apply pow2_ge_0). lra. }
    assert (X2 : xdiv 1 (Fin (1 + (a / 1) ^ 6)) = Fin (1 / (1 + (a / 1) ^ 6))) by (unfold xdiv; destruct (Req_EM_T _ _); [lra|reflexivity]). rewrite X2.
    assert (X3 : inv_ev 1 (s_ev sp) O = 1 / s_ev sp O).
    { unfold inv_ev. rewrite R1. cbn [xlt]. destruct (Rlt_dec (/ 10 ^ 14) 1) as [|F]; [reflexivity|]. exfalso. apply F, P14. }
    rewrite X3. cbn [xmul]. eexists. split; [reflexivity|]. apply Rmult_integral_contrapositive_currified; unfold Rdiv; rewrite Rmult_1_l; apply Rinv_neq_0_compat; [exact HE|lra]. }
  destruct PV as (x & EX & HX). rewrite EX. cbn [andb]. intros H. injection H as <-. now rewrite EX.
Qed.

Lemma solve5 g s f : shape_eq g w4 -> fisher false 0 w4 g O O = RtoC s -> s <> 0 -> force false C1 w4 g e4 O = RtoC f -> f <> 0 ->
  exists f0, forall fuel, (f0 <= fuel)%nat -> forall o, exists o' u res cut, solve 1 eigh1 eigh1 c5 fuel 4 o (init e4 w4) (init g w4) = (o', Ok (Some u, res, cut)) /\ u O <> 0.
Proof.
  intros HG HS Hs HF Hf.
  destruct (C53_partial 1 eigh1 eigh1 c5 4 o4 (init e4 w4) (init g w4) eigh1_works P8 P14) as (f0 & o' & u & res & cut & H1 & _ & _ & H4).
  exists f0. intros fuel Hfu o. pose proof (H1 fuel Hfu) as H.
  assert (K : exists u', u = Some u' /\ u' O <> 0).
  { pose proof (equation_S c5 w4 g e4 0 HG w4_ok (shift4 true (/ 10 ^ 14) (/ 10 ^ 8)) o4 0%nat 0%nat) as QS. pose proof (equation_F c5 w4 g e4 HG e4_shape w4_ok o4 0%nat) as QF.
    change (c_imag c5) with false in QS, QF. change (c_prefactor c5) with C1 in QF. rewrite HS in QS. rewrite HF in QF.
    unfold solve in H. destruct (get_tdvp_equation c5 o4 (init e4 w4) (init g w4)) as [o1 [A Fm]]. cbn [fst snd] in QS, QF.
    change (eigenbasis eigh1 eigh1 c5 A) with (Ok (fun _ : nat => Re (A 0%nat 0%nat), fun _ _ : nat => C1)) in H. cbv beta iota zeta in H.
    match type of H with (_, regularise _ _ _ ?x _) = _ => set (sp := x) in * end.
    assert (HO : o_sp o' = Some sp) by (apply (f_equal fst) in H; cbn [fst] in H; now rewrite <- H). apply (f_equal snd) in H. cbn [snd] in H.
    assert (EV : s_ev sp O = s) by (cbn [sp s_ev]; rewrite QS; reflexivity).
    assert (NU : u <> None) by (apply (H4 sp HO); [cbn [Nat.sub]; lra|now left]).
    unfold regularise in H. destruct (search 1 c5 fuel sp (norm 1 Fm) (Fin 1) (/ 10 ^ 2) None) as [[[res' cut'] pv]|] eqn:HR; [|discriminate]. cbn [bind] in H.
    destruct (search_inv 1 c5 fuel sp (norm 1 Fm) _ _ _ _ _ _ (or_introl eq_refl) HR) as [->|[-> _]]; [discriminate|].
    destruct (finite_vec 1 (pinv_ev 1 c5 sp cut')) as [p|] eqn:FV; [|injection H as <- _ _; congruence]. exists (fun k => Re (dot 1 (s_V sp) (fun j => (RtoC (p j) * s_VtF sp j)%C) k)). split; [congruence|]. cbv beta.
    pose proof (pinv_one sp cut' p ltac:(lra) eq_refl FV) as HP.
    assert (VF : s_VtF sp O = RtoC f). { unfold sp. cbn [s_VtF]. unfold dot, conj_transpose, csumn. cbn [seq map]. rewrite csum_cons, csum_nil, QF. Cunf. apply C_eq; cbn; ring. }
    unfold dot, csumn. cbn [seq map]. rewrite csum_cons, csum_nil, VF. change (s_V sp O O) with C1.
    assert (EQ : Re (C1 * (RtoC (p O) * RtoC f) + C0) = p O * f) by (Cunf; cbn; ring). rewrite EQ.
    now apply Rmult_integral_contrapositive_currified. }
  destruct K as (u' & -> & HU). destruct (solve_same _ _ _ _ _ _ _ o _ _ _ _ H) as (o2 & SO & _). exists o2, u', res, cut. auto.
Qed.

(** the gradients depend on the parameter *)
Definition gr5 (q : nqs) (_ : unit) : result (layout (nat -> C)) := if Req_EM_T (Re (entry (nq_params q) 0 0)) 5 then Ok g4 else Ok g4b.
Definition call5 (fuel : nat) := tdvp_call 1 eigh1 eigh1 c5 Exact (fun _ => Ok (tt, w4)) (fun _ => Ok tt) (fun _ _ => Ok (tt, w4)) (fun _ _ _ => Ok e4) gr5 fuel.
Lemma set5 (y : R) : set_parameters psi1 (PVec [y]) = Ok (set_params psi1 [[(y, 0)]]).
Proof. reflexivity. Qed.
Lemma call5_runs : exists fuel, forall y t st o, exists w' u, call5 fuel (mk_world psi1 o 4) (PVec [y]) t st = (w', Ok (Some u)) /\ u O <> 0 /\ w_psi w' = psi1
  /\ get_S (w_obj w') = Ok (fst (snd (get_tdvp_equation c5 new_tdvp (init e4 w4) (init (if Req_EM_T y 5 then g4 else g4b) w4)))).
Proof.
  destruct (solve5 g4 (3/16) (- (3/16)) g4_shape (fisher4 0 0) ltac:(lra) (force4 0) ltac:(lra)) as (fa & HA).
  destruct (solve5 g4b (3/4) (- (3/8)) g4b_shape (fisher4b 0 0) ltac:(lra) (force4b 0) ltac:(lra)) as (fb & HB).
  exists (fa + fb)%nat. intros y t st o. set (g := if Req_EM_T y 5 then g4 else g4b).
  assert (HG : gr5 (set_params psi1 [[(y, 0)]]) tt = Ok g). { unfold gr5, g. cbn [nq_params set_params]. change (Re (entry [[(y, 0)]] 0 0)) with y. destruct (Req_EM_T y 5); reflexivity. }
  assert (HS : exists o' u res cut, solve 1 eigh1 eigh1 c5 (fa + fb) 4 o (init e4 w4) (init g w4) = (o', Ok (Some u, res, cut)) /\ u O <> 0).
  { unfold g. destruct (Req_EM_T y 5); [apply HA|apply HB]; lia. }
  destruct HS as (o' & u & res & cut & SO & HU).
  destruct (call_runs 1 eigh1 eigh1 Exact (fun _ => Ok (tt, w4)) (fun _ => Ok tt) (fun _ _ => Ok (tt, w4)) (fun _ _ _ => Ok e4) gr5 c5 (fa + fb) (mk_world psi1 o 4) (PVec [y]) t st
     (set_params psi1 [[(y, 0)]]) psi1 tt w4 e4 g o' (Some u) res cut (set5 y) eq_refl eq_refl HG SO eq_refl eq_refl) as (w' & HC & HP & _).
  exists w', u. split; [exact HC|]. split; [exact HU|]. split; [exact HP|].
  apply call_ok in HC as (q1 & configs & p & eloc & gr & o1 & u' & res' & cut' & E1 & E2 & E3 & E4 & E5 & E6 & E7 & E8).
  cbn [w_psi] in E1. rewrite set5 in E1. injection E1 as <-. cbn in E2. injection E2 as <- <-. injection E3 as <-. rewrite HG in E4. injection E4 as <-.
  destruct (solve_stores _ _ _ _ _ _ _ _ _ _ _ E5) as (B1 & B2 & B3).
  assert (EO : o_S (w_obj w') = o_S o1). { destruct st as [[|k]|]; [|now destruct E8 as [-> _]|now destruct E8 as [-> _]]. now destruct (record_ok _ _ _ _ _ _ _ _ _ _ _ _ _ _ _ E5 E8) as (_ & _ & T2 & _). }
  unfold get_S. rewrite EO, B2. reflexivity.
Qed.
