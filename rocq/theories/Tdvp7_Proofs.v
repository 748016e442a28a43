(** Calls of TDVP objects, cross validation, endless search, pseudo-inverse of a matrix of rank one. *)
From Coq Require Import List Reals Lra Lia Arith ZArith Bool.
From Verif Require Import Base Cplx Povm_Spec Povm_Proofs Mpi_Model Stats_Model Stats_Spec Stats_Proofs Sampler_Model Stepper_Model
  Vqs_Model Vqs_Spec Tdvp_Model Tdvp_Spec Tdvp_Proofs Tdvp2_Proofs Tdvp3_Proofs Tdvp4_Proofs Tdvp5_Proofs Tdvp6_Proofs.
Import ListNotations.
Local Open Scope R_scope.

Lemma solve_same n ej en c fuel N o1 o2 E G o1' r : solve n ej en c fuel N o1 E G = (o1', Ok r) ->
  exists o2', solve n ej en c fuel N o2 E G = (o2', Ok r) /\ o_eq o2' = o_eq o1' /\ o_S o2' = o_S o1' /\ o_sp o2' = o_sp o1'
    /\ o_mean0 o2' = o_mean0 o2 /\ o_var0 o2' = o_var0 o2 /\ o_meta o2' = o_meta o2 /\ o_cv o2' = o_cv o2.
Proof.
  unfold solve, get_tdvp_equation. cbv zeta. cbn [o_eq o_S o_sp o_mean0 o_var0 o_meta o_cv].
  destruct (eigenbasis _ _ _ _) as [[ev V]|x]; [|discriminate]. intros H. injection H as H1 H2. subst o1'. eexists. split; [rewrite H2; reflexivity|].
  cbn. repeat split; reflexivity.
Qed.
Lemma solve_keeps n ej en c fuel N o E G o' r : solve n ej en c fuel N o E G = (o', r) ->
  o_mean0 o' = o_mean0 o /\ o_var0 o' = o_var0 o /\ o_meta o' = o_meta o /\ o_cv o' = o_cv o.
Proof.
  unfold solve, get_tdvp_equation. cbv zeta. cbn [o_eq o_S o_sp o_mean0 o_var0 o_meta o_cv].
  destruct (eigenbasis _ _ _ _) as [[ev V]|x]; intros H; injection H as H1 H2; subst o'; cbn; repeat split; reflexivity.
Qed.
Lemma solve_stores n ej en c fuel N o E G o' r : solve n ej en c fuel N o E G = (o', Ok r) ->
  o_eq o' = o_eq (fst (get_tdvp_equation c o E G)) /\ o_S o' = Some (fst (snd (get_tdvp_equation c o E G))) /\ o_sp o' <> None.
Proof.
  unfold solve, get_tdvp_equation. cbv zeta. cbn [o_eq o_S o_sp o_mean0 o_var0 o_meta o_cv fst snd].
  destruct (eigenbasis _ _ _ _) as [[ev V]|x]; intros H; [|discriminate]. injection H as H1 H2. subst o'. cbn. repeat split; discriminate.
Qed.
Lemma record_ok n ej en c fuel N o o1 o2 upd res cut E G u :
  solve n ej en c fuel N o E G = (o1, Ok (upd, res, cut)) -> record_step n ej en c fuel N o1 upd res cut E G = (o2, Ok u) ->
  u = upd /\ o_eq o2 = o_eq o1 /\ o_S o2 = o_S o1 /\ o_sp o2 = o_sp o1
  /\ exists q sp m, o_eq o1 = Some q /\ o_sp o1 = Some sp /\ o_mean0 o2 = Some (e_mean q) /\ o_var0 o2 = Some (e_var q) /\ o_meta o2 = Some m
     /\ m_error m = tdvp_error n q (e_var q) upd /\ m_residual m = res /\ m_cutoff m = cut /\ m_snr m = s_snr sp /\ m_ev m = s_ev sp.
Proof.
  intros HS. pose proof (solve_stores _ _ _ _ _ _ _ _ _ _ _ HS) as (T1 & T2 & T3). unfold record_step.
  destruct (o_eq o1) as [q|] eqn:Q; [|discriminate]. destruct (o_sp o1) as [sp|] eqn:P; [|discriminate].
  destruct (c_crossVal c).
  - unfold cross_validate. destruct (subset _ _ _ E) as [E1|]; [|discriminate]. destruct (subset _ _ _ G) as [G1|]; [|discriminate].
    destruct (subset (Some 1%Z) _ _ E) as [E2|]; [|discriminate]. destruct (subset (Some 1%Z) _ _ G) as [G2|]; [|discriminate].
    destruct (solve _ _ _ _ _ _ _ E1 G1) as [oa [[[ua ra] ca]|]] eqn:SA; [|discriminate]. apply solve_keeps in SA as (A1 & A2 & A3 & A4). cbn in A1, A2, A3, A4.
    destruct (get_tdvp_equation c oa E2 G2) as [ob [S2 F2]] eqn:EB.
    assert (KB : o_mean0 ob = o_mean0 oa /\ o_var0 ob = o_var0 oa) by (unfold get_tdvp_equation in EB; injection EB as <- _ _; split; reflexivity).
    destruct (solve _ _ _ _ _ _ ob E G) as [oc rc] eqn:SC.
    destruct (solve_same _ _ _ _ _ _ _ ob _ _ _ _ HS) as (oc' & SC' & C1' & C2' & C3' & C4' & C5' & _).
    rewrite SC in SC'. injection SC' as -> ->.
    destruct (get_tdvp_equation c oc' E G) as [od [Sd Fd]] eqn:ED. intros H. injection H as H1 H2. subst o2 u.
    unfold get_tdvp_equation in ED. injection ED as ED1 ED2 _. subst od. cbn [o_eq o_S o_sp o_mean0 o_var0 o_meta o_cv].
    split; [reflexivity|]. split; [rewrite T1; reflexivity|]. split; [rewrite T2, <- ED2; reflexivity|]. split; [rewrite C3'; exact P|].
    exists q, sp. eexists. split; [reflexivity|]. split; [reflexivity|]. rewrite C4', C5'. destruct KB as [-> ->]. split; [exact A1|]. split; [exact A2|]. split; [reflexivity|]. cbn. repeat split; reflexivity.
  - intros H. injection H as H1 H2. subst o2 u. cbn. try rewrite P. split; [reflexivity|]. split; [reflexivity|]. split; [reflexivity|]. split; [reflexivity|].
    exists q, sp. eexists. do 5 (split; [reflexivity|]). cbn. repeat split; reflexivity.
Qed.

Section CallOk.
  Context {Cfg : Type}.
  Variables (n : nat) (ej en : (nat -> nat -> C) -> result ((nat -> R) * (nat -> nat -> C))) (smp : sampler).
  Variables (draw : nqs -> result (Cfg * layout R)) (markov : tree * nat -> result Cfg) (coeffs : nqs -> Cfg -> result (Cfg * layout R)).
  Variables (oloc : nqs -> Cfg -> R -> result (layout (unit -> C))) (grads : nqs -> Cfg -> result (layout (nat -> C))).
  Lemma call_ok c fuel w P t st w' u : tdvp_call n ej en c smp draw markov coeffs oloc grads fuel w P t st = (w', Ok u) ->
    exists q1 configs p eloc g o1 u' res cut, set_parameters (w_psi w) P = Ok q1 /\ snd (do_sample smp draw markov coeffs q1) = Ok (configs, p)
      /\ oloc q1 configs t = Ok eloc /\ grads q1 configs = Ok g
      /\ solve n ej en c fuel (sample_glob smp (w_glob w)) (w_obj w) (init eloc p) (init g p) = (o1, Ok (u', res, cut))
      /\ restore q1 (get_parameters (w_psi w)) = Ok (w_psi w') /\ w_glob w' = sample_glob smp (w_glob w)
      /\ match st with
         | Some O => record_step n ej en c fuel (sample_glob smp (w_glob w)) o1 u' res cut (init eloc p) (init g p) = (w_obj w', Ok u)
         | _ => w_obj w' = o1 /\ u = u'
         end.
  Proof.
    unfold tdvp_call. destruct (set_parameters (w_psi w) P) as [q1|] eqn:E1; [|discriminate].
    pose proof (do_sample_keeps smp draw markov coeffs q1) as K. destruct (do_sample smp draw markov coeffs q1) as [q2 rs] eqn:E2. cbn [fst] in K. subst q2.
    destruct rs as [[configs p]|]; [|discriminate]. destruct (oloc q1 configs t) as [eloc|] eqn:E3; [|discriminate].
    destruct (grads q1 configs) as [g|] eqn:E4; [|discriminate].
    destruct (solve _ _ _ _ _ _ _ _ _) as [o1 [[[u' res] cut]|]] eqn:E5; [|discriminate].
    destruct (restore q1 (get_parameters (w_psi w))) as [q3|] eqn:E6; [|discriminate]. intros H.
    exists q1, configs, p, eloc, g, o1, u', res, cut. rewrite E2. cbn [snd]. do 5 (split; [assumption || reflexivity|]).
    destruct st as [[|k]|].
    - destruct (record_step _ _ _ _ _ _ _ _ _ _ _ _) as [o2 r2] eqn:E7. injection H as H1 H2. subst w' r2. cbn [w_psi w_glob w_obj]. split; [exact E6|]. split; reflexivity.
    - injection H as H1 H2. subst w' u. cbn. repeat split; assumption || reflexivity.
    - injection H as H1 H2. subst w' u. cbn. repeat split; assumption || reflexivity.
  Qed.
  Lemma call_runs c fuel w P t st q1 q3 configs p eloc g o1 u res cut : set_parameters (w_psi w) P = Ok q1 -> snd (do_sample smp draw markov coeffs q1) = Ok (configs, p) ->
      oloc q1 configs t = Ok eloc -> grads q1 configs = Ok g ->
      solve n ej en c fuel (sample_glob smp (w_glob w)) (w_obj w) (init eloc p) (init g p) = (o1, Ok (u, res, cut)) ->
      restore q1 (get_parameters (w_psi w)) = Ok q3 -> c_crossVal c = false ->
      exists w', tdvp_call n ej en c smp draw markov coeffs oloc grads fuel w P t st = (w', Ok u) /\ w_psi w' = q3 /\ w_glob w' = sample_glob smp (w_glob w).
  Proof.
    intros E1 E2 E3 E4 E5 E6 E7. unfold tdvp_call. rewrite E1. pose proof (do_sample_keeps smp draw markov coeffs q1) as K.
    destruct (do_sample smp draw markov coeffs q1) as [q2 rs]. cbn [fst snd] in K, E2. subst q2 rs. rewrite E3, E4, E5, E6.
    destruct st as [[|k]|]; [|eexists; repeat split; reflexivity|eexists; repeat split; reflexivity].
    pose proof (solve_stores _ _ _ _ _ _ _ _ _ _ _ E5) as (T1 & T2 & T3). unfold record_step. rewrite T1. unfold get_tdvp_equation at 1. cbn [fst o_eq].
    destruct (o_sp o1); [|congruence]. rewrite E7. eexists. repeat split; reflexivity.
  Qed.
End CallOk.

(** the same settings, with and without cross validation *)
Definition with_cv (c : settings) (b : bool) : settings :=
  mk_settings (c_exact c) (c_snrTol c) (c_pinvTol c) (c_pinvCutoff c) (c_imag c) (c_prefactor c) (c_shift c) b (c_onDevice c).
Lemma solve_cv n ej en c b b' fuel N o E G : solve n ej en (with_cv c b) fuel N o E G = solve n ej en (with_cv c b') fuel N o E G.
Proof. reflexivity. Qed.

(** ** the search for a regularisation that does not end *)
Lemma solve4_endless fuel N o : (N = 4)%Z -> snd (solve 1 eigh1 eigh1 (set4 false (/ 10 ^ 14) 0) fuel N o (init e4 w4) (init g4 w4)) = Err Diverges.
Proof.
  intros ->. destruct (spectrum4 false (/ 10 ^ 14) 0 fuel 4 o) as (sp & o' & -> & _ & S1 & S2 & _ & S4 & _ & S6). cbn [snd].
  set (c := set4 false (/ 10 ^ 14) 0).
  assert (QF := equation_F c w4 g4 e4 g4_shape e4_shape w4_ok o). change (c_imag c) with false in QF. change (c_prefactor c) with C1 in QF.
  set (Fm := snd (snd (get_tdvp_equation c o (init e4 w4) (init g4 w4)))) in *. clearbody Fm.
  assert (NF : norm 1 Fm = 3/16).
  { unfold norm, rsumn. cbn [seq map]. rewrite rsum_cons, rsum_nil, QF, force4, Cnorm2_RtoC. replace (- (3/16) * - (3/16) + 0) with ((3/16) * (3/16)) by ring. apply sqrt_square. lra. }
  assert (HT : / 10 ^ 14 < 1/2).
  { apply (Rmult_lt_reg_l (10 ^ 14)); [apply pow_lt; lra|]. rewrite Rinv_r by (apply pow_nonzero; lra).
    assert (10 ^ 1 <= 10 ^ 14) by (apply Rle_pow; [lra|lia]). lra. }
  assert (RES : forall cut, 0 < cut -> exists r, residual_of 1 sp (3/16) (pinv_ev 1 c sp cut) = Fin r /\ 1/2 < r).
  { intros cut Hc. destruct (soft_cutoff_finite (Rmax cut (c_pinvCutoff c)) (rel_ev 1 (s_ev sp) 0)) as [q Q].
    - left. pose proof (Rmax_l cut (c_pinvCutoff c)). lra.
    - unfold rel_ev. cbn [Nat.sub]. rewrite S1. rewrite xdiv_fin_ok; [discriminate|]. apply Rabs_no_R0. lra.
    - pose proof (soft_cutoff_range _ _ _ Q) as RQ.
      assert (SN : soft_cutoff 2 (s_snr sp 0%nat) = Fin (27/91)).
      { rewrite S4. unfold soft_cutoff. replace (Rabs (4 * (9/256) / (3/64))) with 3 by (rewrite Rabs_right; [field|lra]). cbn [xsqrt]. destruct (Rlt_dec 3 0); [lra|].
        assert (P3 : 0 < sqrt 3) by (apply sqrt_lt_R0; lra). assert (Q3 : sqrt 3 * sqrt 3 = 3) by (apply sqrt_sqrt; lra).
        rewrite xdiv_fin_ok by lra. cbn [xpow6 xplus1]. replace ((2 / sqrt 3) ^ 6) with (64/27).
        - rewrite xdiv_fin_ok by lra. f_equal. field.
        - replace (2 / sqrt 3) with (2 * / sqrt 3) by reflexivity. rewrite Rpow_mult_distr, pow_inv. replace (sqrt 3 ^ 6) with (27) by (replace (sqrt 3 ^ 6) with ((sqrt 3 * sqrt 3) * (sqrt 3 * sqrt 3) * (sqrt 3 * sqrt 3)) by ring; rewrite Q3; ring). field. }
      assert (PV : pinv_ev 1 c sp cut 0%nat = Fin (16/3 * (q * (27/91)))).
      { unfold pinv_ev. rewrite Q. change (c_exact c) with false. change (c_snrTol c) with 2. cbv iota. rewrite SN, S6. reflexivity. }
      unfold residual_of. destruct (finite_vec_ok 1 (pinv_ev 1 c sp cut) (fun _ => 16/3 * (q * (27/91)))) as (p & -> & HP).
      { intros k Hk. replace k with 0%nat by lia. exact PV. }
      rewrite xdiv_fin_ok by lra. eexists. split; [reflexivity|]. unfold norm, rsumn. cbn [seq map]. rewrite rsum_cons, rsum_nil, HP, S1, S2 by lia.
      set (z := 16/3 * (q * (27/91)) * (3/16) - 1). assert (HZ : z <= - (64/91)) by (unfold z; nra).
      rewrite <- RtoC_mul, Cnorm2_RtoC. replace (z * - (3/16) * (z * - (3/16)) + 0) with ((- z * (3/16)) * (- z * (3/16))) by ring.
      rewrite sqrt_square by lra. replace (- z * (3/16) / (3/16)) with (- z) by field. lra. }
  unfold regularise. rewrite NF.
  assert (L : forall f r cut pv, 1/2 < r -> 0 < cut -> search 1 c f sp (3/16) (Fin r) cut pv = Err Diverges).
  { induction f as [|f IH]; intros r cut pv Hr Hc; cbn [search xlt]; change (c_pinvTol c) with (/ 10 ^ 14); change (c_pinvCutoff c) with 0;
      (destruct (Rlt_dec (/ 10 ^ 14) r); [|lra]); (destruct (Rlt_dec 0 cut); [|lra]); cbn [andb]; [reflexivity|].
    destruct (RES (cut * (8/10)) ltac:(lra)) as (r' & -> & Hr'). apply IH; lra. }
  rewrite L; [reflexivity|lra|]. apply Rinv_0_lt_compat, pow_lt. lra.
Qed.

Lemma csumn_zero_ N f : (forall k, (k < N)%nat -> f k = C0) -> csumn N f = C0.
Proof. intros H. rewrite <- (csumn_zero N). apply csumn_ext. exact H. Qed.
Lemma Cassoc a b c : (a * (b * c) = a * b * c)%C. Proof. ring. Qed.
(** ** pseudo-inverse of Gram matrices of rank at most one *)
Definition pinv1 (N : nat) (A : nat -> nat -> C) : nat -> nat -> C :=
  let s := rsumn N (fun i => Re (A i i)) in
  if Req_EM_T s 0 then fun _ _ => C0 else fun i j => (RtoC (/ (s * s)) * A i j)%C.
Lemma pinv1_correct N A (v : nat -> C) : (forall i j, (i < N)%nat -> (j < N)%nat -> A i j = (v i * Cconj (v j))%C) -> pseudo_inverse N A (pinv1 N A).
Proof.
  intros HA. unfold pinv1. set (s := rsumn N (fun i => Re (A i i))).
  assert (Hs : csumn N (fun i => (Cconj (v i) * v i)%C) = RtoC s).
  { unfold s. rewrite <- csumn_RtoC. apply csumn_ext. intros i Hi. rewrite HA by assumption. replace (Cconj (v i) * v i)%C with (v i * Cconj (v i))%C by ring. rewrite Cmul_conj_r. reflexivity. }
  assert (Hs' : s = rsumn N (fun i => Cnorm2 (v i))).
  { unfold s. apply rsumn_ext. intros i Hi. rewrite HA by assumption. rewrite Cmul_conj_r. reflexivity. }
  assert (AA : forall i j, (i < N)%nat -> (j < N)%nat -> mul N A A i j = (RtoC s * A i j)%C).
  { intros i j Hi Hj. unfold mul. rewrite (csumn_ext N _ (fun k => (v i * Cconj (v j) * (Cconj (v k) * v k))%C)).
    - rewrite csumn_scal, Hs, (HA i j) by assumption. ring.
    - intros k Hk. rewrite (HA i k), (HA k j) by assumption. ring. }
  assert (HH : forall i j, (i < N)%nat -> (j < N)%nat -> Cconj (A j i) = A i j).
  { intros i j Hi Hj. rewrite (HA j i), (HA i j) by assumption. rewrite Cconj_mul, Cconj_conj. ring. }
  destruct (Req_EM_T s 0) as [Z|Z].
  - assert (V0 : forall i, (i < N)%nat -> v i = C0).
    { intros i Hi. apply Cnorm2_eq0. rewrite Z in Hs'. symmetry in Hs'. apply (rsumn_eq0 N (fun i => Cnorm2 (v i))); [intros; apply Cnorm2_ge|exact Hs'|exact Hi]. }
    assert (A0 : forall i j, (i < N)%nat -> (j < N)%nat -> A i j = C0) by (intros i j Hi Hj; rewrite HA, V0 by assumption; ring).
    assert (ZL : forall B i j, mul N (fun _ _ => C0) B i j = C0) by (intros B i j; unfold mul; apply csumn_zero_; intros; ring).
    assert (ZR : forall B i j, mul N B (fun _ _ => C0) i j = C0) by (intros B i j; unfold mul; apply csumn_zero_; intros; ring).
    split; [|split; [|split]]; intros i j Hi Hj.
    + rewrite A0 by assumption. unfold mul. apply csumn_zero_. intros k Hk. rewrite (A0 k j) by assumption. ring.
    + apply ZR.
    + unfold dagger. rewrite !ZR. apply C_eq; cbn; ring.
    + unfold dagger. rewrite !ZL. apply C_eq; cbn; ring.
  - assert (ML : forall B a i j, mul N (fun i j => (a * A i j)%C) B i j = (a * mul N A B i j)%C) by (intros; unfold mul; rewrite <- csumn_scal; apply csumn_ext; intros; ring).
    assert (MR : forall B a i j, mul N B (fun i j => (a * A i j)%C) i j = (a * mul N B A i j)%C) by (intros; unfold mul; rewrite <- csumn_scal; apply csumn_ext; intros; ring).
    assert (E1 : forall i j, (i < N)%nat -> (j < N)%nat -> mul N A (fun i j => (RtoC (/ (s * s)) * A i j)%C) i j = (RtoC (/ s) * A i j)%C).
    { intros i j Hi Hj. rewrite MR, AA by assumption. rewrite Cassoc, <- RtoC_mul. do 2 f_equal. field. exact Z. }
    assert (E2 : forall i j, (i < N)%nat -> (j < N)%nat -> mul N (fun i j => (RtoC (/ (s * s)) * A i j)%C) A i j = (RtoC (/ s) * A i j)%C).
    { intros i j Hi Hj. rewrite ML, AA by assumption. rewrite Cassoc, <- RtoC_mul. do 2 f_equal. field. exact Z. }
    split; [|split; [|split]]; intros i j Hi Hj.
    + unfold mul at 1. rewrite (csumn_ext N _ (fun k => (RtoC (/ s) * (A i k * A k j))%C)) by (intros k Hk; rewrite E1 by assumption; ring).
      rewrite csumn_scal. change (csumn N (fun k => (A i k * A k j)%C)) with (mul N A A i j). rewrite AA, Cassoc, <- RtoC_mul, Rinv_l by assumption. apply C_eq; cbn; ring.
    + unfold mul at 1. rewrite (csumn_ext N _ (fun k => (RtoC (/ s) * RtoC (/ (s * s)) * (A i k * A k j))%C)) by (intros k Hk; rewrite E2 by assumption; ring).
      rewrite csumn_scal. change (csumn N (fun k => (A i k * A k j)%C)) with (mul N A A i j). rewrite AA, Cassoc by assumption. rewrite <- !RtoC_mul. do 2 f_equal. field. exact Z.
    + unfold dagger. rewrite !E1 by assumption. rewrite Cconj_mul, HH by assumption. f_equal. apply C_eq; cbn; ring.
    + unfold dagger. rewrite !E2 by assumption. rewrite Cconj_mul, HH by assumption. f_equal. apply C_eq; cbn; ring.
Qed.
