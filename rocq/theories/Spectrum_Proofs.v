(** Lemmas about spectra: moments of the energy distribution. *)
From Coq Require Import ZArith List Reals Lra Lia Bool Classical.
From Verif Require Import Base Cplx Stats_Spec Stats_Proofs BranchFree_Model BranchFree_Spec Exact_Proofs Tdvp5_Proofs Vmc_Spec Vmc_Proofs Ehren_Spec Ehren_Proofs Spectrum_Spec.
Import ListNotations.
Local Open Scope R_scope.

Section Moments.
Variables (basis : list config) (O : wavefun -> wavefun) (es : list (R * wavefun)) (phi : wavefun).
Hypothesis Hh : hermitian_on basis O.
Hypothesis He : eigensystem basis O es.
Hypothesis Hn : 0 < norm2 basis phi.
Let br := braket basis.
Let w (ev : R * wavefun) : R := Cnorm2 (br (snd ev) phi).
Let S (f : R -> R) : R := rsum (map (fun ev => f (fst ev) * w ev) es).
Let Nf := norm2 basis phi.
Let E := Re (expectation basis O phi).
Let V := spread basis O phi.

Lemma overlap e v : In (e, v) es -> br v (O phi) = (RtoC e * br v phi)%C.
Proof.
  intros Hin. unfold br. rewrite (Hh v phi). rewrite (braket_ext basis phi phi (O v) (fun s => RtoC e * v s)%C); [|reflexivity|exact (proj2 (proj1 He e v Hin))].
  rewrite braket_scal_r, Cconj_mul, <- braket_conj. f_equal. unfold Cconj, RtoC. cbn. f_equal. ring.
Qed.
Lemma moment2 a : norm2 basis (fun s => (O phi s - RtoC a * phi s)%C) = S (fun e => (e - a) * (e - a)).
Proof.
  rewrite (proj2 He). unfold S. apply rsum_ext. intros [e v] Hin. cbn [fst snd]. unfold w. cbn [snd].
  assert (Q : braket basis v (fun s => (O phi s - RtoC a * phi s)%C) = (RtoC (e - a) * br v phi)%C).
  { rewrite (braket_ext basis v v _ (fun s => (O phi s + (- RtoC a) * phi s)%C)); [|reflexivity|intros; ring].
    rewrite braket_add_r, braket_scal_r. pose proof (overlap e v Hin) as Q. unfold br in *. rewrite Q.
    generalize (braket basis v phi). intros [x y]. unfold RtoC, Copp, Cadd, Cmul, Csub. cbn. f_equal; ring. }
  rewrite Q. generalize (br v phi). intros [x y]. unfold Cnorm2, RtoC, Cmul. cbn. ring.
Qed.
Lemma moment0 : S (fun _ : R => 1) = Nf.
Proof. unfold Nf. rewrite (proj2 He phi). unfold S. apply rsum_ext. intros ev _. unfold w, br. ring. Qed.
Lemma S_lin f g a b : S (fun e => a * f e + b * g e) = a * S f + b * S g.
Proof. unfold S. rewrite <- !rsum_scal, <- rsum_map_add. apply rsum_ext. intros. ring. Qed.
Lemma S_ext f g : (forall e, f e = g e) -> S f = S g.
Proof. intros H. unfold S. apply rsum_ext. intros. now rewrite H. Qed.
Lemma S_ge f : (forall e v, In (e, v) es -> 0 <= f e) -> 0 <= S f.
Proof. intros H. apply rsum_map_nonneg. intros [e v] Hin. apply Rmult_le_pos; [now apply (H e v)|apply Cnorm2_ge]. Qed.
Lemma expand a : norm2 basis (fun s => (O phi s - RtoC a * phi s)%C) = norm2 basis (O phi) - 2 * a * Re (br phi (O phi)) + a * a * Nf.
Proof.
  apply RtoC_inj. rewrite <- braket_self. set (f := fun s => (O phi s - RtoC a * phi s)%C).
  assert (Q : forall h, braket basis h f = (braket basis h (O phi) - RtoC a * braket basis h phi)%C).
  { intros h. unfold f. rewrite (braket_ext basis h h _ (fun s => (O phi s + (- RtoC a) * phi s)%C)); [|reflexivity|intros; ring]. rewrite braket_add_r, braket_scal_r. ring. }
  rewrite Q, (braket_conj basis f (O phi)), (braket_conj basis f phi), !Q, !braket_self, (braket_conj basis (O phi) phi). unfold br, Nf.
  generalize (braket basis phi (O phi)), (norm2 basis (O phi)), (norm2 basis phi). intros [x y] p q. unfold Csub, Copp, Cadd, Cmul, Cconj, RtoC. cbn. f_equal; ring.
Qed.
Lemma moment1 : S (fun e => e) = Re (br phi (O phi)).
Proof.
  pose proof (moment2 1) as A. pose proof (moment2 (-1)) as B. rewrite expand in A, B.
  assert (D : S (fun e => (e - -1) * (e - -1)) = S (fun e => 1 * ((e - 1) * (e - 1)) + 4 * e)) by (apply S_ext; intros; ring).
  rewrite D, S_lin in B. lra.
Qed.
Lemma E_value : E = Re (br phi (O phi)) / Nf.
Proof. unfold E, expectation, Cdiv. fold br. rewrite <- Cinv_RtoC_ by (unfold Nf in *; lra). generalize (br phi (O phi)). intros [x y]. unfold RtoC, Cmul. cbn. unfold Nf. field. unfold Nf in *; lra. Qed.
Lemma E_real : Im (expectation basis O phi) = 0.
Proof.
  unfold expectation, Cdiv. rewrite <- Cinv_RtoC_ by lra. pose proof (Hh phi phi) as Q. revert Q. generalize (braket basis phi (O phi)). intros [x y] Q. apply (f_equal Im) in Q. unfold Cconj in Q. cbn in Q. unfold RtoC, Cmul. cbn. assert (y = 0) by lra. subst y. ring.
Qed.
Lemma V_value : V = S (fun e => (e - E) * (e - E)) / Nf.
Proof.
  rewrite <- moment2. unfold V, spread. f_equal. apply rsum_ext. intros s _. f_equal. f_equal. f_equal. pose proof E_real as Q. unfold E. revert Q. generalize (expectation basis O phi). intros [x y] Q. cbn in Q. subst y. reflexivity.
Qed.
Lemma S_E : S (fun e => e) = E * Nf. Proof. rewrite moment1, E_value. field. unfold Nf; lra. Qed.
Lemma S_V : S (fun e => (e - E) * (e - E)) = V * Nf. Proof. rewrite V_value. field. unfold Nf; lra. Qed.

(** a function that is negative on the spectrum has a negative mean *)
Lemma S_neg f : S f >= 0 -> exists e v, In (e, v) es /\ w (e, v) <> 0 /\ 0 <= f e.
Proof.
  intros HS. apply NNPP. intros HN. assert (HL : forall e v, In (e, v) es -> w (e, v) <> 0 -> f e < 0).
  { intros e v Hin Hw. apply Rnot_le_lt. intros Q. apply HN. now exists e, v. }
  assert (HF : forall ev, In ev es -> f (fst ev) * w ev <= 0).
  { intros [e v] Hin. cbn [fst]. destruct (Req_dec (w (e, v)) 0) as [->|Hw]; [lra|]. specialize (HL e v Hin Hw). pose proof (Cnorm2_ge (br v phi)) as P. fold (w (e, v)) in P.
    apply Ropp_le_cancel. rewrite Ropp_0, Ropp_mult_distr_l. apply Rmult_le_pos; [lra|exact P]. }
  assert (Z : S (fun e => - f e) = 0).
  { apply Rle_antisym.
    - assert (S (fun e => - f e) = - S f) by (transitivity (S (fun e => (-1) * f e + 0 * f e)); [apply S_ext; intros; ring|rewrite S_lin; ring]). lra.
    - apply rsum_map_nonneg. intros ev Hin. specialize (HF ev Hin). lra. }
  assert (AZ : forall ev, In ev es -> w ev = 0).
  { intros [e v] Hin. destruct (Req_dec (w (e, v)) 0) as [|Hw]; [assumption|exfalso]. specialize (HL e v Hin Hw).
    assert (Q : - f e * w (e, v) = 0).
    { unfold S in Z. refine (rsum_nonneg_eq0 (fun ev => - f (fst ev) * w ev) es _ Z (e, v) Hin). intros ev Hev. specialize (HF ev Hev). lra. }
    apply Rmult_integral in Q as [Q|Q]; [lra|contradiction]. }
  pose proof moment0 as M0. unfold S in M0. assert (Z0 : rsum (map (fun ev : R * wavefun => 1 * w ev) es) = 0) by (rewrite <- (rsum_zero es); apply rsum_ext; intros ev Hin; rewrite (AZ ev Hin); ring). unfold Nf in M0. lra.
Qed.
Lemma is_eigenvalue e v : In (e, v) es -> eigenvalue basis O e.
Proof. intros Hin. exists v. destruct (proj1 He e v Hin) as [A B]. split; [lra|exact B]. Qed.

Lemma below_mean : exists e, eigenvalue basis O e /\ e <= E.
Proof.
  destruct (S_neg (fun e => E - e)) as (e & v & H1 & H2 & H3).
  - replace (S (fun e => E - e)) with 0; [lra|]. transitivity (S (fun e => E * 1 + (-1) * e)); [rewrite S_lin, moment0, S_E; ring|apply S_ext; intros; ring].
  - exists e. split; [now apply (is_eigenvalue e v)|lra].
Qed.
Lemma above_mean : exists e, eigenvalue basis O e /\ E <= e.
Proof.
  destruct (S_neg (fun e => e - E)) as (e & v & H1 & H2 & H3).
  - replace (S (fun e => e - E)) with 0; [lra|]. transitivity (S (fun e => 1 * e + (- E) * 1)); [rewrite S_lin, moment0, S_E; ring|apply S_ext; intros; ring].
  - exists e. split; [now apply (is_eigenvalue e v)|lra].
Qed.
Lemma near_mean : exists e, eigenvalue basis O e /\ (e - E) * (e - E) <= V.
Proof.
  destruct (S_neg (fun e => V - (e - E) * (e - E))) as (e & v & H1 & H2 & H3).
  - replace (S (fun e => V - (e - E) * (e - E))) with 0; [lra|]. transitivity (S (fun e => V * 1 + (-1) * ((e - E) * (e - E)))); [|apply S_ext; intros; ring].
    rewrite (S_lin (fun _ : R => 1) (fun e => (e - E) * (e - E))), moment0, S_V. ring.
  - exists e. split; [now apply (is_eigenvalue e v)|lra].
Qed.

Lemma S_le f g : (forall e v, In (e, v) es -> f e <= g e) -> S f <= S g.
Proof. intros H. apply rsum_map_le. intros [e v] Hin. apply Rmult_le_compat_r; [apply Cnorm2_ge|now apply (H e v)]. Qed.
Lemma outcome_S sel : outcome basis es sel phi = S (fun e => if sel e then 1 else 0) / Nf.
Proof. unfold outcome, S. f_equal. apply rsum_ext. intros ev _. unfold w, br. destruct (sel (fst ev)); ring. Qed.
Lemma outcome_le (sel : R -> bool) (f : R -> R) c : (forall e v, In (e, v) es -> (if sel e then 1 else 0) <= f e) -> S f <= c * Nf -> outcome basis es sel phi <= c.
Proof.
  intros H1 H2. rewrite outcome_S. apply (Rmult_le_reg_r Nf); [exact Hn|]. unfold Rdiv. rewrite Rmult_assoc, Rinv_l by (unfold Nf; lra). rewrite Rmult_1_r. eapply Rle_trans; [apply (S_le _ f), H1|exact H2].
Qed.
Lemma outcome_ge (sel : R -> bool) (f : R -> R) c : (forall e v, In (e, v) es -> f e <= (if sel e then 1 else 0)) -> c * Nf <= S f -> c <= outcome basis es sel phi.
Proof.
  intros H1 H2. rewrite outcome_S. apply (Rmult_le_reg_r Nf); [exact Hn|]. unfold Rdiv. rewrite Rmult_assoc, Rinv_l by (unfold Nf; lra). rewrite Rmult_1_r. eapply Rle_trans; [exact H2|apply S_le, H1].
Qed.
Lemma far d (sel : R -> bool) : 0 < d -> (forall e, sel e = true -> d <= Rabs (e - E)) -> outcome basis es sel phi <= V / (d * d).
Proof.
  intros Hd Hs. apply (outcome_le sel (fun e => / (d * d) * ((e - E) * (e - E)))).
  - intros e v _. destruct (sel e) eqn:Q.
    + specialize (Hs e Q). rewrite <- (Rinv_l (d * d)) by nra. apply Rmult_le_compat_l; [left; apply Rinv_0_lt_compat; nra|].
      rewrite <- (Rabs_right ((e - E) * (e - E))) by (apply Rle_ge, Rle_0_sqr). rewrite Rabs_mult. apply Rmult_le_compat; lra.
    + apply Rmult_le_pos; [left; apply Rinv_0_lt_compat; nra|apply Rle_0_sqr].
  - apply Req_le. transitivity (S (fun e => / (d * d) * ((e - E) * (e - E)) + 0 * 1)); [apply S_ext; intros; ring|].
    rewrite (S_lin (fun e => (e - E) * (e - E)) (fun _ : R => 1)), S_V. unfold Rdiv. ring.
Qed.
(** the lowest eigenvalue e0 is separated from all others by e1 *)
Lemma ground_weight e0 e1 (sel : R -> bool) : e0 < e1 -> (forall e v, In (e, v) es -> e0 <= e /\ (sel e = false -> e1 <= e)) ->
  (e1 - E) / (e1 - e0) <= outcome basis es sel phi.
Proof.
  intros Hg Hs. apply (outcome_ge sel (fun e => / (e1 - e0) * (e1 - e))).
  - intros e v Hin. destruct (Hs e v Hin) as [Q1 Q2]. pose proof (Rinv_0_lt_compat (e1 - e0) ltac:(lra)) as P. destruct (sel e).
    + rewrite <- (Rinv_l (e1 - e0)) by lra. apply Rmult_le_compat_l; lra.
    + specialize (Q2 eq_refl). apply Ropp_le_cancel. rewrite Ropp_0, Ropp_mult_distr_r. apply Rmult_le_pos; lra.
  - apply Req_le. transitivity (S (fun e => (/ (e1 - e0) * e1) * 1 + (- / (e1 - e0)) * e)); [rewrite S_lin, moment0, S_E; unfold Rdiv; ring|apply S_ext; intros; ring].
Qed.
Lemma temple e0 e1 : (forall e v, In (e, v) es -> e = e0 \/ (e0 <= e /\ e1 <= e)) -> e0 < e1 -> E < e1 -> E - V / (e1 - E) <= e0.
Proof.
  intros Hs Hg HE. assert (Q : 0 <= S (fun e => (e - e0) * (e - e1))).
  { apply S_ge. intros e v Hin. destruct (Hs e v Hin) as [->|[A B]]; [lra|]. apply Rmult_le_pos; lra. }
  assert (D : S (fun e => (e - e0) * (e - e1)) = (V + (E - e0) * (E - e1)) * Nf).
  { transitivity (S (fun e => 1 * ((e - E) * (e - E)) + 1 * ((2 * E - e0 - e1) * e + (e0 * e1 - E * E) * 1))); [apply S_ext; intros; ring|].
    rewrite (S_lin (fun e => (e - E) * (e - E)) (fun e => (2 * E - e0 - e1) * e + (e0 * e1 - E * E) * 1)), S_lin, S_V, moment0, S_E. ring. }
  rewrite D in Q. assert (Q' : 0 <= V + (E - e0) * (E - e1)). { apply (Rmult_le_reg_r Nf); [exact Hn|]. lra. }
  apply (Rmult_le_reg_r (e1 - E)); [lra|]. unfold Rdiv. rewrite Rmult_minus_distr_r, Rmult_assoc, Rinv_l by lra. lra.
Qed.
End Moments.
