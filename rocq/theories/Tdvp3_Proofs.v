(** The matrix and the force of the TDVP equation; the update is real. *)
From Coq Require Import List Reals Lra Lia Arith ZArith Bool.
From Verif Require Import Base Cplx Povm_Spec Povm_Proofs Povm3_Proofs Stats_Model Stats_Spec Stats_Proofs Stepper_Model Tdvp_Model Tdvp_Spec Tdvp_Proofs Tdvp2_Proofs.
Import ListNotations.
Local Open Scope R_scope.

Lemma makeReal_part imag z : makeReal imag z = part imag z.
Proof. destruct imag, z as [a b]; unfold makeReal, imagFun, realFun, part, Cmul, Csub, Cadd, Copp, Cconj, RtoC, Ci, Re, Im; cbn [fst snd]; apply C_eq; cbn [fst snd]; field. Qed.
Lemma part_conj imag z : part imag (Cconj z) = Cconj (part imag z).
Proof. destruct imag, z as [a b]; unfold part, Cmul, Cconj, RtoC, Ci, Re, Im; cbn [fst snd]; apply C_eq; cbn [fst snd]; ring. Qed.
Lemma part_imag z : Cconj (part true z) = (- part true z)%C.
Proof. destruct z as [a b]; unfold part, Cmul, Cconj, Copp, RtoC, Ci, Re, Im; cbn [fst snd]; apply C_eq; cbn [fst snd]; ring. Qed.
Lemma part_real z : Im (part false z) = 0. Proof. reflexivity. Qed.

Section Equation.
  Variables (c : settings) (w : layout R) (g : layout (nat -> C)) (e : layout (unit -> C)) (s : R).
  Hypotheses (Hg : shape_eq g w) (He : shape_eq e w) (Hw : weights_ok (flat w)) (Hs : applied_shift (c_shift c) s).
  Let Sm := fisher (c_imag c) s w g.
  Let F := force (c_imag c) (c_prefactor c) w g e.

  Lemma equation_S o k l : fst (snd (get_tdvp_equation c o (init e w) (init g w))) k l = Sm k l.
  Proof.
    cbn [get_tdvp_equation fst snd]. unfold Sm, fisher. destruct Hs as [[H1 H2]|[H1 H2]]; destruct (Rlt_dec _ _); try lra.
    - rewrite !makeReal_part, !covar_self_ok by assumption. destruct (Nat.eqb k l) eqn:E.
      + apply Nat.eqb_eq in E. subst l. rewrite H2, RtoC_add, RtoC_1. ring.
      + ring.
    - rewrite makeReal_part, covar_self_ok by assumption. rewrite H2, Rplus_0_r. destruct (Nat.eqb k l); rewrite ?RtoC_1; ring.
  Qed.
  Lemma equation_F o k : snd (snd (get_tdvp_equation c o (init e w) (init g w))) k = F k.
  Proof. cbn [get_tdvp_equation fst snd]. unfold F, force. rewrite makeReal_part, covar_ok by assumption. f_equal. ring. Qed.

  Lemma fisher_hermitian n : hermitian n Sm.
  Proof.
    intros k l _ _. unfold dagger, Sm, fisher. rewrite Cconj_mul, <- part_conj, <- cov_herm. f_equal.
    rewrite Nat.eqb_sym. destruct (Nat.eqb k l); unfold Cconj, RtoC, C1; cbn [fst snd]; apply C_eq; cbn [fst snd]; ring.
  Qed.
  Lemma fisher_imag k l : c_imag c = true -> Cconj (Sm k l) = (- Sm k l)%C.
  Proof.
    intros H. unfold Sm, fisher. rewrite H, Cconj_mul, part_imag. destruct (Nat.eqb k l); rewrite ?Cconj_RtoC, ?Cconj_C1; ring.
  Qed.
  Lemma force_imag k : c_imag c = true -> Cconj (F k) = (- F k)%C.
  Proof. intros H. unfold F, force. now rewrite H, part_imag. Qed.
  Lemma fisher_real k l : c_imag c = false -> Im (Sm k l) = 0.
  Proof. intros H. unfold Sm, fisher. rewrite H. destruct (Nat.eqb k l); cbn; ring. Qed.
  Lemma force_real k : c_imag c = false -> Im (F k) = 0.
  Proof. intros H. unfold F, force. now rewrite H. Qed.

  Lemma shift_nonneg : 0 <= s.
  Proof. assert (0 < / 10 ^ 10) by (apply Rinv_0_lt_compat, pow_lt; lra). destruct Hs as [[]|[]]; lra. Qed.
  Lemma weights_pairs_ok : rsum (map fst (wpairs w g)) = 1 /\ forall p, In p (map fst (wpairs w g)) -> 0 <= p.
  Proof. rewrite weights_pairs by assumption. destruct Hw. split; auto. Qed.

  Lemma expect_cov n v : Povm_Spec.expect n (fun k l => cov (wpairs w g) (fun x => x k) (fun x => x l)) v
    = RtoC (variance (wpairs w g) (fun a => csum (map (fun k => (v k * a k)%C) (seq 0 n)))).
  Proof.
    rewrite <- (cov_psd (wpairs w g) v (fun k a => a k)) by (apply weights_pairs_ok). unfold Povm_Spec.expect, csumn. apply csum_ext. intros i _.
    rewrite <- csum_scal. apply csum_ext. intros j _. ring.
  Qed.
  Lemma fisher_psd n : c_imag c = false -> psd n Sm.
  Proof.
    intros H v. pose proof (expect_cov n v) as E1. pose proof (expect_cov n (fun k => Cconj (v k))) as E2. cbv beta in E2.
    set (A := fun k l => cov (wpairs w g) (fun x : nat -> C => x k) (fun x => x l)) in *.
    destruct weights_pairs_ok as [W1 W2].
    assert (D : Povm_Spec.expect n Sm v = (RtoC (1/2) * (Povm_Spec.expect n A v + Cconj (Povm_Spec.expect n A (fun k => Cconj (v k))))
                 + RtoC (rsumn n (fun k => s * Re (A k k) * Cnorm2 (v k))%R))%C).
    { unfold Povm_Spec.expect. rewrite csumn_conj, <- csumn_add, <- csumn_scal, <- csumn_RtoC, <- csumn_add. apply csumn_ext. intros i Hi.
      rewrite Cconj_mul, csumn_conj, Cconj_conj.
      transitivity (Cconj (v i) * (csumn n (fun j => RtoC (Re (A i j)) * v j) + RtoC s * RtoC (Re (A i i)) * v i))%C.
      - f_equal. rewrite <- (csumn_delta n i (fun j => RtoC s * RtoC (Re (A i j)) * v j)%C Hi). rewrite <- csumn_add. apply csumn_ext. intros j Hj.
        unfold Sm, fisher. rewrite H. fold (A i j). unfold part. destruct (Nat.eqb i j); rewrite ?RtoC_add, ?RtoC_1; ring.
      - assert (Q : csumn n (fun j => (RtoC (Re (A i j)) * v j)%C) = (RtoC (1/2) * (csumn n (fun j => A i j * v j) + csumn n (fun k => Cconj (A i k * Cconj (v k)))))%C).
        { rewrite <- csumn_add, <- csumn_scal. apply csumn_ext. intros j Hj. rewrite Cconj_mul, Cconj_conj.
          replace (RtoC (Re (A i j))) with (RtoC (1/2) * (A i j + Cconj (A i j)))%C; [ring|]. destruct (A i j); unfold Cmul, Cadd, Cconj, RtoC, Re; cbn [fst snd]; apply C_eq; cbn [fst snd]; field. }
        rewrite Q. rewrite !RtoC_mul, <- Cmul_conj. ring. }
    rewrite D, E1, E2, Cconj_RtoC, <- RtoC_add, <- RtoC_mul, <- RtoC_add. split; [reflexivity|]. cbn [Re RtoC fst].
    assert (0 <= rsumn n (fun k => s * Re (A k k) * Cnorm2 (v k))).
    { apply rsumn_nonneg. intros k Hk. apply Rmult_le_pos; [|apply Cnorm2_ge]. apply Rmult_le_pos; [apply shift_nonneg|].
      unfold A. rewrite <- variance_cov by assumption. cbn [Re RtoC fst]. now apply variance_nonneg. }
    pose proof (variance_nonneg (wpairs w g) (fun a => csum (map (fun k => (v k * a k)%C) (seq 0 n))) W2).
    pose proof (variance_nonneg (wpairs w g) (fun a => csum (map (fun k => (Cconj (v k) * a k)%C) (seq 0 n))) W2).
    set (v1 := variance _ _) in *. set (v2 := variance _ _) in *. set (r := rsumn _ _) in *. clearbody v1 v2 r. unfold Re, RtoC. cbn [fst]. lra.
  Qed.
End Equation.

(** ** the solution is real *)
Section Real.
  Variables (n : nat) (F : nat -> C) (V : mat) (p : nat -> R).
  Let x := apply n V (fun j => (RtoC (p j) * apply n (dagger V) F j)%C).
  Lemma real_solution : real_matrix n V -> (forall k, Im (F k) = 0) -> forall k, (k < n)%nat -> x k = RtoC (Re (x k)).
  Proof.
    intros HV HF k Hk. apply Im0_RtoC. unfold x, apply.
    assert (A : forall j, (j < n)%nat -> csumn n (fun l => dagger V j l * F l)%C = RtoC (Re (csumn n (fun l => dagger V j l * F l)%C))).
    { intros j Hj. apply Im0_RtoC. rewrite (csumn_ext n _ (fun l => RtoC (Re (V l j) * Re (F l)))); [now rewrite csumn_RtoC|].
      intros l Hl. unfold dagger. rewrite (Im0_RtoC (V l j)), (Im0_RtoC (F l)) by auto. rewrite Cconj_RtoC, <- RtoC_mul. reflexivity. }
    rewrite (csumn_ext n _ (fun j => RtoC (Re (V k j) * (p j * Re (csumn n (fun l => dagger V j l * F l)%C))))); [now rewrite csumn_RtoC|].
    intros j Hj. rewrite A by assumption. rewrite (Im0_RtoC (V k j)) by auto. rewrite !RtoC_mul. reflexivity.
  Qed.
End Real.

Section Imag.
  Variables (n : nat) (Sm : mat) (F : nat -> C) (ev : nat -> R) (V : mat) (p : nat -> R).
  Hypotheses (E : spectral n Sm ev V) (HS : forall k l, Cconj (Sm k l) = (- Sm k l)%C) (HF : forall k, Cconj (F k) = (- F k)%C)
             (HH : hermitian n Sm).
  Let W : mat := fun i j => Cconj (V i j).
  Let P : mat := mul n (dagger V) W.
  Lemma P_spectrum j k : (j < n)%nat -> (k < n)%nat -> (RtoC (ev j + ev k) * P j k = C0)%C.
  Proof.
    intros Hj Hk. rewrite RtoC_add.
    assert (A : (RtoC (ev j) * P j k)%C = csumn n (fun i => (Cconj (V i j) * csumn n (fun l => Sm i l * W l k))%C)).
    { (* (S V)^dagger W *) unfold P, mul, dagger. rewrite <- csumn_scal.
      transitivity (csumn n (fun i => (csumn n (fun l => Cconj (Sm i l * V l j)) * W i k)%C)).
      - apply csumn_ext. intros i Hi. pose proof (proj1 (proj2 E) i j Hi Hj) as H. unfold mul in H. rewrite <- csumn_conj, H, Cconj_mul, Cconj_RtoC. ring.
      - rewrite (csumn_ext n (fun i => csumn n _ * W i k)%C (fun i => csumn n (fun l => Cconj (Sm i l * V l j) * W i k)%C)) by (intros; now rewrite csumn_scal_r).
        rewrite csumn_swap. apply csumn_ext. intros l Hl. rewrite <- csumn_scal. apply csumn_ext. intros i Hi.
        rewrite Cconj_mul. assert (HHil : Cconj (Sm i l) = Sm l i) by (apply (HH l i); assumption). rewrite HHil. ring. }
    assert (B : forall i, (i < n)%nat -> csumn n (fun l => Sm i l * W l k)%C = (- (RtoC (ev k) * W i k))%C).
    { intros i Hi. pose proof (proj1 (proj2 E) i k Hi Hk) as H. unfold mul in H. apply (f_equal Cconj) in H. rewrite csumn_conj, Cconj_mul, Cconj_RtoC in H.
      fold (W i k) in H. rewrite <- H. rewrite (csumn_ext n (fun l => Cconj (Sm i l * V l k)) (fun l => (- C1) * (Sm i l * W l k))%C).
      - rewrite csumn_scal. ring.
      - intros l Hl. rewrite Cconj_mul, HS. unfold W. ring. }
    transitivity (RtoC (ev j) * P j k + RtoC (ev k) * P j k)%C; [ring|]. rewrite A. unfold P, mul. rewrite <- csumn_scal, <- csumn_add.
    rewrite <- (csumn_zero n). apply csumn_ext. intros i Hi. rewrite B by assumption. unfold dagger. ring.
  Qed.
  Lemma VP_is_W i k : (i < n)%nat -> mul n V P i k = W i k.
  Proof.
    intros Hi. unfold P. change (mul n V (mul n (dagger V) W) i k) with (apply n V (fun j => apply n (dagger V) (fun l => W l k) j) i).
    now apply (unitary_back n V (proj1 E) (fun l => W l k)).
  Qed.
  Hypothesis odd : forall j k, (j < n)%nat -> (k < n)%nat -> P j k <> C0 -> p j = - p k.
  Let x := apply n V (fun j => (RtoC (p j) * apply n (dagger V) F j)%C).

  Lemma pP j k : (j < n)%nat -> (k < n)%nat -> (RtoC (p j) * P j k = - (RtoC (p k) * P j k))%C.
  Proof.
    intros Hj Hk. destruct (Req_EM_T (Cnorm2 (P j k)) 0) as [Z|Z].
    - apply Cnorm2_eq0 in Z. rewrite Z. ring.
    - rewrite (odd j k) by (try assumption; intros Q; apply Z; now rewrite Q, Cnorm2_C0). rewrite RtoC_opp. ring.
  Qed.
  Lemma W_unitary : unitary n W.
  Proof.
    destruct E as [[U1 U2] _]. split; intros i j Hi Hj; unfold mul, dagger, W.
    - pose proof (U1 i j Hi Hj) as H. apply (f_equal Cconj) in H. unfold mul, dagger in H. rewrite csumn_conj in H.
      rewrite (csumn_ext n _ (fun k => Cconj (Cconj (V k i) * V k j))) by (intros; now rewrite Cconj_mul). rewrite H. unfold ident. destruct (Nat.eqb i j); [apply Cconj_C1|apply Cconj_C0].
    - pose proof (U2 i j Hi Hj) as H. apply (f_equal Cconj) in H. unfold mul, dagger in H. rewrite csumn_conj in H.
      rewrite (csumn_ext n _ (fun k => Cconj (V i k * Cconj (V j k)))) by (intros; now rewrite Cconj_mul). rewrite H. unfold ident. destruct (Nat.eqb i j); [apply Cconj_C1|apply Cconj_C0].
  Qed.
  Lemma imag_solution : forall i, (i < n)%nat -> x i = RtoC (Re (x i)).
  Proof.
    intros i Hi. assert (Hc : Cconj (x i) = x i); [|destruct (x i) as [a b]; apply C_eq; cbn in *; [reflexivity|inversion Hc; lra]].
    (* F expanded in W *)
    set (z := apply n (dagger W) F).
    assert (FW : forall k, (k < n)%nat -> F k = apply n W z k) by (intros; symmetry; now apply (unitary_back n W W_unitary F)).
    assert (L : Cconj (x i) = (- apply n W (fun k => RtoC (p k) * z k)%C i)%C).
    { unfold x, apply. rewrite csumn_conj. transitivity (csumn n (fun k => (- C1) * (W i k * (RtoC (p k) * z k)))%C); [|rewrite csumn_scal; ring].
      apply csumn_ext. intros k Hk. rewrite !Cconj_mul, Cconj_RtoC, csumn_conj. fold (W i k).
      assert (Q : csumn n (fun k0 => Cconj (dagger V k k0 * F k0)) = (- z k)%C); [|rewrite Q; ring].
      unfold z, apply. transitivity (csumn n (fun l => (- C1) * (dagger W k l * F l))%C); [|rewrite csumn_scal; ring].
      apply csumn_ext. intros l Hl. rewrite Cconj_mul, HF. unfold dagger, W. ring. }
    rewrite L. unfold x.
    assert (Y : forall j, (j < n)%nat -> apply n (dagger V) F j = csumn n (fun k => P j k * z k)%C).
    { intros j Hj. rewrite (apply_ext n (dagger V) (dagger V) F (apply n W z)) by auto. now rewrite <- apply_mul. }
    transitivity (csumn n (fun j => csumn n (fun k => V i j * (- (RtoC (p k) * P j k)) * z k)%C)).
    - rewrite csumn_swap. unfold apply. transitivity (csumn n (fun k => (- C1) * (W i k * (RtoC (p k) * z k)))%C); [rewrite csumn_scal; ring|].
      apply csumn_ext. intros k Hk. rewrite <- VP_is_W by assumption. unfold mul.
      transitivity (csumn n (fun j => V i j * P j k)%C * (- (RtoC (p k) * z k)))%C; [ring|]. rewrite <- csumn_scal_r. apply csumn_ext. intros. ring.
    - unfold apply at 1. apply csumn_ext. intros j Hj. rewrite Y by assumption. rewrite <- !csumn_scal. apply csumn_ext. intros k Hk. rewrite <- pP by assumption. ring.
  Qed.
  (** simple eigenvalues come in pairs with conjugate eigenvectors *)
  Lemma simple_pair j k : simple_spectrum n ev -> (j < n)%nat -> (k < n)%nat -> P j k <> C0 -> ev k <> 0 ->
    Cnorm2 (P j k) = 1 /\ forall i, (i < n)%nat -> V i j = (Cconj (P j k) * W i k)%C.
  Proof.
    intros Hsim Hj Hk Hp Hz.
    assert (Ej : forall m, (m < n)%nat -> m <> j -> P m k = C0).
    { intros m Hm Hmj. destruct (Req_EM_T (Cnorm2 (P m k)) 0) as [Z|Z]; [now apply Cnorm2_eq0|]. exfalso. apply Hmj.
      assert (A : forall q, (q < n)%nat -> P q k <> C0 -> ev q = - ev k).
      { intros q Hq Hpq. pose proof (P_spectrum q k Hq Hk) as H. destruct (Req_EM_T (ev q + ev k) 0) as [|N]; [lra|]. exfalso. apply Hpq.
        apply (f_equal Cnorm2) in H. rewrite Cnorm2_mul, Cnorm2_RtoC, Cnorm2_C0 in H. apply Cnorm2_eq0. apply Rmult_integral in H. destruct H as [H|H]; [|exact H]. apply Rmult_integral in H. tauto. }
      pose proof (A j Hj Hp). assert (P m k <> C0) by (intros Q; apply Z; now rewrite Q, Cnorm2_C0). pose proof (A m Hm H0).
      apply Hsim; try assumption; lra. }
    assert (Wk : forall i, (i < n)%nat -> W i k = (V i j * P j k)%C).
    { intros i Hi. rewrite <- VP_is_W by assumption. unfold mul. rewrite <- (csumn_delta n j (fun m => V i m * P m k)%C Hj). apply csumn_ext. intros m Hm.
      destruct (Nat.eqb j m) eqn:Q; [ring|]. apply Nat.eqb_neq in Q. rewrite Ej by (auto; lia). ring. }
    assert (N1 : Cnorm2 (P j k) = 1).
    { pose proof (proj1 W_unitary k k Hk Hk) as H. unfold mul, dagger, ident in H. rewrite Nat.eqb_refl in H.
      rewrite (csumn_ext n _ (fun i => Cconj (V i j) * V i j * RtoC (Cnorm2 (P j k)))%C) in H by (intros; rewrite Wk, Cconj_mul, <- Cmul_conj by assumption; ring).
      rewrite csumn_scal_r in H. pose proof (proj1 (proj1 E) j j Hj Hj) as H1. unfold mul, dagger, ident in H1. rewrite Nat.eqb_refl in H1. rewrite H1 in H.
      apply RtoC_inj. transitivity (C1 * RtoC (Cnorm2 (P j k)))%C; [ring|exact H]. }
    split; [exact N1|]. intros i Hi. rewrite Wk by assumption. transitivity (V i j * (Cconj (P j k) * P j k))%C; [|ring]. rewrite Cmul_conj, N1, RtoC_1. ring.
  Qed.
End Imag.
