(** Frames, products of two sites, and named states. *)
From Coq Require Import String List Reals Bool Arith Lia Lra.
From Verif Require Import Base Cplx Povm_Model Povm_Spec Povm_Proofs Povm2_Proofs.
Import ListNotations.
Local Open Scope R_scope.

Lemma sic_frame theta phi T_inv : inverse 4 (overlap 2 (povm_of_directions (dirs theta phi))) T_inv ->
  frame 2 4 (povm_of_directions (dirs theta phi)) T_inv.
Proof.
  intros H i j k l Hi Hj Hk Hl. rewrite <- (sic_frame0 theta phi i j k l Hi Hj Hk Hl).
  apply csumn_ext. intros a Ha. apply csumn_ext. intros b Hb. now rewrite (sic_inverse_unique theta phi T_inv H a b Ha Hb).
Qed.

(** ** two sites *)
Lemma split_div i q j : (j < q)%nat -> ((i * q + j) / q = i)%nat.
Proof. intros H. rewrite Nat.div_add_l by lia. rewrite Nat.div_small by lia. lia. Qed.
Lemma split_mod i q j : (j < q)%nat -> ((i * q + j) mod q = j)%nat.
Proof. intros H. rewrite Nat.add_comm, Nat.mod_add by lia. now apply Nat.mod_small. Qed.
Lemma csumn_prod2 p q (f : nat -> nat -> C) : (csumn p (fun i => csumn q (fun j => f i j))) = csumn (p * q) (fun k => f (k / q)%nat (k mod q)%nat).
Proof. rewrite csumn_prod. apply csumn_ext. intros i _. apply csumn_ext. intros j Hj. now rewrite split_div, split_mod. Qed.
Lemma csumn_mul p q (f g : nat -> C) : (csumn p f * csumn q g)%C = csumn p (fun i => csumn q (fun j => (f i * g j)%C)).
Proof. rewrite <- csumn_scal_r. apply csumn_ext. intros i _. rewrite <- csumn_scal. reflexivity. Qed.
Lemma ident_split q i j : (0 < q)%nat -> (ident (i / q)%nat (j / q)%nat * ident (i mod q)%nat (j mod q)%nat)%C = ident i j.
Proof.
  intros Hq. unfold ident. destruct (Nat.eqb i j) eqn:E.
  - apply Nat.eqb_eq in E. subst. rewrite !Nat.eqb_refl. ring.
  - apply Nat.eqb_neq in E. destruct (Nat.eqb (i / q) (j / q)) eqn:E1; [|ring]. destruct (Nat.eqb (i mod q) (j mod q)) eqn:E2; [|ring].
    apply Nat.eqb_eq in E1, E2. exfalso. apply E. rewrite (Nat.div_mod i q), (Nat.div_mod j q) by lia. now rewrite E1, E2.
Qed.
Lemma lt_div4 i : (i < 4)%nat -> (i / 2 < 2)%nat /\ (i mod 2 < 2)%nat.
Proof. intros H. split; [apply Nat.div_lt_upper_bound; lia|apply Nat.mod_upper_bound; lia]. Qed.
Lemma lt_div16 i : (i < 16)%nat -> (i / 4 < 4)%nat /\ (i mod 4 < 4)%nat.
Proof. intros H. split; [apply Nat.div_lt_upper_bound; lia|apply Nat.mod_upper_bound; lia]. Qed.

Lemma two_frame M T_inv : frame 2 4 M T_inv -> frame 4 16 (M_2Body M) (T_inv_2Body T_inv).
Proof.
  intros HF i j k l Hi Hj Hk Hl. destruct (lt_div4 i Hi), (lt_div4 j Hj), (lt_div4 k Hk), (lt_div4 l Hl).
  transitivity ((ident (i / 2)%nat (l / 2)%nat * ident (j / 2)%nat (k / 2)%nat) * (ident (i mod 2)%nat (l mod 2)%nat * ident (j mod 2)%nat (k mod 2)%nat))%C.
  - rewrite <- !HF by assumption. rewrite csumn_mul. change 16%nat with (4 * 4)%nat. rewrite csumn_prod. apply csumn_ext. intros a1 Ha1. apply csumn_ext. intros a2 Ha2.
    rewrite csumn_prod, csumn_mul. apply csumn_ext. intros b1 Hb1. apply csumn_ext. intros b2 Hb2.
    unfold T_inv_2Body, M_2Body, kron. rewrite !split_div, !split_mod by assumption. ring.
  - rewrite <- (ident_split 2 i l), <- (ident_split 2 j k) by lia. ring.
Qed.
Lemma two_hermitian M : (forall a, (a < 4)%nat -> hermitian 2 (M a)) -> forall a, (a < 16)%nat -> hermitian 4 (M_2Body M a).
Proof.
  intros H a Ha i j Hi Hj. destruct (lt_div4 i Hi), (lt_div4 j Hj), (lt_div16 a Ha) as [A1 A2]. unfold dagger, M_2Body, kron. rewrite Cconj_mul.
  pose proof (H _ A1 (i / 2)%nat (j / 2)%nat ltac:(assumption) ltac:(assumption)) as E1. pose proof (H _ A2 (i mod 2)%nat (j mod 2)%nat ltac:(assumption) ltac:(assumption)) as E2.
  unfold dagger in E1, E2. now rewrite E1, E2.
Qed.
Lemma two_complete M : complete 2 4 M -> complete 4 16 (M_2Body M).
Proof.
  intros H i j Hi Hj. destruct (lt_div4 i Hi), (lt_div4 j Hj). rewrite <- (ident_split 2 i j) by lia. rewrite <- !H by assumption. unfold combo.
  rewrite csumn_mul. change 16%nat with (4 * 4)%nat. rewrite csumn_prod. apply csumn_ext. intros a Ha. apply csumn_ext. intros b Hb. unfold M_2Body, kron. rewrite split_div, split_mod by assumption. ring.
Qed.
Lemma two_inverse M T_inv : inverse 4 (overlap 2 M) T_inv -> inverse 16 (overlap 4 (M_2Body M)) (T_inv_2Body T_inv).
Proof.
  assert (OV : forall a b, overlap 4 (M_2Body M) a b = (overlap 2 M (a / 4)%nat (b / 4)%nat * overlap 2 M (a mod 4)%nat (b mod 4)%nat)%C).
  { intros a b. unfold overlap. rewrite csumn_mul. change 4%nat with (2 * 2)%nat at 1. rewrite csumn_prod. apply csumn_ext. intros i1 H1. apply csumn_ext. intros i2 H2.
    rewrite csumn_mul. change 4%nat with (2 * 2)%nat at 1. rewrite csumn_prod. apply csumn_ext. intros j1 H3. apply csumn_ext. intros j2 H4.
    unfold M_2Body, kron. rewrite !split_div, !split_mod by assumption. ring. }
  intros [H1 H2]. split; intros a b Ha Hb; destruct (lt_div16 a Ha), (lt_div16 b Hb); rewrite <- (ident_split 4 a b) by lia.
  - rewrite <- !H1 by assumption. unfold mul. rewrite csumn_mul. change 16%nat with (4 * 4)%nat. rewrite csumn_prod. apply csumn_ext. intros k1 K1. apply csumn_ext. intros k2 K2.
    rewrite OV. unfold T_inv_2Body, kron. rewrite !split_div, !split_mod by assumption. ring.
  - rewrite <- !H2 by assumption. unfold mul. rewrite csumn_mul. change 16%nat with (4 * 4)%nat. rewrite csumn_prod. apply csumn_ext. intros k1 K1. apply csumn_ext. intros k2 K2.
    rewrite OV. unfold T_inv_2Body, kron. rewrite !split_div, !split_mod by assumption. ring.
Qed.

(** ** dynamics *)
Section Dyn.
  Variables (d n : nat) (M : nat -> cmat) (T_inv : cmat).
  Lemma tr_plus X Y Z : tr d (mul d X (plus Y Z)) = (tr d (mul d X Y) + tr d (mul d X Z))%C.
  Proof. unfold tr, mul, plus. rewrite <- csumn_add. apply csumn_ext. intros i _. rewrite <- csumn_add. apply csumn_ext. intros j _. ring. Qed.
  Lemma tr_times X c Y : tr d (mul d X (times c Y)) = (c * tr d (mul d X Y))%C.
  Proof. unfold tr, mul, times. rewrite <- csumn_scal. apply csumn_ext. intros i _. rewrite <- csumn_scal. apply csumn_ext. intros j _. ring. Qed.
  Lemma tr_mul4a X Y Z W : tr d (mul d X (mul d (mul d Y Z) W)) = tr4 d X Y Z W.
  Proof.
    rewrite tr_mul3. unfold tr3, tr4, mul. apply csumn_ext. intros i _. apply csumn_ext. intros j _. rewrite csumn_swap. apply csumn_ext. intros l _.
    rewrite <- csumn_scal, <- csumn_scal_r. apply csumn_ext. intros k _. ring.
  Qed.
  Lemma tr_mul4b X Y Z W : tr d (mul d X (mul d Y (mul d Z W))) = tr4 d X Y Z W.
  Proof.
    rewrite tr_mul3. unfold tr3, tr4, mul. apply csumn_ext. intros i _. apply csumn_ext. intros j _. apply csumn_ext. intros k _.
    rewrite <- csumn_scal. apply csumn_ext. intros l _. ring.
  Qed.
  Lemma rsumn_recover rho F : recovers d n M T_inv rho (outcome_prob d rho M) -> linear d F ->
    rsumn n (fun b => Re (F (dual n M T_inv b)) * outcome_prob d rho M b) = Re (F rho).
  Proof. intros HR HF. rewrite <- (recovers_linear d n M T_inv rho _ F HR HF). apply rsumn_ext. intros. ring. Qed.
  Lemma unitary_evolves A rho a : recovers d n M T_inv rho (outcome_prob d rho M) ->
    rsumn n (fun b => povm_unitary d n A M T_inv a b * outcome_prob d rho M b) = Re (tr d (mul d (M a) (von_neumann d A rho))).
  Proof.
    intros HR. rewrite (rsumn_ext n _ (fun b => Re (- Ci * tr3 d A (dual n M T_inv b) (M a) + Ci * tr3 d A (M a) (dual n M T_inv b))%C * outcome_prob d rho M b)) by (intros b _; now rewrite unitary_dual).
    rewrite (rsumn_recover rho (fun X => - Ci * tr3 d A X (M a) + Ci * tr3 d A (M a) X)%C HR).
    - f_equal. unfold von_neumann, commutator. rewrite tr_times, tr_plus, tr_times, !tr_mul3. rewrite (tr3_cyc d (M a) A rho). rewrite (tr3_cyc d (M a) rho A), (tr3_cyc d rho A (M a)). ring.
    - unfold tr3. lin.
  Qed.
  Lemma imaginary_evolves A rho a : recovers d n M T_inv rho (outcome_prob d rho M) ->
    rsumn n (fun b => povm_imaginary d n A M T_inv a b * outcome_prob d rho M b) = Re (tr d (mul d (M a) (times (- C1)%C (anticommutator d A rho)))).
  Proof.
    intros HR. rewrite (rsumn_ext n _ (fun b => Re (- tr3 d A (dual n M T_inv b) (M a) - tr3 d A (M a) (dual n M T_inv b))%C * outcome_prob d rho M b)) by (intros b _; now rewrite imaginary_dual).
    rewrite (rsumn_recover rho (fun X => - tr3 d A X (M a) - tr3 d A (M a) X)%C HR).
    - f_equal. unfold anticommutator. rewrite tr_times, tr_plus, !tr_mul3. rewrite (tr3_cyc d (M a) A rho). rewrite (tr3_cyc d (M a) rho A), (tr3_cyc d rho A (M a)). ring.
    - unfold tr3. lin.
  Qed.
  Lemma dissipative_evolves A rho a : recovers d n M T_inv rho (outcome_prob d rho M) ->
    rsumn n (fun b => povm_dissipative d n A M T_inv a b * outcome_prob d rho M b) = Re (tr d (mul d (M a) (lindblad d A rho))).
  Proof.
    intros HR. set (h := RtoC (1/2)).
    rewrite (rsumn_ext n _ (fun b => Re (tr4 d A (dual n M T_inv b) (adjoint A) (M a) - h * tr4 d (adjoint A) A (dual n M T_inv b) (M a) - h * tr4 d (adjoint A) A (M a) (dual n M T_inv b))%C * outcome_prob d rho M b)) by (intros b _; now rewrite dissipative_dual).
    rewrite (rsumn_recover rho (fun X => tr4 d A X (adjoint A) (M a) - h * tr4 d (adjoint A) A X (M a) - h * tr4 d (adjoint A) A (M a) X)%C HR).
    - f_equal. unfold lindblad, anticommutator. change (dagger A) with (adjoint A). rewrite tr_plus, tr_times, tr_plus, tr_mul4a, tr_mul4a, tr_mul4b.
      replace (RtoC (- (1/2))) with (- h)%C by (unfold h; now rewrite RtoC_opp).
      rewrite (tr4_cyc d (M a) A rho (adjoint A)). rewrite (tr4_cyc d (M a) (adjoint A) A rho).
      rewrite (tr4_cyc d (M a) rho (adjoint A) A), (tr4_cyc d rho (adjoint A) A (M a)). ring.
    - unfold tr4. lin.
  Qed.
  Lemma observable_expect A rho : recovers d n M T_inv rho (outcome_prob d rho M) ->
    rsumn n (fun a => outcome_prob d rho M a * povm_observable d n A M T_inv a) = Re (tr d (mul d rho A)).
  Proof.
    intros HR. rewrite (rsumn_ext n _ (fun b => Re (tr d (mul d (dual n M T_inv b) A)) * outcome_prob d rho M b)) by (intros b _; rewrite observable_dual; ring).
    apply (rsumn_recover rho (fun X => tr d (mul d X A)) HR). apply tr_lin1.
  Qed.
  (** probability is conserved *)
  Lemma sum_linear F : complete d n M -> linear d F -> rsumn n (fun a => Re (F (M a))) = Re (F ident).
  Proof.
    intros HC [H1 H2]. rewrite <- (H1 _ _ HC), H2, Re_csumn. apply rsumn_ext. intros a _. f_equal. ring.
  Qed.
  Lemma tr3_id2 X Y : tr3 d X ident Y = tr d (mul d X Y).
  Proof.
    unfold tr3, tr, mul, ident. apply csumn_ext. intros i _. apply csumn_ext. intros j Hj.
    rewrite (csumn_ext d _ (fun k => ((if (j =? k)%nat then C1 else C0) * (X i j * Y k i))%C)) by (intros; ring). now rewrite csumn_delta.
  Qed.
  Lemma tr3_id3 X Y : tr3 d X Y ident = tr d (mul d X Y).
  Proof. rewrite tr3_cyc, tr3_id2. apply tr_comm. Qed.
  Lemma tr4_id3 X Y Z : tr4 d X Y ident Z = tr3 d X Y Z.
  Proof.
    unfold tr4, tr3, ident. apply csumn_ext. intros i _. apply csumn_ext. intros j _. apply csumn_ext. intros k Hk.
    rewrite (csumn_ext d _ (fun l => ((if (k =? l)%nat then C1 else C0) * (X i j * Y j k * Z l i))%C)) by (intros; ring). now rewrite csumn_delta.
  Qed.
  Lemma tr4_id4 X Y Z : tr4 d X Y Z ident = tr3 d X Y Z.
  Proof. rewrite tr4_cyc, tr4_id3. symmetry. rewrite (tr3_cyc d X Y Z). reflexivity. Qed.
  Lemma unitary_conserves A b : complete d n M -> rsumn n (fun a => povm_unitary d n A M T_inv a b) = 0.
  Proof.
    intros HC. set (Q := dual n M T_inv b). rewrite (rsumn_ext n _ (fun a => Re (- Ci * tr3 d A Q (M a) + Ci * tr3 d A (M a) Q)%C)) by (intros a _; now rewrite unitary_dual).
    rewrite (sum_linear (fun X => - Ci * tr3 d A Q X + Ci * tr3 d A X Q)%C HC) by (unfold tr3; lin). rewrite tr3_id3, tr3_id2.
    replace (- Ci * tr d (mul d A Q) + Ci * tr d (mul d A Q))%C with C0 by ring. reflexivity.
  Qed.
  Lemma dissipative_conserves A b : complete d n M -> rsumn n (fun a => povm_dissipative d n A M T_inv a b) = 0.
  Proof.
    intros HC. set (Q := dual n M T_inv b). set (h := RtoC (1/2)).
    rewrite (rsumn_ext n _ (fun a => Re (tr4 d A Q (adjoint A) (M a) - h * tr4 d (adjoint A) A Q (M a) - h * tr4 d (adjoint A) A (M a) Q)%C)) by (intros a _; now rewrite dissipative_dual).
    rewrite (sum_linear (fun X => tr4 d A Q (adjoint A) X - h * tr4 d (adjoint A) A Q X - h * tr4 d (adjoint A) A X Q)%C HC) by (unfold tr4; lin).
    rewrite !tr4_id4, tr4_id3. rewrite (tr3_cyc d (adjoint A) A Q).
    replace (tr3 d A Q (adjoint A) - h * tr3 d A Q (adjoint A) - h * tr3 d A Q (adjoint A))%C with ((C1 - h - h) * tr3 d A Q (adjoint A))%C by ring.
    replace (C1 - h - h)%C with C0 by (unfold h, RtoC, Csub, Cadd, Copp, C1, C0; apply C_eq; cbn; field). replace (C0 * tr3 d A Q (adjoint A))%C with C0 by ring. reflexivity.
  Qed.
End Dyn.

(** ** reconstruction *)
Section Basis.
  Variables (d n : nat) (M : nat -> cmat) (T_inv : cmat).
  Definition coeff (X : cmat) (a : nat) : C := csumn n (fun b => (T_inv a b * tr d (mul d (M b) X))%C).
  Lemma coeff_exists X : frame d n M T_inv -> same d X (combo n (coeff X) M).
  Proof.
    intros HF i j Hi Hj. unfold combo, coeff.
    transitivity (csumn d (fun k => csumn d (fun l => (csumn n (fun a => csumn n (fun b => (T_inv a b * M a i j * M b k l)%C)) * X l k)%C))).
    - rewrite (csumn_ext d _ (fun k => ((if (j =? k)%nat then C1 else C0) * X i k)%C)).
      + now rewrite csumn_delta.
      + intros k Hk. rewrite (csumn_ext d _ (fun l => ((if (i =? l)%nat then C1 else C0) * ((if (j =? k)%nat then C1 else C0) * X l k))%C)).
        * now rewrite csumn_delta.
        * intros l Hl. rewrite HF by assumption. unfold ident. ring.
    - rewrite (csumn_ext d _ (fun k => csumn d (fun l => csumn n (fun a => csumn n (fun b => (T_inv a b * M a i j * M b k l * X l k)%C))))).
      2:{ intros k _. apply csumn_ext. intros l _. rewrite <- csumn_scal_r. apply csumn_ext. intros a _. now rewrite <- csumn_scal_r. }
      rewrite (csumn_ext d _ (fun k => csumn n (fun a => csumn d (fun l => csumn n (fun b => (T_inv a b * M a i j * M b k l * X l k)%C))))) by (intros; apply csumn_swap).
      rewrite csumn_swap. apply csumn_ext. intros a _. rewrite <- csumn_scal_r.
      rewrite (csumn_ext d _ (fun k => csumn n (fun b => csumn d (fun l => (T_inv a b * M a i j * M b k l * X l k)%C)))) by (intros; apply csumn_swap).
      rewrite csumn_swap. apply csumn_ext. intros b _. unfold tr, mul. rewrite <- csumn_scal, <- csumn_scal_r. apply csumn_ext. intros k _.
      rewrite <- csumn_scal, <- csumn_scal_r. apply csumn_ext. intros l _. ring.
  Qed.
  Lemma coeff_unique X c a : inverse n (overlap d M) T_inv -> same d X (combo n c M) -> (a < n)%nat -> c a = coeff X a.
  Proof.
    intros [_ HI] HX Ha. unfold coeff.
    rewrite (csumn_ext n _ (fun b => csumn n (fun e => (T_inv a b * overlap d M b e * c e)%C))).
    - rewrite csumn_swap. rewrite (csumn_ext n _ (fun e => ((if (a =? e)%nat then C1 else C0) * c e)%C)).
      + now rewrite csumn_delta.
      + intros e He. rewrite csumn_scal_r. f_equal. exact (HI a e Ha He).
    - intros b Hb. rewrite (csumn_ext n _ (fun e => (T_inv a b * (overlap d M b e * c e))%C)) by (intros; ring). rewrite csumn_scal. f_equal.
      unfold tr, mul, overlap.
      rewrite (csumn_ext n _ (fun e => csumn d (fun i => csumn d (fun j => (M b i j * M e j i * c e)%C)))).
      2:{ intros e _. rewrite <- csumn_scal_r. apply csumn_ext. intros i _. now rewrite <- csumn_scal_r. }
      symmetry. rewrite csumn_swap. apply csumn_ext. intros i Hi. rewrite csumn_swap. apply csumn_ext. intros j Hj. rewrite (HX j i Hj Hi). unfold combo. rewrite <- csumn_scal. apply csumn_ext. intros. ring.
  Qed.
  Lemma determined X Y : frame d n M T_inv -> (forall a, (a < n)%nat -> tr d (mul d X (M a)) = tr d (mul d Y (M a))) -> same d X Y.
  Proof.
    intros HF H i j Hi Hj. rewrite (coeff_exists X HF i j Hi Hj), (coeff_exists Y HF i j Hi Hj). unfold combo, coeff. apply csumn_ext. intros a Ha. f_equal. apply csumn_ext. intros b Hb.
    f_equal. rewrite (tr_comm d (M b) X), (tr_comm d (M b) Y). now apply H.
  Qed.
End Basis.

(** ** hermitian generators *)
Lemma dagger_mul d X Y i j : dagger (mul d X Y) i j = mul d (dagger Y) (dagger X) i j.
Proof. unfold dagger, mul. rewrite csumn_conj. apply csumn_ext. intros k _. rewrite Cconj_mul. ring. Qed.
Lemma mul_same d X X' Y Y' : same d X X' -> same d Y Y' -> same d (mul d X Y) (mul d X' Y').
Proof. intros H1 H2 i j Hi Hj. unfold mul. apply csumn_ext. intros k Hk. now rewrite H1, H2. Qed.
Lemma Cconj_Ci : Cconj Ci = (- Ci)%C.
Proof. apply C_eq; cbn; ring. Qed.
Lemma dagger_herm d X Y : hermitian d X -> hermitian d Y -> forall i j, (i < d)%nat -> (j < d)%nat -> Cconj (mul d X Y j i) = mul d Y X i j.
Proof.
  intros HX HY i j Hi Hj. change (Cconj (mul d X Y j i)) with (dagger (mul d X Y) i j). rewrite dagger_mul. now apply mul_same.
Qed.
Lemma von_neumann_hermitian d A rho : hermitian d A -> hermitian d rho -> hermitian d (von_neumann d A rho).
Proof.
  intros HA HR i j Hi Hj. unfold dagger, von_neumann, commutator, times, plus.
  rewrite Cconj_mul, Cconj_add, Cconj_mul, !Cconj_opp, Cconj_Ci, Cconj_C1. rewrite !dagger_herm by assumption. ring.
Qed.
Lemma dagger_dagger A i j : dagger (dagger A) i j = A i j.
Proof. unfold dagger. apply C_eq; cbn; ring. Qed.
Lemma mul_assoc d X Y Z i j : mul d (mul d X Y) Z i j = mul d X (mul d Y Z) i j.
Proof.
  unfold mul. rewrite (csumn_ext d _ (fun k => csumn d (fun l => (X i l * Y l k * Z k j)%C))) by (intros; now rewrite <- csumn_scal_r).
  rewrite csumn_swap. apply csumn_ext. intros l _. rewrite <- csumn_scal. apply csumn_ext. intros. ring.
Qed.
Lemma AdagA_hermitian d A : hermitian d (mul d (dagger A) A).
Proof. intros i j Hi Hj. rewrite dagger_mul. apply mul_same; try assumption; intros x y _ _; [reflexivity|apply dagger_dagger]. Qed.
Lemma sandwich_hermitian d A rho : hermitian d rho -> hermitian d (mul d (mul d A rho) (dagger A)).
Proof.
  intros HR i j Hi Hj. rewrite dagger_mul, mul_assoc. apply mul_same; try assumption; intros x y Hx Hy; [apply dagger_dagger|].
  rewrite dagger_mul. apply mul_same; try assumption. intros u v _ _. reflexivity.
Qed.
Lemma lindblad_hermitian d A rho : hermitian d rho -> hermitian d (lindblad d A rho).
Proof.
  intros HR i j Hi Hj. unfold lindblad, anticommutator, plus, times, dagger at 1.
  rewrite Cconj_add, Cconj_mul, Cconj_add, Cconj_RtoC. rewrite (dagger_herm d (mul d (dagger A) A) rho) by (try assumption; apply AdagA_hermitian). rewrite (dagger_herm d rho (mul d (dagger A) A)) by (try assumption; apply AdagA_hermitian).
  pose proof (sandwich_hermitian d A rho HR i j Hi Hj) as E. unfold dagger at 1 in E. rewrite E. ring.
Qed.
Lemma anti_hermitian d A rho : hermitian d A -> hermitian d rho -> hermitian d (times (- C1)%C (anticommutator d A rho)).
Proof.
  intros HA HR i j Hi Hj. unfold anticommutator, plus, times, dagger. rewrite Cconj_mul, Cconj_add, Cconj_opp, Cconj_C1. rewrite !dagger_herm by assumption. ring.
Qed.
Lemma span_hermitian d n M rho : (forall a, (a < n)%nat -> hermitian d (M a)) -> in_span d n M rho -> hermitian d rho.
Proof.
  intros HM [r HR] i j Hi Hj. unfold dagger. rewrite (HR j i Hj Hi), (HR i j Hi Hj). unfold combo. rewrite csumn_conj. apply csumn_ext. intros a Ha.
  rewrite Cconj_mul, Cconj_RtoC. f_equal. exact (HM a Ha i j Hi Hj).
Qed.
Lemma real_trace d X Y : hermitian d X -> hermitian d Y -> RtoC (Re (tr d (mul d X Y))) = tr d (mul d X Y).
Proof. intros HX HY. symmetry. apply Im0_RtoC. now apply tr_hermitian. Qed.
