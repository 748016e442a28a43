(** Properties of the POVM formalism: C21, C22, C23, C26. *)
From Coq Require Import String List Reals Bool Arith Lia Lra.
From Verif Require Import Base Cplx Povm_Model Povm_Spec Povm_Proofs Povm2_Proofs Povm3_Proofs.
Import ListNotations.
Local Open Scope R_scope.

(** ** C21: the single-site POVM *)
Theorem C21_valid theta phi : exists M, get_M theta phi "SIC" = Ok M /\
  (forall a, (a < 4)%nat -> psd 2 (M a)) /\ complete 2 4 M /\
  (exists T_inv, inverse 4 (overlap 2 M) T_inv).
Proof.
  exists (povm_of_directions (dirs theta phi)). split; [reflexivity|]. split; [intros a Ha; now apply sic_psd|]. split; [apply sic_complete|].
  exists sic_inv. apply sic_inverse.
Qed.
Print Assumptions C21_valid.

(** the elements are a basis: every matrix is a linear combination in exactly one way *)
Theorem C21_basis theta phi M X : get_M theta phi "SIC" = Ok M ->
  exists c, same 2 X (combo 4 c M) /\ forall c', same 2 X (combo 4 c' M) -> forall a, (a < 4)%nat -> c' a = c a.
Proof.
  intros E. injection E as E. subst M. exists (coeff 2 4 (povm_of_directions (dirs theta phi)) sic_inv X). split.
  - apply coeff_exists. apply sic_frame0.
  - intros c' H a Ha. apply coeff_unique; [apply sic_inverse|exact H|exact Ha].
Qed.
Print Assumptions C21_basis.

(** the outcome probabilities determine the state *)
Theorem C21_determined theta phi M rho rho' : get_M theta phi "SIC" = Ok M -> hermitian 2 rho -> hermitian 2 rho' ->
  (forall a, (a < 4)%nat -> outcome_prob 2 rho M a = outcome_prob 2 rho' M a) -> same 2 rho rho'.
Proof.
  intros E H1 H2 H. injection E as E. subst M. apply (determined 2 4 (povm_of_directions (dirs theta phi)) sic_inv); [apply (sic_frame0 theta phi)|]. intros a Ha.
  rewrite <- (real_trace 2 rho) by (try assumption; apply M_hermitian). rewrite <- (real_trace 2 rho') by (try assumption; apply M_hermitian). apply (f_equal RtoC). now apply H.
Qed.
Print Assumptions C21_determined.

(** the elements are symmetric: all pairs have the same overlap *)
Theorem C21_symmetric theta phi M a b : get_M theta phi "SIC" = Ok M -> (a < 4)%nat -> (b < 4)%nat ->
  tr 2 (M a) = RtoC (1 / 2) /\ tr 2 (mul 2 (M a) (M b)) = RtoC (if Nat.eqb a b then 1 / 4 else 1 / 12).
Proof.
  intros E Ha Hb. injection E as E. subst M. split.
  - unfold tr. rewrite csumn2. change (rdot 3 sic_directions (rotator theta phi)) with (dirs theta phi). rewrite M_00, M_11. apply C_eq; cbn; field.
  - rewrite <- (sic_overlap theta phi a b Ha Hb). reflexivity.
Qed.
Print Assumptions C21_symmetric.

(** theta and phi are the polar and azimuthal angle of the first element on the Bloch sphere *)
Theorem C21_orientation theta phi M : get_M theta phi "SIC" = Ok M ->
  same 2 (M 0%nat) (times (RtoC (1 / 4)) (plus ident (plus (times (RtoC (sin theta * cos phi)) sx)
    (plus (times (RtoC (sin theta * sin phi)) sy) (times (RtoC (cos theta)) sz))))).
Proof.
  intros E. injection E as E. subst M. change (rdot 3 sic_directions (rotator theta phi)) with (dirs theta phi).
  assert (D0 : dirs theta phi 0%nat 0%nat = sin theta * cos phi) by (unfold dirs, rotator, rdot, transpose, sic_directions, rows; rewrite ?rsumn3; cbn; rewrite ?rsumn3; cbn; ring).
  assert (D1 : dirs theta phi 0%nat 1%nat = sin theta * sin phi) by (unfold dirs, rotator, rdot, transpose, sic_directions, rows; rewrite ?rsumn3; cbn; rewrite ?rsumn3; cbn; ring).
  assert (D2 : dirs theta phi 0%nat 2%nat = cos theta) by (unfold dirs, rotator, rdot, transpose, sic_directions, rows; rewrite ?rsumn3; cbn; rewrite ?rsumn3; cbn; ring).
  intros [|[|i]] [|[|j]] Hi Hj; try lia; [rewrite M_00|rewrite M_01|rewrite M_10|rewrite M_11]; rewrite ?D0, ?D1, ?D2;
    unfold times, plus, times, ident, sx, sy, sz, of_rows; apply C_eq; cbn; field.
Qed.
Print Assumptions C21_orientation.

Theorem C21_unknown theta phi name : name <> "SIC"%string -> get_M theta phi name = Err ValueError.
Proof. intros H. unfold get_M. destruct (String.eqb_spec name "SIC"); [contradiction|reflexivity]. Qed.
Print Assumptions C21_unknown.
(** an orientation: the first element is half the projector on spin up, and two Hermitian matrices that the outcomes tell apart *)
Example C21_case : exists M, get_M 0 0 "SIC" = Ok M /\ same 2 (M 0%nat) (of_rows [[RtoC (1 / 2); C0]; [C0; C0]])
  /\ hermitian 2 sx /\ hermitian 2 sz /\ outcome_prob 2 sz M 0 = 1 / 2 /\ outcome_prob 2 sx M 0 = 0.
Proof.
  exists (povm_of_directions (dirs 0 0)). split; [reflexivity|].
  assert (D : same 2 (povm_of_directions (dirs 0 0) 0%nat) (of_rows [[RtoC (1 / 2); C0]; [C0; C0]])).
  { intros i j Hi Hj. rewrite (C21_orientation 0 0 (povm_of_directions (dirs 0 0)) eq_refl i j Hi Hj). rewrite sin_0, cos_0.
    destruct i as [|[|i]], j as [|[|j]]; try lia; unfold times, plus, ident, sx, sy, sz, of_rows; apply C_eq; cbn; field. }
  split; [exact D|].
  split; [intros [|[|i]] [|[|j]] Hi Hj; try lia; unfold dagger, sx, of_rows; apply C_eq; cbn; ring|].
  split; [intros [|[|i]] [|[|j]] Hi Hj; try lia; unfold dagger, sz, of_rows; apply C_eq; cbn; ring|].
  split; unfold outcome_prob, tr, mul; rewrite ?csumn2, !D by lia; unfold sx, sz, of_rows; cbn; lra.
Qed.

(** ** C22: observables *)
Theorem C22_observable d n A M T_inv rho m : m = "observable"%string \/ m = "obs"%string ->
  (forall a, (a < n)%nat -> hermitian d (M a)) -> inverse n (overlap d M) T_inv -> in_span d n M rho ->
  exists O, matrix_to_povm d n A M T_inv m = Ok (Vec O) /\
    rsumn n (fun a => outcome_prob d rho M a * O a) = Re (tr d (mul d rho A)) /\
    (hermitian d A -> RtoC (rsumn n (fun a => outcome_prob d rho M a * O a)) = tr d (mul d rho A)).
Proof.
  intros Hm HM HI HS. exists (povm_observable d n A M T_inv). split; [destruct Hm as [-> | ->]; reflexivity|].
  pose proof (observable_expect d n M T_inv A rho (span_recovers d n M T_inv rho HM HI HS)) as E. split; [exact E|].
  intros HA. rewrite E. apply real_trace; [|exact HA]. now apply (span_hermitian d n M).
Qed.
Print Assumptions C22_observable.

(** the predefined observables, for every state of a spin and every orientation of the POVM *)
Theorem C22_sic theta phi M T_inv rho name A : get_M theta phi "SIC" = Ok M -> inverse 4 (overlap 2 M) T_inv -> hermitian 2 rho ->
  In (name, A) [("X", sx); ("Y", sy); ("Z", sz)]%string ->
  exists O, lookup name (get_observables M T_inv) = Some O /\
    RtoC (rsumn 4 (fun a => outcome_prob 2 rho M a * O a)) = tr 2 (mul 2 rho A).
Proof.
  intros E HI HR HIn. injection E as E. assert (HM : forall a, (a < 4)%nat -> hermitian 2 (M a)) by (intros; subst M; apply M_hermitian).
  assert (HF : frame 2 4 M T_inv) by (subst M; now apply (sic_frame theta phi)).
  pose proof (frame_recovers 2 4 M T_inv rho HM HR HF) as HC.
  assert (HA : exists B, lookup name (get_observables M T_inv) = Some (povm_observable 2 4 B M T_inv) /\ same 2 B A /\ hermitian 2 A).
  { destruct HIn as [H|[H|[H|[]]]]; injection H as <- <-; eexists; (split; [reflexivity|]);
      (split; [intros [|[|i]] [|[|j]] Hi Hj; try lia; reflexivity|intros [|[|i]] [|[|j]] Hi Hj; try lia; unfold dagger, sx, sy, sz, of_rows; apply C_eq; cbn; ring]). }
  destruct HA as (B & E1 & E2 & E3). eexists. split; [exact E1|]. rewrite (observable_expect 2 4 M T_inv B rho HC).
  rewrite <- (real_trace 2 rho A HR E3). do 2 f_equal. unfold tr. apply csumn_ext. intros i Hi. apply mul_same; try assumption. intros ? ? _ _. reflexivity.
Qed.
Print Assumptions C22_sic.

Theorem C22_unknown d n A M T_inv m :
  ~ In m ["unitary"; "uni"; "dissipative"; "dis"; "observable"; "obs"; "imaginary"; "imag"]%string -> matrix_to_povm d n A M T_inv m = Err ValueError.
Proof.
  intros H. unfold matrix_to_povm, parse_mode.
  repeat match goal with |- context [String.eqb m ?s] => destruct (String.eqb_spec m s) as [->|_]; [exfalso; apply H; cbn; tauto|] end. reflexivity.
Qed.
Print Assumptions C22_unknown.

(** ** C23: dynamics *)
Theorem C23_unitary d n A M T_inv rho m : m = "unitary"%string \/ m = "uni"%string ->
  (forall a, (a < n)%nat -> hermitian d (M a)) -> inverse n (overlap d M) T_inv -> in_span d n M rho -> hermitian d A ->
  exists W, matrix_to_povm d n A M T_inv m = Ok (Mat W) /\
    forall a, (a < n)%nat -> RtoC (rsumn n (fun b => W a b * outcome_prob d rho M b)) = tr d (mul d (M a) (von_neumann d A rho)).
Proof.
  intros Hm HM HI HS HA. exists (povm_unitary d n A M T_inv). split; [destruct Hm as [-> | ->]; reflexivity|]. intros a Ha.
  rewrite (unitary_evolves d n M T_inv A rho a (span_recovers d n M T_inv rho HM HI HS)). apply real_trace; [now apply HM|].
  apply von_neumann_hermitian; [exact HA|now apply (span_hermitian d n M)].
Qed.
Print Assumptions C23_unitary.

Theorem C23_dissipative d n A M T_inv rho m : m = "dissipative"%string \/ m = "dis"%string ->
  (forall a, (a < n)%nat -> hermitian d (M a)) -> inverse n (overlap d M) T_inv -> in_span d n M rho ->
  exists W, matrix_to_povm d n A M T_inv m = Ok (Mat W) /\
    forall a, (a < n)%nat -> RtoC (rsumn n (fun b => W a b * outcome_prob d rho M b)) = tr d (mul d (M a) (lindblad d A rho)).
Proof.
  intros Hm HM HI HS. exists (povm_dissipative d n A M T_inv). split; [destruct Hm as [-> | ->]; reflexivity|]. intros a Ha.
  rewrite (dissipative_evolves d n M T_inv A rho a (span_recovers d n M T_inv rho HM HI HS)). apply real_trace; [now apply HM|].
  apply lindblad_hermitian. now apply (span_hermitian d n M).
Qed.
Print Assumptions C23_dissipative.

Theorem C23_imaginary d n A M T_inv rho m : m = "imaginary"%string \/ m = "imag"%string ->
  (forall a, (a < n)%nat -> hermitian d (M a)) -> inverse n (overlap d M) T_inv -> in_span d n M rho -> hermitian d A ->
  exists W, matrix_to_povm d n A M T_inv m = Ok (Mat W) /\
    forall a, (a < n)%nat -> RtoC (rsumn n (fun b => W a b * outcome_prob d rho M b)) = tr d (mul d (M a) (times (- C1)%C (anticommutator d A rho))).
Proof.
  intros Hm HM HI HS HA. exists (povm_imaginary d n A M T_inv). split; [destruct Hm as [-> | ->]; reflexivity|]. intros a Ha.
  rewrite (imaginary_evolves d n M T_inv A rho a (span_recovers d n M T_inv rho HM HI HS)). apply real_trace; [now apply HM|].
  apply anti_hermitian; [exact HA|now apply (span_hermitian d n M)].
Qed.
Print Assumptions C23_imaginary.

(** the total probability does not change, whatever the distribution *)
Theorem C23_conserves d n A M T_inv m W b : complete d n M -> matrix_to_povm d n A M T_inv m = Ok (Mat W) ->
  m <> "imaginary"%string -> m <> "imag"%string -> rsumn n (fun a => W a b) = 0.
Proof.
  intros HC E N1 N2. unfold matrix_to_povm, parse_mode in E. destruct (String.eqb_spec m "imaginary"); [contradiction|]. destruct (String.eqb_spec m "imag"); [contradiction|].
  destruct (_ || _)%bool in E; [injection E as <-; now apply unitary_conserves|].
  destruct (_ || _)%bool in E; [injection E as <-; now apply dissipative_conserves|].
  destruct (_ || _)%bool in E; cbn in E; discriminate E.
Qed.
Print Assumptions C23_conserves.

(** the predefined operators on one spin *)
Theorem C23_sic_one theta phi M T_inv rho : get_M theta phi "SIC" = Ok M -> inverse 4 (overlap 2 M) T_inv -> hermitian 2 rho ->
  (forall name A, In (name, A) [("X", sx); ("Y", sy); ("Z", sz)]%string ->
     exists W, lookup name (get_unitaries M T_inv) = Some W /\
       forall a, (a < 4)%nat -> RtoC (rsumn 4 (fun b => W a b * outcome_prob 2 rho M b)) = tr 2 (mul 2 (M a) (von_neumann 2 A rho))) /\
  (forall name A, In (name, A) [("decayup", transition 0 1); ("decaydown", transition 1 0); ("dephasing", sz)]%string ->
     exists W, lookup name (get_dissipators M T_inv) = Some W /\
       forall a, (a < 4)%nat -> RtoC (rsumn 4 (fun b => W a b * outcome_prob 2 rho M b)) = tr 2 (mul 2 (M a) (lindblad 2 A rho))).
Proof.
  intros E HI HR. injection E as E. assert (HM : forall a, (a < 4)%nat -> hermitian 2 (M a)) by (intros; subst M; apply M_hermitian).
  assert (HF : frame 2 4 M T_inv) by (subst M; now apply (sic_frame theta phi)).
  pose proof (frame_recovers 2 4 M T_inv rho HM HR HF) as HC. split; intros name A HIn.
  - assert (HA : exists B, lookup name (get_unitaries M T_inv) = Some (povm_unitary 2 4 B M T_inv) /\ same 2 B A /\ hermitian 2 A).
    { destruct HIn as [H|[H|[H|[]]]]; injection H as <- <-; eexists; (split; [reflexivity|]);
        (split; [intros [|[|i]] [|[|j]] Hi Hj; try lia; reflexivity|intros [|[|i]] [|[|j]] Hi Hj; try lia; unfold dagger, sx, sy, sz, of_rows; apply C_eq; cbn; ring]). }
    destruct HA as (B & E1 & E2 & E3). eexists. split; [exact E1|]. intros a Ha. rewrite (unitary_evolves 2 4 M T_inv B rho a HC).
    rewrite <- (real_trace 2 (M a) _ (HM a Ha) (von_neumann_hermitian 2 A rho E3 HR)). do 2 f_equal. unfold tr. apply csumn_ext. intros i Hi. apply mul_same; try assumption; [intros ? ? _ _; reflexivity|].
    intros x y Hx Hy. unfold von_neumann, commutator, times, plus. rewrite (mul_same 2 B A rho rho E2 (fun _ _ _ _ => eq_refl) x y Hx Hy), (mul_same 2 rho rho B A (fun _ _ _ _ => eq_refl) E2 x y Hx Hy). reflexivity.
  - assert (HA : exists B, lookup name (get_dissipators M T_inv) = Some (povm_dissipative 2 4 B M T_inv) /\ same 2 B A).
    { destruct HIn as [H|[H|[H|[]]]]; injection H as <- <-; eexists; (split; [reflexivity|]);
        (intros [|[|i]] [|[|j]] Hi Hj; try lia; unfold transition, sz, of_rows; apply C_eq; cbn; field). }
    destruct HA as (B & E1 & E2). eexists. split; [exact E1|]. intros a Ha. rewrite (dissipative_evolves 2 4 M T_inv B rho a HC).
    rewrite <- (real_trace 2 (M a) _ (HM a Ha) (lindblad_hermitian 2 A rho HR)). do 2 f_equal. unfold tr. apply csumn_ext. intros i Hi. apply mul_same; try assumption; [intros ? ? _ _; reflexivity|].
    assert (E3 : same 2 (dagger B) (dagger A)) by (intros x y Hx Hy; unfold dagger; now rewrite E2).
    assert (SR : same 2 rho rho) by (intros ? ? _ _; reflexivity).
    assert (EAA : same 2 (mul 2 (dagger B) B) (mul 2 (dagger A) A)) by (now apply mul_same).
    intros x y Hx Hy. unfold lindblad, anticommutator, times, plus.
    rewrite (mul_same 2 _ _ _ _ (mul_same 2 _ _ _ _ E2 SR) E3 x y Hx Hy), (mul_same 2 _ _ _ _ EAA SR x y Hx Hy), (mul_same 2 _ _ _ _ SR EAA x y Hx Hy). reflexivity.
Qed.
Print Assumptions C23_sic_one.

(** the predefined couplings of two spins; outcome (a1, a2) has the index 4 a1 + a2 *)
Theorem C23_sic_two theta phi M T_inv rho name A : get_M theta phi "SIC" = Ok M -> inverse 4 (overlap 2 M) T_inv -> hermitian 4 rho ->
  In (name, A) [("XX", tensor sx sx); ("YY", tensor sy sy); ("ZZ", tensor sz sz)]%string ->
  exists W, lookup name (get_unitaries M T_inv) = Some W /\
    forall a1 a2, (a1 < 4)%nat -> (a2 < 4)%nat ->
      RtoC (rsumn 4 (fun b1 => rsumn 4 (fun b2 => W (4 * a1 + a2)%nat (4 * b1 + b2)%nat * Re (tr 4 (mul 4 rho (tensor (M b1) (M b2)))))))
      = tr 4 (mul 4 (tensor (M a1) (M a2)) (von_neumann 4 A rho)).
Proof.
  intros E HI HR HIn. injection E as E. assert (HM : forall a, (a < 4)%nat -> hermitian 2 (M a)) by (intros; subst M; apply M_hermitian).
  assert (HF : frame 2 4 M T_inv) by (subst M; now apply (sic_frame theta phi)).
  pose proof (two_frame M T_inv HF) as HF2. pose proof (two_hermitian M HM) as HM2.
  pose proof (frame_recovers 4 16 (M_2Body M) (T_inv_2Body T_inv) rho HM2 HR HF2) as HC.
  assert (HA : exists B, lookup name (get_unitaries M T_inv) = Some (povm_unitary 4 16 B (M_2Body M) (T_inv_2Body T_inv)) /\ same 4 B A /\ hermitian 4 A).
  { assert (HS : forall s B, hermitian 2 s -> same 2 B s -> same 4 (kron 2 B B) (tensor s s) /\ hermitian 4 (tensor s s)).
    { intros s B Hs Hb. split; intros i j Hi Hj; destruct (lt_div4 i Hi), (lt_div4 j Hj); unfold kron, tensor, dagger.
      - now rewrite !Hb.
      - rewrite Cconj_mul. now rewrite <- (Hs (i / 2)%nat (j / 2)%nat), <- (Hs (i mod 2)%nat (j mod 2)%nat). }
    destruct HIn as [H|[H|[H|[]]]]; injection H as <- <-; eexists; (split; [reflexivity|]); apply HS;
      solve [intros [|[|i]] [|[|j]] Hi Hj; try lia; reflexivity | intros [|[|i]] [|[|j]] Hi Hj; try lia; unfold dagger, sx, sy, sz, of_rows; apply C_eq; cbn; ring]. }
  destruct HA as (B & E1 & E2 & E3). eexists. split; [exact E1|]. intros a1 a2 H1 H2.
  assert (T2 : forall b1 b2, (b1 < 4)%nat -> (b2 < 4)%nat -> M_2Body M (4 * b1 + b2)%nat = tensor (M b1) (M b2)).
  { intros b1 b2 Hb1 Hb2. unfold M_2Body, tensor, kron. rewrite (Nat.mul_comm 4 b1), split_div, split_mod by assumption. reflexivity. }
  rewrite <- (T2 a1 a2 H1 H2).
  transitivity (RtoC (rsumn 16 (fun b => povm_unitary 4 16 B (M_2Body M) (T_inv_2Body T_inv) (4 * a1 + a2) b * outcome_prob 4 rho (M_2Body M) b))).
  - rewrite <- (csumn_RtoC 4). rewrite <- (csumn_RtoC 16). change 16%nat with (4 * 4)%nat at 2. rewrite csumn_prod. apply csumn_ext. intros b1 Hb1. rewrite <- csumn_RtoC. apply csumn_ext. intros b2 Hb2.
    unfold outcome_prob. rewrite (Nat.mul_comm b1 4), T2 by assumption. reflexivity.
  - rewrite (unitary_evolves 4 16 _ _ B rho _ HC).
    rewrite <- (real_trace 4 _ _ (HM2 (4 * a1 + a2)%nat ltac:(lia)) (von_neumann_hermitian 4 A rho E3 HR)). do 2 f_equal. unfold tr. apply csumn_ext. intros i Hi. apply mul_same; try assumption; [intros ? ? _ _; reflexivity|].
    intros x y Hx Hy. unfold von_neumann, commutator, times, plus. rewrite (mul_same 4 B A rho rho E2 (fun _ _ _ _ => eq_refl) x y Hx Hy), (mul_same 4 rho rho B A (fun _ _ _ _ => eq_refl) E2 x y Hx Hy). reflexivity.
Qed.
Print Assumptions C23_sic_two.
(** a Hermitian matrix of two spins *)
Example C23_two_case : hermitian 4 (tensor sx sy) /\ In ("YY"%string, tensor sy sy) [("XX", tensor sx sx); ("YY", tensor sy sy); ("ZZ", tensor sz sz)]%string.
Proof.
  split; [|right; left; reflexivity].
  intros i j Hi Hj. do 4 (destruct i as [|i]; [do 4 (destruct j as [|j]; [unfold dagger, tensor, sx, sy, of_rows; apply C_eq; cbn; ring|]); lia|]). lia.
Qed.

(** hypotheses are met by the SIC POVM, with the inverse overlap matrix 5 on and -1 off the diagonal,
    for the maximally mixed state; and every Hermitian 2x2 matrix is in its span *)
Example C22_C23_hypotheses theta phi : let M := povm_of_directions (dirs theta phi) in
  get_M theta phi "SIC" = Ok M /\ (forall a, (a < 4)%nat -> hermitian 2 (M a)) /\ inverse 4 (overlap 2 M) sic_inv /\ in_span 2 4 M (times (RtoC (1 / 2)) ident) /\ hermitian 2 sx /\ complete 2 4 M.
Proof.
  cbn. split; [reflexivity|]. split; [intros; apply M_hermitian|]. split; [apply sic_inverse|]. split; [|split; [|apply sic_complete]].
  - exists (fun _ => 1 / 2). intros i j Hi Hj. unfold times. rewrite <- (sic_complete theta phi i j Hi Hj). unfold combo. rewrite <- csumn_scal. apply csumn_ext. intros. ring.
  - intros [|[|i]] [|[|j]] Hi Hj; try lia; unfold dagger, sx, of_rows; apply C_eq; cbn; ring.
Qed.

(** ** C26: predefined one-particle states *)
Definition named_states : list (string * (mat * R)) :=
  [("x_up", (sx, 1)); ("x_down", (sx, -1)); ("y_up", (sy, 1)); ("y_down", (sy, -1)); ("z_up", (sz, 1)); ("z_down", (sz, -1))]%string.
Theorem C26_distribution name s sgn M : In (name, (s, sgn)) named_states -> (forall a, (a < 4)%nat -> psd 2 (M a)) -> complete 2 4 M ->
  exists P, one_particle name M = Ok P /\ length P = 4%nat /\
    Forall (fun p => 0 <= p) P /\ rsum P = 1 /\
    forall a, (a < 4)%nat -> nth a P 0 = outcome_prob 2 (polarised s sgn) M a.
Proof.
  intros HIn HM HC.
  assert (HV : exists v, state_vector name = Ok v /\ (forall i j, (i < 2)%nat -> (j < 2)%nat -> (v i * Cconj (v j))%C = polarised s sgn i j)).
  { assert (Q : / sqrt 2 * / sqrt 2 = / 2) by (rewrite <- Rinv_mult; now rewrite sqrt_sqrt by lra).
    repeat (destruct HIn as [H|HIn]; [injection H as <- <- <-; eexists; (split; [reflexivity|]); intros [|[|i]] [|[|j]] Hi Hj; try lia;
      unfold polarised, times, plus, ident, sx, sy, sz, of_rows; apply C_eq; cbn; nra|]). destruct HIn. }
  destruct HV as (v & E1 & E2). unfold one_particle. rewrite E1. cbn [bind]. eexists. split; [reflexivity|].
  assert (EX : forall a, Re (csumn 2 (fun i => (Cconj (v i) * csumn 2 (fun j => (M a i j * v j)%C))%C)) = outcome_prob 2 (polarised s sgn) M a).
  { intros a. unfold outcome_prob. f_equal. unfold tr, mul. rewrite (csumn_ext 2 (fun i => csumn 2 (fun k => (polarised s sgn i k * M a k i)%C)) (fun i => csumn 2 (fun k => (v i * Cconj (v k) * M a k i)%C))).
    - rewrite csumn_swap. apply csumn_ext. intros i _. rewrite <- csumn_scal. apply csumn_ext. intros j _. ring.
    - intros i Hi. apply csumn_ext. intros k Hk. now rewrite E2. }
  split; [reflexivity|]. split; [|split].
  - apply Forall_forall. intros p Hp. apply in_map_iff in Hp as (a & <- & Ha). apply in_seq in Ha. apply (proj2 (HM a ltac:(lia) v)).
  - set (F := fun X : cmat => csumn 2 (fun i => (Cconj (v i) * csumn 2 (fun j => (X i j * v j)%C))%C)).
    transitivity (rsumn 4 (fun a => Re (F (M a)))); [reflexivity|].
    assert (LF : linear 2 F) by (unfold F; lin).
    rewrite (sum_linear 2 4 M F HC LF). unfold F. rewrite !csumn2. unfold ident. cbn [Nat.eqb].
    replace (Cconj (v 0%nat) * (C1 * v 0%nat + C0 * v 1%nat) + Cconj (v 1%nat) * (C0 * v 0%nat + C1 * v 1%nat))%C with (v 0%nat * Cconj (v 0%nat) + v 1%nat * Cconj (v 1%nat))%C by ring.
    rewrite !E2 by lia. clear -HIn. repeat (destruct HIn as [H|HIn]; [injection H as _ <- <-; unfold polarised, times, plus, ident, sx, sy, sz, of_rows; cbn; field|]). destruct HIn.
  - intros a Ha. rewrite (nth_indep _ 0 (Re (csumn 2 (fun i => (Cconj (v i) * csumn 2 (fun j => (M 0%nat i j * v j)%C))%C)))) by (rewrite map_length, seq_length; lia).
    rewrite (map_nth (fun a => Re (csumn 2 (fun i => (Cconj (v i) * csumn 2 (fun j => (M a i j * v j)%C))%C)))), seq_nth by lia. apply EX.
Qed.
Print Assumptions C26_distribution.
Theorem C26_unknown name M : ~ In name (map fst named_states) -> one_particle name M = Err ValueError.
Proof.
  intros H. unfold one_particle, state_vector.
  repeat match goal with |- context [String.eqb name ?s] => destruct (String.eqb_spec name s) as [->|_]; [exfalso; apply H; cbn; tauto|] end. reflexivity.
Qed.
Print Assumptions C26_unknown.
Example C26_case theta phi : exists M, get_M theta phi "SIC" = Ok M /\ (forall a, (a < 4)%nat -> psd 2 (M a)) /\ complete 2 4 M /\ In ("y_down"%string, (sy, -1)) named_states.
Proof. destruct (C21_valid theta phi) as (M & H1 & H2 & H3 & _). exists M. repeat split; try assumption; try apply H2; try assumption. cbn. tauto. Qed.
