(** Integrators with a right hand side that changes a state. *)
From Coq Require Import List Reals Lra Lia Arith ZArith Bool.
From Verif Require Import Base Cplx Mpi_Model Stats_Model Stats_Spec Stats_Proofs Sampler_Model Stepper_Model
  Vqs_Model Vqs_Spec Vqs_Proofs Tdvp_Model Tdvp_Spec Tdvp_Proofs Tdvp5_Proofs Tdvp7_Proofs Evo_Model Evo_Spec.
Import ListNotations.
Local Open Scope R_scope.

Lemma andthen_ok {W A B} (m : W * result A) (k : W -> A -> W * result B) w' b :
  andthen m k = (w', Ok b) -> exists w a, m = (w, Ok a) /\ k w a = (w', Ok b).
Proof. destruct m as [w [a|e]]; cbn; intros H; [eauto|discriminate]. Qed.

Section Generic.
  Context {W : Type}.
  Variable f : W -> list R -> R -> nat -> W * result (list R).
  Variables (Inv : W -> Prop) (g : rhs) (Rep Last : list R -> R -> W -> Prop) (n : nat).
  Hypothesis Hf : forall w y t k w' v, Inv w -> f w y t k = (w', Ok v) ->
    Inv w' /\ v = g y t k /\ length v = n /\ Last y t w' /\ (k = O -> Rep y t w') /\ (k <> O -> forall y0 t0, Rep y0 t0 w -> Rep y0 t0 w').

  Lemma vadd_length x y : length (vadd x y) = Nat.min (length x) (length y).
  Proof using. unfold vadd, map2. now rewrite map_length, combine_length. Qed.
  Lemma vscal_length c x : length (vscal c x) = length x.
  Proof using. apply map_length. Qed.
  Lemma vsub_length x y : length (vsub x y) = Nat.min (length x) (length y).
  Proof using. unfold vsub, map2. now rewrite map_length, combine_length. Qed.

  Lemma euler_generic dt w t y w' r : Inv w -> euler_w f dt w t y = (w', Ok r) ->
    Inv w' /\ r = euler_step dt g t y /\ Rep y t w' /\ Last y t w' /\ (length y = n -> length (fst r) = n).
  Proof using Hf.
    intros I H. apply andthen_ok in H as (w1 & k0 & E0 & H). injection H as <- <-.
    destruct (Hf _ _ _ _ _ _ I E0) as (I1 & -> & L0 & La & R0 & _). unfold euler_step. repeat split; auto.
    intros Hy. cbn [fst]. rewrite vadd_length, vscal_length, L0, Hy. apply Nat.min_id.
  Qed.
  Lemma heun_generic sdt arg w t y w' r : Inv w -> heun_w f sdt arg w t y = (w', Ok r) ->
    let dt := match arg with Some d => d | None => sdt end in
    Inv w' /\ r = heun_step sdt arg g t y /\ Rep y t w' /\ Last (vadd y (vscal dt (g y t O))) (t + dt) w' /\ (length y = n -> length (fst r) = n).
  Proof using Hf.
    intros I H dt. unfold heun_w in H. fold dt in H. apply andthen_ok in H as (w1 & k0 & E0 & H). apply andthen_ok in H as (w2 & k1 & E1 & H). injection H as <- <-.
    destruct (Hf _ _ _ _ _ _ I E0) as (I1 & -> & L0 & _ & R0 & _).
    destruct (Hf _ _ _ _ _ _ I1 E1) as (I2 & -> & L1 & La & _ & R1).
    unfold heun_step. fold dt. repeat split; auto. intros Hy. cbn [fst]. rewrite vadd_length, vscal_length, vadd_length, L0, L1, Hy, !Nat.min_id. reflexivity.
  Qed.

  Variables (norm : W -> list R -> xreal) (tol maxStep : R).
  (** the point at which the right hand side is evaluated last in a pass *)
  Definition last_point (t : R) (y : list R) (dt : R) : list R :=
    let k0 := g y t 0%nat in
    let y1 := vadd y (vscal dt k0) in
    let k10 := g (vsub y1 (vscal (1/2 * dt) k0)) (t + 1/2 * dt) 2%nat in
    let y2 := vadd y (vscal (1/4 * dt) (vadd k0 k10)) in
    vadd y2 (vscal (1/2 * dt) (g y2 (t + 1/2 * dt) 3%nat)).
  Lemma trial_generic w t y dt w' r : Inv w -> trial_w f norm tol maxStep w t y dt = (w', Ok r) ->
    Inv w' /\ r = trial g (norm w') tol maxStep t y dt /\ Rep y t w' /\ Last (last_point t y dt) (t + dt) w' /\ (length y = n -> length (fst (fst r)) = n).
  Proof using Hf.
    intros I H. unfold trial_w in H.
    apply andthen_ok in H as (w1 & k0 & E0 & H). apply andthen_ok in H as (w2 & k1 & E1 & H). apply andthen_ok in H as (w3 & k10 & E2 & H).
    apply andthen_ok in H as (w4 & k01 & E3 & H). apply andthen_ok in H as (w5 & k11 & E4 & H). injection H as <- <-.
    destruct (Hf _ _ _ _ _ _ I E0) as (I1 & -> & L0 & _ & R0 & _).
    destruct (Hf _ _ _ _ _ _ I1 E1) as (I2 & -> & L1 & _ & _ & R1).
    destruct (Hf _ _ _ _ _ _ I2 E2) as (I3 & -> & L2 & _ & _ & R2).
    destruct (Hf _ _ _ _ _ _ I3 E3) as (I4 & -> & L3 & _ & _ & R3).
    destruct (Hf _ _ _ _ _ _ I4 E4) as (I5 & -> & L4 & La & _ & R4).
    split; [exact I5|]. split; [reflexivity|]. split; [auto 10|]. split; [exact La|].
    intros Hy. cbn [fst]. rewrite !vadd_length, !vscal_length, !vadd_length, L0, L2, L3, L4, !Nat.min_id. reflexivity.
  Qed.
  Lemma loop_generic fuel w t y dt w' p q d : Inv w -> loop_w f norm tol maxStep fuel w t y dt = (w', Ok (p, q, d)) ->
    Inv w' /\ Rep y t w' /\ Last (last_point t y q) (t + q) w' /\ (length y = n -> length p = n)
    /\ p = vadd y (fst (fst (trial g (norm w') tol maxStep t y q))).
  Proof using Hf.
    revert w dt. induction fuel as [|k IH]; intros w dt I H; [discriminate|]. cbn [loop_w] in H. apply andthen_ok in H as (w1 & r & E & H).
    destruct (trial_generic _ _ _ _ _ _ I E) as (I1 & Hr & R1 & L1 & Ln). destruct r as [[dy fe] dt'].
    destruct (xlt fe (Fin 1)).
    - destruct dt'; try discriminate. now apply (IH w1 r).
    - injection H as <- <- <- <-. rewrite <- Hr. cbn [fst] in *. repeat split; auto. intros Hy. rewrite vadd_length, Ln, Hy by exact Hy. apply Nat.min_id.
  Qed.
  Lemma loop_pure N fuel w t y dt w' r : (forall w v, norm w v = N v) -> Inv w -> loop_w f norm tol maxStep fuel w t y dt = (w', Ok r) ->
    adaptive_loop g N tol maxStep fuel t y dt = Ok r.
  Proof using Hf.
    intros HN. revert w dt. induction fuel as [|k IH]; intros w dt I H; [discriminate|]. cbn [loop_w adaptive_loop] in *. apply andthen_ok in H as (w1 & x & E & H).
    destruct (trial_generic _ _ _ _ _ _ I E) as (I1 & Hr & _).
    assert (HT : trial g (norm w1) tol maxStep t y dt = trial g N tol maxStep t y dt) by (unfold trial; now rewrite HN). rewrite HT in Hr. rewrite <- Hr.
    destruct x as [[dy fe] dt']. destruct (xlt fe (Fin 1)).
    - destruct dt'; try discriminate. now apply (IH w1 r0).
    - now injection H as _ <-.
  Qed.
  Lemma adaptive_generic fuel sdt w t y w' p q d : Inv w -> adaptive_w f norm tol maxStep fuel sdt w t y = (w', Ok ((p, q), d)) ->
    Inv w' /\ Rep y t w' /\ Last (last_point t y q) (t + q) w' /\ (length y = n -> length p = n)
    /\ p = vadd y (fst (fst (trial g (norm w') tol maxStep t y q)))
    /\ (forall N, (forall w v, norm w v = N v) -> adaptive_step g N tol maxStep fuel sdt t y = Ok ((p, q), d)).
  Proof using Hf.
    intros I H. unfold adaptive_w in H. destruct sdt as [dt| | |]; try discriminate. apply andthen_ok in H as (w1 & [[p1 q1] d1] & E & H). injection H as -> -> -> ->.
    destruct (loop_generic _ _ _ _ _ _ _ _ _ I E) as (A1 & A2 & A3 & A4 & A5). repeat split; auto.
    intros N HN. unfold adaptive_step. now rewrite (loop_pure N _ _ _ _ _ _ _ HN I E).
  Qed.
End Generic.
