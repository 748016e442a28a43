(** Lemmas about finite sums, linear functionals and POVMs. *)
From Coq Require Import String List Reals Bool Arith Lia Lra.
From Verif Require Import Base Cplx Povm_Model Povm_Spec.
Import ListNotations.
Local Open Scope R_scope.

(** ** sums over 0..n-1 *)
Lemma csumn_ext n f g : (forall k, (k < n)%nat -> f k = g k) -> csumn n f = csumn n g.
Proof. intros H. unfold csumn. apply csum_ext. intros k Hk. apply in_seq in Hk. apply H. lia. Qed.
Lemma rsumn_ext n f g : (forall k, (k < n)%nat -> f k = g k) -> rsumn n f = rsumn n g.
Proof. intros H. unfold rsumn. apply rsum_ext. intros k Hk. apply in_seq in Hk. apply H. lia. Qed.
Lemma csumn_swap n m (f : nat -> nat -> C) : csumn n (fun i => csumn m (fun j => f i j)) = csumn m (fun j => csumn n (fun i => f i j)).
Proof. unfold csumn. apply csum_swap. Qed.
Lemma csumn_scal n c f : csumn n (fun k => (c * f k)%C) = (c * csumn n f)%C.
Proof. unfold csumn. apply csum_scal. Qed.
Lemma csumn_scal_r n c f : csumn n (fun k => (f k * c)%C) = (csumn n f * c)%C.
Proof. unfold csumn. apply csum_scal_r. Qed.
Lemma csumn_add n f g : csumn n (fun k => (f k + g k)%C) = (csumn n f + csumn n g)%C.
Proof. unfold csumn. apply csum_map_add. Qed.
Lemma csumn_sub n f g : csumn n (fun k => (f k - g k)%C) = (csumn n f - csumn n g)%C.
Proof. unfold csumn. apply csum_sub. Qed.
Lemma csumn_zero n : csumn n (fun _ => C0) = C0.
Proof. unfold csumn. apply csum_zero. Qed.
Lemma csumn_S n f : csumn (S n) f = (csumn n f + f n)%C.
Proof. unfold csumn. rewrite seq_S, map_app, csum_app. cbn [map]. rewrite csum_cons, csum_nil. cbn [Nat.add]. f_equal. ring. Qed.
Lemma csumn_delta n j f : (j < n)%nat -> csumn n (fun k => ((if (j =? k)%nat then C1 else C0) * f k)%C) = f j.
Proof.
  induction n as [|n IH]; intros H; [lia|]. rewrite csumn_S. destruct (Nat.eq_dec j n) as [->|N].
  - rewrite Nat.eqb_refl. rewrite (csumn_ext n _ (fun _ => C0)); [rewrite csumn_zero; ring|].
    intros k Hk. destruct (n =? k)%nat eqn:E; [apply Nat.eqb_eq in E; lia|ring].
  - rewrite IH by lia. apply Nat.eqb_neq in N. rewrite N. ring.
Qed.
Lemma csumn_delta' n j f : (j < n)%nat -> csumn n (fun k => (f k * (if (k =? j)%nat then C1 else C0))%C) = f j.
Proof. intros H. rewrite <- (csumn_delta n j f H). apply csumn_ext. intros k _. rewrite Nat.eqb_sym. ring. Qed.
Lemma csumn_conj n f : Cconj (csumn n f) = csumn n (fun k => Cconj (f k)).
Proof. unfold csumn. rewrite csum_conj, map_map. reflexivity. Qed.
Lemma csumn_RtoC n f : csumn n (fun k => RtoC (f k)) = RtoC (rsumn n f).
Proof. unfold csumn, rsumn. rewrite <- csum_RtoC, map_map. reflexivity. Qed.
Lemma Re_csumn n f : Re (csumn n f) = rsumn n (fun k => Re (f k)).
Proof. unfold csumn, rsumn. rewrite Re_csum, map_map. reflexivity. Qed.
(** a sum over pairs *)
Lemma csumn_plus a b f : csumn (a + b) f = (csumn a f + csumn b (fun k => f (a + k)%nat))%C.
Proof. induction b as [|b IH]; [rewrite Nat.add_0_r; unfold csumn at 3; cbn; ring|]. rewrite Nat.add_succ_r, !csumn_S, IH. ring. Qed.
Lemma csumn_prod p q f : csumn (p * q) f = csumn p (fun i => csumn q (fun j => f (i * q + j)%nat)).
Proof. induction p as [|p IH]; [reflexivity|]. rewrite csumn_S, <- IH. replace (S p * q)%nat with (p * q + q)%nat by lia. apply csumn_plus. Qed.

(** ** linear functionals of matrices *)
Definition linear (d : nat) (F : cmat -> C) : Prop :=
  (forall X Y, same d X Y -> F X = F Y) /\
  (forall n c M, F (combo n c M) = csumn n (fun a => (c a * F (M a))%C)).
Lemma lin_entry d i j : (i < d)%nat -> (j < d)%nat -> linear d (fun X => X i j).
Proof. intros Hi Hj. split; [intros X Y H; now apply H|reflexivity]. Qed.
Lemma lin_scal_l d k F : linear d F -> linear d (fun X => (k * F X)%C).
Proof. intros [H1 H2]. split; [intros X Y H; now rewrite (H1 X Y)|]. intros n c M. rewrite H2, <- csumn_scal. apply csumn_ext. intros. ring. Qed.
Lemma lin_scal_r d k F : linear d F -> linear d (fun X => (F X * k)%C).
Proof. intros [H1 H2]. split; [intros X Y H; now rewrite (H1 X Y)|]. intros n c M. rewrite H2, <- csumn_scal_r. apply csumn_ext. intros. ring. Qed.
Lemma lin_add d F G : linear d F -> linear d G -> linear d (fun X => (F X + G X)%C).
Proof. intros [H1 H2] [K1 K2]. split; [intros X Y H; now rewrite (H1 X Y), (K1 X Y)|]. intros n c M. rewrite H2, K2, <- csumn_add. apply csumn_ext. intros. ring. Qed.
Lemma lin_sub d F G : linear d F -> linear d G -> linear d (fun X => (F X - G X)%C).
Proof. intros [H1 H2] [K1 K2]. split; [intros X Y H; now rewrite (H1 X Y), (K1 X Y)|]. intros n c M. rewrite H2, K2, <- csumn_sub. apply csumn_ext. intros. ring. Qed.
Lemma lin_opp d F : linear d F -> linear d (fun X => (- F X)%C).
Proof. intros [H1 H2]. split; [intros X Y H; now rewrite (H1 X Y)|]. intros n c M. rewrite H2. transitivity ((- C1) * csumn n (fun a => (c a * F (M a))%C))%C; [ring|]. rewrite <- csumn_scal. apply csumn_ext. intros. ring. Qed.
Lemma lin_sum d m (F : nat -> cmat -> C) : (forall k, (k < m)%nat -> linear d (F k)) -> linear d (fun X => csumn m (fun k => F k X)).
Proof.
  intros H. split.
  - intros X Y E. apply csumn_ext. intros k Hk. now apply (proj1 (H k Hk)).
  - intros n c M. rewrite (csumn_ext m _ (fun k => csumn n (fun a => (c a * F k (M a))%C))) by (intros k Hk; apply (proj2 (H k Hk))).
    rewrite csumn_swap. apply csumn_ext. intros a _. apply csumn_scal.
Qed.
Ltac lin :=
  repeat (cbv beta; match goal with
  | |- linear _ (fun X => (X _ _)) => apply lin_entry; assumption
  | |- linear ?d (fun X => csumn ?m (fun k => _)) => apply (lin_sum d m); intros ? ?
  | |- linear ?d (fun X => Cadd _ _) => apply lin_add
  | |- linear ?d (fun X => Csub _ _) => apply lin_sub
  | |- linear ?d (fun X => Cmul ?a _) => apply lin_scal_l
  | |- linear ?d (fun X => Cmul _ ?a) => apply lin_scal_r
  | |- linear ?d (fun X => Copp _) => apply lin_opp
  end).

(** ** traces *)
Definition tr3 (d : nat) (X Y Z : cmat) : C := csumn d (fun i => csumn d (fun j => csumn d (fun k => (X i j * Y j k * Z k i)%C))).
Definition tr4 (d : nat) (X Y Z W : cmat) : C := csumn d (fun i => csumn d (fun j => csumn d (fun k => csumn d (fun l => (X i j * Y j k * Z k l * W l i)%C)))).
Lemma tr3_cyc d X Y Z : tr3 d X Y Z = tr3 d Y Z X.
Proof.
  unfold tr3. rewrite csumn_swap. apply csumn_ext. intros j _. rewrite csumn_swap. apply csumn_ext. intros k _. apply csumn_ext. intros i _. ring.
Qed.
Lemma tr4_cyc d X Y Z W : tr4 d X Y Z W = tr4 d Y Z W X.
Proof.
  unfold tr4. rewrite csumn_swap. apply csumn_ext. intros j _. rewrite csumn_swap. apply csumn_ext. intros k _. rewrite csumn_swap. apply csumn_ext. intros l _. apply csumn_ext. intros i _. ring.
Qed.
Lemma tr_mul3 d X Y Z : tr d (mul d X (mul d Y Z)) = tr3 d X Y Z.
Proof.
  unfold tr, mul, tr3. apply csumn_ext. intros i _. apply csumn_ext. intros j _. rewrite <- csumn_scal. apply csumn_ext. intros k _. ring.
Qed.
Lemma tr_mul3' d X Y Z : tr d (mul d (mul d X Y) Z) = tr3 d X Y Z.
Proof.
  unfold tr, mul, tr3. apply csumn_ext. intros i _. rewrite csumn_swap. apply csumn_ext. intros k _. rewrite <- csumn_scal_r. reflexivity.
Qed.
Lemma tr_comm d X Y : tr d (mul d X Y) = tr d (mul d Y X).
Proof. unfold tr, mul. rewrite csumn_swap. apply csumn_ext. intros i _. apply csumn_ext. intros j _. ring. Qed.
Lemma tr_hermitian d X Y : hermitian d X -> hermitian d Y -> Im (tr d (mul d X Y)) = 0.
Proof.
  intros HX HY. assert (E : Cconj (tr d (mul d X Y)) = tr d (mul d X Y)).
  { rewrite (tr_comm d X Y) at 2. unfold tr, mul. rewrite csumn_conj. apply csumn_ext. intros i Hi. rewrite csumn_conj. apply csumn_ext. intros j Hj.
    rewrite Cconj_mul. pose proof (HX j i Hj Hi) as E1. pose proof (HY i j Hi Hj) as E2. unfold dagger in E1, E2. rewrite E1, E2. ring. }
  destruct (tr d (mul d X Y)) as [a b]. unfold Cconj in E. cbn in *. injection E as E. lra.
Qed.
Lemma Im0_RtoC z : Im z = 0 -> z = RtoC (Re z).
Proof. destruct z as [a b]. cbn. intros ->. reflexivity. Qed.
Lemma Re_RtoC_mul x z : Re (RtoC x * z)%C = x * Re z.
Proof. destruct z. unfold Re, RtoC, Cmul. cbn. ring. Qed.

(** ** the dual basis *)
Section Dual.
  Variables (d n : nat) (M : nat -> cmat) (T_inv : cmat).
  Definition dual (b : nat) : cmat := combo n (T_inv b) M.
  (** the state is recovered from the probabilities *)
  Definition recovers (rho : cmat) (p : nat -> R) : Prop := same d (combo n (fun b => RtoC (p b)) dual) rho.
  Lemma recovers_linear rho p F : recovers rho p -> linear d F -> rsumn n (fun b => p b * Re (F (dual b))) = Re (F rho).
  Proof.
    intros HR [H1 H2]. rewrite <- (H1 _ _ HR), H2, Re_csumn. apply rsumn_ext. intros b _. symmetry. apply Re_RtoC_mul.
  Qed.
  Lemma span_recovers rho : (forall a, (a < n)%nat -> hermitian d (M a)) -> inverse n (overlap d M) T_inv -> in_span d n M rho ->
    recovers rho (outcome_prob d rho M).
  Proof.
    intros HM [HI _] [r Hr] i j Hi Hj. rewrite (Hr i j Hi Hj). unfold combo at 1. unfold dual.
    assert (P : forall b, (b < n)%nat -> RtoC (outcome_prob d rho M b) = csumn n (fun c => (RtoC (r c) * overlap d M c b)%C)).
    { intros b Hb. unfold outcome_prob. assert (E : tr d (mul d rho (M b)) = csumn n (fun c => (RtoC (r c) * overlap d M c b)%C)).
      { unfold tr, mul, overlap. rewrite (csumn_ext d _ (fun i => csumn n (fun c => (RtoC (r c) * csumn d (fun j => (M c i j * M b j i)%C))%C))).
        - rewrite csumn_swap. apply csumn_ext. intros c _. apply csumn_scal.
        - intros i' Hi'. rewrite (csumn_ext d _ (fun k => csumn n (fun c => (RtoC (r c) * (M c i' k * M b k i'))%C))).
          + rewrite csumn_swap. apply csumn_ext. intros c _. apply csumn_scal.
          + intros k Hk. rewrite (Hr i' k Hi' Hk). unfold combo. rewrite <- csumn_scal_r. apply csumn_ext. intros c _. ring. }
      rewrite <- Im0_RtoC; [exact E|]. rewrite E. assert (T0 : forall c, (c < n)%nat -> overlap d M c b = RtoC (Re (overlap d M c b))).
      { intros c Hc. apply Im0_RtoC. exact (tr_hermitian d (M c) (M b) (HM c Hc) (HM b Hb)). }
      rewrite (csumn_ext n _ (fun c => RtoC (r c * Re (overlap d M c b)))); [rewrite csumn_RtoC; reflexivity|]. intros c Hc. rewrite (T0 c Hc) at 1. now rewrite RtoC_mul. }
    rewrite (csumn_ext n _ (fun b => csumn n (fun c => csumn n (fun e => (RtoC (r c) * overlap d M c b * T_inv b e * M e i j)%C)))).
    - rewrite csumn_swap. unfold combo. apply csumn_ext. intros c Hc. rewrite csumn_swap.
      rewrite (csumn_ext n _ (fun e => ((if (c =? e)%nat then C1 else C0) * (RtoC (r c) * M e i j))%C)); [now rewrite csumn_delta|].
      intros e He. pose proof (HI c e Hc He) as E. unfold mul, ident in E. rewrite <- E. rewrite <- csumn_scal_r. apply csumn_ext. intros b _. ring.
    - intros b Hb. rewrite (P b Hb). unfold combo. rewrite <- csumn_scal_r. apply csumn_ext. intros c _. rewrite <- csumn_scal. apply csumn_ext. intros e _. ring.
  Qed.
  (** a frame recovers every Hermitian matrix *)
  Definition frame : Prop := forall i j k l, (i < d)%nat -> (j < d)%nat -> (k < d)%nat -> (l < d)%nat ->
    csumn n (fun a => csumn n (fun b => (T_inv a b * M a i j * M b k l)%C)) = (ident i l * ident j k)%C.
  Lemma frame_recovers rho : (forall a, (a < n)%nat -> hermitian d (M a)) -> hermitian d rho -> frame -> recovers rho (outcome_prob d rho M).
  Proof.
    intros HM HR HF k l Hk Hl. unfold combo at 1. unfold dual.
    rewrite (csumn_ext n _ (fun b => csumn d (fun i => csumn d (fun j => (rho i j * csumn n (fun c => (T_inv b c * M b j i * M c k l)%C))%C)))).
    - rewrite csumn_swap. rewrite (csumn_ext d _ (fun i => ((if (k =? i)%nat then C1 else C0) * csumn d (fun j => (rho i j * (if (j =? l)%nat then C1 else C0))%C))%C)).
      + rewrite csumn_delta by assumption. now apply csumn_delta'.
      + intros i Hi. rewrite csumn_swap. rewrite <- csumn_scal. apply csumn_ext. intros j Hj.
        rewrite csumn_scal. rewrite HF by assumption. unfold ident. rewrite (Nat.eqb_sym i k). ring.
    - intros b Hb. unfold outcome_prob. rewrite <- Im0_RtoC by (apply tr_hermitian; auto). unfold tr, mul, combo.
      rewrite <- csumn_scal_r. apply csumn_ext. intros i _. rewrite <- csumn_scal_r. apply csumn_ext. intros j _. rewrite <- !csumn_scal. apply csumn_ext. intros c _. ring.
  Qed.

  (** the converted operators as linear functionals of the dual basis *)
  Lemma ein1_dual A a b : ein_cjk_aki d n A M T_inv a b = tr3 d A (dual b) (M a).
  Proof.
    unfold ein_cjk_aki, tr3, dual, combo. apply csumn_ext; intros i _; apply csumn_ext; intros j _; apply csumn_ext; intros k _.
    rewrite <- csumn_scal, <- csumn_scal_r. apply csumn_ext. intros c _. ring.
  Qed.
  Lemma ein2_dual A a b : ein_ajk_cki d n A M T_inv a b = tr3 d A (M a) (dual b).
  Proof.
    unfold ein_ajk_cki, tr3, dual, combo. apply csumn_ext; intros i _; apply csumn_ext; intros j _; apply csumn_ext; intros k _.
    rewrite <- csumn_scal. apply csumn_ext. intros c _. ring.
  Qed.
  Lemma unitary_dual A a b : povm_unitary d n A M T_inv a b = Re (- Ci * tr3 d A (dual b) (M a) + Ci * tr3 d A (M a) (dual b))%C.
  Proof. unfold povm_unitary. now rewrite ein1_dual, ein2_dual. Qed.
  Lemma imaginary_dual A a b : povm_imaginary d n A M T_inv a b = Re (- tr3 d A (dual b) (M a) - tr3 d A (M a) (dual b))%C.
  Proof. unfold povm_imaginary. now rewrite ein1_dual, ein2_dual. Qed.
  Lemma dissipative_dual A a b : povm_dissipative d n A M T_inv a b
    = Re (tr4 d A (dual b) (adjoint A) (M a) - RtoC (1/2) * tr4 d (adjoint A) A (dual b) (M a) - RtoC (1/2) * tr4 d (adjoint A) A (M a) (dual b))%C.
  Proof.
    unfold povm_dissipative, tr4, dual, combo. apply (f_equal Re). apply f_equal2; [apply f_equal2; [|apply f_equal]|apply f_equal]; apply csumn_ext; intros i _; apply csumn_ext; intros j _; apply csumn_ext; intros k _; apply csumn_ext; intros l _.
    - rewrite <- csumn_scal, <- csumn_scal_r, <- csumn_scal_r. apply csumn_ext. intros c _. ring.
    - rewrite <- csumn_scal, <- csumn_scal_r. apply csumn_ext. intros c _. ring.
    - rewrite <- csumn_scal. apply csumn_ext. intros c _. ring.
  Qed.
  Lemma observable_dual A a : povm_observable d n A M T_inv a = Re (tr d (mul d (dual a) A)).
  Proof.
    unfold povm_observable, tr, mul, dual, combo. f_equal. rewrite csumn_swap. apply csumn_ext. intros i _. rewrite csumn_swap. apply csumn_ext. intros j _. rewrite <- csumn_scal_r. apply csumn_ext. intros c _. ring.
  Qed.
End Dual.
Lemma tr3_lin2 d X Z : linear d (fun Y => tr3 d X Y Z).
Proof. unfold tr3. lin. Qed.
Lemma tr3_lin3 d X Y : linear d (fun Z => tr3 d X Y Z).
Proof. unfold tr3. lin. Qed.
Lemma tr4_lin2 d X Z W : linear d (fun Y => tr4 d X Y Z W).
Proof. unfold tr4. lin. Qed.
Lemma tr4_lin3 d X Y W : linear d (fun Z => tr4 d X Y Z W).
Proof. unfold tr4. lin. Qed.
Lemma tr4_lin4 d X Y Z : linear d (fun W => tr4 d X Y Z W).
Proof. unfold tr4. lin. Qed.
Lemma tr_lin1 d A : linear d (fun Y => tr d (mul d Y A)).
Proof. unfold tr, mul. lin. Qed.
