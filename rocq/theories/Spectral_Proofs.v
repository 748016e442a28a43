(** Every Hermitian operator on a finite basis has a complete system of eigenvectors. *)
From Coq Require Import ZArith List Reals Lra Lia Bool Arith Classical IndefiniteDescription ConstructiveEpsilon.
From Verif Require Import Base Cplx Stats_Spec Stats_Proofs BranchFree_Model BranchFree_Spec Exact_Proofs Tdvp5_Proofs Vmc_Spec Vmc_Proofs Ehren_Spec Ehren_Proofs Spectrum_Spec.
Import ListNotations.
Local Open Scope R_scope.

(** ** subsequences *)
Definition increasing (p : nat -> nat) : Prop := forall n, (p n < p (S n))%nat.
Lemma increasing_ge p : increasing p -> forall n, (n <= p n)%nat.
Proof. intros H n. induction n as [|n IH]; [lia|]. specialize (H n). lia. Qed.
Lemma increasing_lt p : increasing p -> forall n m, (n < m)%nat -> (p n < p m)%nat.
Proof. intros H n m. induction m as [|m IH]; [lia|]. intros L. specialize (H m). destruct (Nat.eq_dec n m) as [->|Q]; [exact H|]. specialize (IH ltac:(lia)). lia. Qed.
Lemma increasing_comp p q : increasing p -> increasing q -> increasing (fun n => p (q n)).
Proof. intros Hp Hq n. apply (increasing_lt p Hp), Hq. Qed.
Lemma cv_sub u l p : increasing p -> Un_cv u l -> Un_cv (fun n => u (p n)) l.
Proof. intros Hp Hu e He. destruct (Hu e He) as [N HN]. exists N. intros n Hn. apply HN. pose proof (increasing_ge p Hp n). lia. Qed.

Lemma subsequence u : (forall n, -1 <= u n <= 1) -> exists p l, increasing p /\ Un_cv (fun n => u (p n)) l.
Proof.
  intros Hb. destruct (Bolzano_Weierstrass u (fun c => -1 <= c <= 1) (compact_P3 (-1) 1) Hb) as [l Hl].
  assert (EX : forall k N : nat, exists i, (N <= i)%nat /\ Rabs (u i - l) < / (INR k + 1)).
  { intros k N. pose proof (pos_INR k) as PI. assert (P : 0 < / (INR k + 1)) by (apply Rinv_0_lt_compat; lra).
    destruct (Hl (fun x => Rabs (x - l) < / (INR k + 1)) N) as (i & A & B); [|now exists i].
    exists (mkposreal _ P). intros x Hx. exact Hx. }
  assert (NX : forall k N : nat, {i | (N <= i)%nat /\ Rabs (u i - l) < / (INR k + 1)}).
  { intros k N. apply constructive_indefinite_ground_description_nat; [|apply EX]. intros i. destruct (le_dec N i); [|right; tauto]. destruct (Rlt_dec (Rabs (u i - l)) (/ (INR k + 1))); [left|right]; tauto. }
  exists (fix p (k : nat) : nat := match k with Datatypes.O => proj1_sig (NX 0 0)%nat | Datatypes.S k' => proj1_sig (NX k (Datatypes.S (p k'))) end), l.
  set (p := fix p (k : nat) : nat := match k with Datatypes.O => proj1_sig (NX 0 0)%nat | Datatypes.S k' => proj1_sig (NX k (Datatypes.S (p k'))) end).
  split.
  - intros k. change (p (Datatypes.S k)) with (proj1_sig (NX (Datatypes.S k) (Datatypes.S (p k)))). pose proof (proj2_sig (NX (Datatypes.S k) (Datatypes.S (p k)))) as [Q _]. lia.
  - assert (D : forall k, Rabs (u (p k) - l) < / (INR k + 1)).
    { intros [|k]; [exact (proj2 (proj2_sig (NX 0%nat 0%nat)))|]. change (p (Datatypes.S k)) with (proj1_sig (NX (Datatypes.S k) (Datatypes.S (p k)))). exact (proj2 (proj2_sig (NX (Datatypes.S k) (Datatypes.S (p k))))). }
    intros e He. destruct (archimed_cor1 e He) as (N & HN1 & HN2). exists N. intros n Hn. unfold R_dist. eapply Rlt_trans; [apply D|].
    eapply Rle_lt_trans; [|exact HN1]. apply Rinv_le_contravar; [apply lt_0_INR; lia|]. apply le_INR in Hn. lra.
Qed.

(** ** convergence of complex numbers *)
Definition ccv (z : nat -> C) (l : C) : Prop := Un_cv (fun n => Re (z n)) (Re l) /\ Un_cv (fun n => Im (z n)) (Im l).
Lemma cv_const a : Un_cv (fun _ => a) a.
Proof. intros e He. exists 0%nat. intros. unfold R_dist. rewrite Rminus_eq_0, Rabs_R0. exact He. Qed.
Lemma cv_ext u v l : (forall n, u n = v n) -> Un_cv u l -> Un_cv v l.
Proof. intros E H e He. destruct (H e He) as [N HN]. exists N. intros n Hn. rewrite <- E. now apply HN. Qed.
Lemma ccv_const a : ccv (fun _ => a) a. Proof. split; apply cv_const. Qed.
Lemma ccv_add z z' l l' : ccv z l -> ccv z' l' -> ccv (fun n => z n + z' n)%C (l + l')%C.
Proof. intros [A B] [A' B']. split; cbn; now apply CV_plus. Qed.
Lemma ccv_mul z z' l l' : ccv z l -> ccv z' l' -> ccv (fun n => z n * z' n)%C (l * l')%C.
Proof. intros [A B] [A' B']. split; cbn; [apply CV_minus|apply CV_plus]; now apply CV_mult. Qed.
Lemma ccv_conj z l : ccv z l -> ccv (fun n => Cconj (z n)) (Cconj l).
Proof. intros [A B]. split; cbn; [exact A|]. now apply CV_opp. Qed.
Lemma ccv_ext z z' l : (forall n, z n = z' n) -> ccv z l -> ccv z' l.
Proof. intros E [A B]. split; [apply (cv_ext (fun n => Re (z n))); [|exact A]|apply (cv_ext (fun n => Im (z n))); [|exact B]]; intros n; cbv beta; now rewrite (E n). Qed.
Lemma ccv_csum {X} (f : X -> nat -> C) (l : X -> C) xs : (forall x, In x xs -> ccv (f x) (l x)) -> ccv (fun n => csum (map (fun x => f x n) xs)) (csum (map l xs)).
Proof.
  induction xs as [|x xs IH]; intros H; cbn [map]; [apply (ccv_const (csum []))|].
  apply (ccv_ext (fun n => (f x n + csum (map (fun x => f x n) xs))%C)); [intros; now rewrite csum_cons|]. rewrite csum_cons. apply ccv_add; [apply H; now left|apply IH; intros; apply H; now right].
Qed.

Section Spectral.
Variables (basis : list config) (O : wavefun -> wavefun).
Hypothesis HD : NoDup basis.
Hypothesis Hh : hermitian_on basis O.
Let br := braket basis.
Let nr := norm2 basis.

Definition point (s s' : config) : C := if list_eq_dec Nat.eq_dec s s' then C1 else C0.
Lemma br_point_gen l f s : NoDup l -> In s l -> braket l (point s) f = f s.
Proof.
  induction l as [|a l IH]; intros ND Hin; [destruct Hin|]. inversion ND as [|? ? NI ND']; subst. unfold braket. cbn [map]. rewrite csum_cons. fold (braket l (point s) f).
  destruct (list_eq_dec Nat.eq_dec s a) as [<-|Q].
  - assert (Z : braket l (point s) f = C0).
    { unfold braket. rewrite <- (csum_zero l). apply csum_ext. intros x Hx. unfold point. destruct (list_eq_dec Nat.eq_dec s x) as [<-|_]; [contradiction|]. apply C_eq; cbn; ring. }
    rewrite Z. unfold point. destruct (list_eq_dec Nat.eq_dec s s) as [_|F]; [|contradiction]. apply C_eq; cbn; ring.
  - destruct Hin as [->|Hin]; [contradiction|]. rewrite (IH ND' Hin). unfold point. destruct (list_eq_dec Nat.eq_dec s a) as [F|_]; [contradiction|]. apply C_eq; cbn; ring.
Qed.
Lemma br_point f s : In s basis -> br (point s) f = f s. Proof. intros. now apply br_point_gen. Qed.
Lemma nr_point s : In s basis -> nr (point s) = 1.
Proof. intros Hs. apply RtoC_inj. unfold nr. rewrite <- braket_self. fold br. rewrite br_point by exact Hs. unfold point. destruct (list_eq_dec Nat.eq_dec s s) as [_|F]; [reflexivity|contradiction]. Qed.
Lemma O_value f s : In s basis -> O f s = br (O (point s)) f.
Proof. intros Hs. rewrite <- (br_point (O f) s Hs). unfold br. rewrite (Hh (point s) f), <- braket_conj. reflexivity. Qed.
Lemma nr_zero f : nr f = 0 -> forall s, In s basis -> f s = C0.
Proof. intros Z s Hs. apply Cnorm2_eq0. exact (rsum_nonneg_eq0 (fun s => Cnorm2 (f s)) basis (fun x _ => Cnorm2_ge (f x)) Z s Hs). Qed.
Lemma nr_ext f g : (forall s, In s basis -> f s = g s) -> nr f = nr g.
Proof. intros E. apply rsum_ext. intros s Hs. now rewrite E. Qed.
Lemma br_O_add g f z h : br g (O (fun s => f s + z * h s)%C) = (br g (O f) + z * br g (O h))%C.
Proof. unfold br. rewrite (Hh g), (braket_add_l basis (O g) f), braket_scal_l, Cconj_add, Cconj_mul, Cconj_conj, (Hh g f), (Hh g h). reflexivity. Qed.

Let q f := Re (br f (O f)).
Lemma q_bound : exists B, forall f, nr f = 1 -> q f <= B.
Proof.
  set (B := rsum (map (fun s => nr (O (point s))) basis)). exists (B + 1). intros f Hf.
  assert (B0 : 0 <= B) by (apply rsum_map_nonneg; intros; apply norm2_nonneg).
  assert (NO : nr (O f) <= B).
  { unfold nr at 1, norm2. apply rsum_map_le. intros s Hs. rewrite (O_value f s Hs). pose proof (braket_cs basis (O (point s)) f) as Q. fold nr in Q. rewrite Hf, Rmult_1_r in Q. exact Q. }
  pose proof (braket_cs basis f (O f)) as CS. fold nr br in CS. rewrite Hf, Rmult_1_l in CS. pose proof (Re_sq_le (br f (O f))) as RS. fold (q f) in RS.
  apply Rnot_lt_le. intros L. nra.
Qed.

(** the subspace orthogonal to the vectors found so far *)
Definition away (es : list (R * wavefun)) (f : wavefun) : Prop := forall e v, In (e, v) es -> br v f = C0.
(** an orthonormal list of eigenvectors *)
Fixpoint good (es : list (R * wavefun)) : Prop :=
  match es with
  | [] => True
  | (e, v) :: es => nr v = 1 /\ (forall s, In s basis -> O v s = (RtoC e * v s)%C) /\ away es v /\ good es
  end.
Lemma good_eigen es : good es -> forall e v, In (e, v) es -> nr v = 1 /\ forall s, In s basis -> O v s = (RtoC e * v s)%C.
Proof. induction es as [|[e0 v0] es IH]; intros G e v Hin; [destruct Hin|]. destruct G as (G1 & G2 & _ & G3). destruct Hin as [Q|Hin]; [injection Q as <- <-; now split|now apply IH]. Qed.

Lemma projection es : good es -> forall f, exists g, away es g /\ nr f = rsum (map (fun ev => Cnorm2 (br (snd ev) f)) es) + nr g /\ forall u, away es u -> br u g = br u f.
Proof.
  induction es as [|[e v] es IH]; intros G f.
  - exists f. split; [intros ? ? []|]. split; [cbn [map]; rewrite rsum_nil; ring|reflexivity].
  - destruct G as (G1 & G2 & G3 & G4). destruct (IH G4 f) as (g & A1 & A2 & A3). set (z := br v g). exists (fun s => (g s + (- z) * v s)%C).
    assert (VV : br v v = C1) by (unfold br; rewrite braket_self; fold nr; rewrite G1; reflexivity).
    split; [|split].
    + intros e' v' [Q|Hin].
      * injection Q as <- <-. unfold br. rewrite braket_add_r, braket_scal_r. fold br. rewrite VV. unfold z. ring.
      * unfold br. rewrite braket_add_r, braket_scal_r. fold br. rewrite (A1 e' v' Hin), (G3 e' v' Hin). ring.
    + cbn [map snd]. rewrite rsum_cons, A2. rewrite <- (A3 v G3). fold z. enough (Q : nr (fun s => (g s + - z * v s)%C) = nr g - Cnorm2 z) by lra.
      apply RtoC_inj. unfold nr. rewrite <- braket_self. rewrite braket_add_l, braket_scal_l, !braket_add_r, !braket_scal_r. rewrite (braket_conj basis g v). fold br. rewrite VV. fold z.
      unfold br at 1. rewrite braket_self. fold nr. generalize (nr g). intros r. destruct z as [x y]. unfold RtoC, Cnorm2, Copp, Cadd, Cmul, Cconj, C1. cbn. f_equal; ring.
    + intros u Hu. unfold br. rewrite braket_add_r, braket_scal_r. fold br. rewrite (A3 u) by (intros e' v' Hin; apply (Hu e' v'); now right).
      assert (Z : br u v = C0) by (unfold br; rewrite braket_conj; fold br; rewrite (Hu e v ltac:(now left)); apply C_eq; cbn; ring). rewrite Z. ring.
Qed.
Lemma good_length es : good es -> (length es <= length basis)%nat.
Proof.
  intros G. apply INR_le.
  assert (A : rsum (map (fun s => rsum (map (fun ev => Cnorm2 (br (snd ev) (point s))) es)) basis) <= INR (length basis)).
  { rewrite <- (Rmult_1_r (INR (length basis))), <- rsum_const. apply rsum_map_le. intros s Hs. destruct (projection es G (point s)) as (g & _ & P & _). rewrite nr_point in P by exact Hs. pose proof (norm2_nonneg basis g) as Q. fold nr in Q. lra. }
  rewrite rsum_swap in A. replace (INR (length es)) with (rsum (map (fun ev => rsum (map (fun s => Cnorm2 (br (snd ev) (point s))) basis)) es)); [exact A|].
  rewrite <- (Rmult_1_r (INR (length es))), <- rsum_const. apply rsum_ext. intros [e v] Hin. cbn [snd]. rewrite <- (proj1 (good_eigen es G e v Hin)). apply rsum_ext. intros s Hs.
  unfold br. rewrite braket_conj. fold br. rewrite br_point by exact Hs. generalize (v s). intros [x y]. unfold Cnorm2, Cconj. cbn. ring.
Qed.

Lemma converge (F : nat -> wavefun) : (forall n, nr (F n) = 1) -> forall l, incl l basis ->
  exists p L, increasing p /\ forall s, In s l -> ccv (fun n => F (p n) s) (L s).
Proof.
  intros HF l. induction l as [|s l IH]; intros Hl.
  - exists (fun n => n), (fun _ => C0). split; [intros n; lia|]. intros s [].
  - destruct IH as (p & L & P1 & P2); [intros x Hx; apply Hl; now right|].
    assert (BD : forall n, Cnorm2 (F n s) <= 1).
    { intros n. rewrite <- (HF n). unfold nr, norm2. assert (Hs : In s basis) by (apply Hl; now left). apply in_split in Hs as (l1 & l2 & ->). rewrite map_app, rsum_app. cbn [map]. rewrite rsum_cons.
      pose proof (rsum_map_nonneg (fun s => Cnorm2 (F n s)) l1 ltac:(intros; apply Cnorm2_ge)). pose proof (rsum_map_nonneg (fun s => Cnorm2 (F n s)) l2 ltac:(intros; apply Cnorm2_ge)). lra. }
    assert (BX : forall n, -1 <= Re (F n s) <= 1) by (intros n; specialize (BD n); destruct (F n s) as [x y]; unfold Cnorm2 in BD; cbn in *; split; nra).
    assert (BY : forall n, -1 <= Im (F n s) <= 1) by (intros n; specialize (BD n); destruct (F n s) as [x y]; unfold Cnorm2 in BD; cbn in *; split; nra).
    destruct (subsequence (fun n => Re (F (p n) s)) ltac:(intros; apply BX)) as (p1 & a & I1 & C1').
    destruct (subsequence (fun n => Im (F (p (p1 n)) s)) ltac:(intros; apply BY)) as (p2 & b & I2 & C2').
    exists (fun n => p (p1 (p2 n))), (fun s' => if list_eq_dec Nat.eq_dec s' s then (a, b) else L s'). split.
    + apply (increasing_comp p (fun n => p1 (p2 n)) P1). now apply increasing_comp.
    + intros s' Hs'. destruct (list_eq_dec Nat.eq_dec s' s) as [->|NE].
      * split; cbn; [exact (cv_sub _ _ p2 I2 C1')|exact C2'].
      * destruct Hs' as [->|Hs']; [contradiction|]. destruct (P2 s' Hs') as [A B]. pose proof (increasing_comp p1 p2 I1 I2) as I12. split; [exact (cv_sub _ _ _ I12 A)|exact (cv_sub _ _ _ I12 B)].
Qed.
Lemma ccv_br (F G : nat -> wavefun) f g : (forall s, In s basis -> ccv (fun n => F n s) (f s)) -> (forall s, In s basis -> ccv (fun n => G n s) (g s)) -> ccv (fun n => br (F n) (G n)) (br f g).
Proof. intros HF HG. unfold br, braket. apply (ccv_csum (fun s n => (Cconj (F n s) * G n s)%C) (fun s => (Cconj (f s) * g s)%C)). intros s Hs. apply ccv_mul; [apply ccv_conj; now apply HF|now apply HG]. Qed.
Lemma ccv_same z l l' : ccv z l -> ccv z l' -> l = l'.
Proof. intros [A B] [A' B']. apply C_eq; [exact (UL_sequence _ _ _ A A')|exact (UL_sequence _ _ _ B B')]. Qed.

(** the quadratic form attains its supremum on the unit sphere of the subspace *)
Lemma maximiser es f0 : away es f0 -> nr f0 <> 0 -> exists f m, away es f /\ nr f = 1 /\ q f = m /\ forall g, away es g -> nr g = 1 -> q g <= m.
Proof.
  intros A0 N0. set (E := fun x => exists g, away es g /\ nr g = 1 /\ q g = x).
  assert (EB : bound E) by (destruct q_bound as [B HB]; exists B; intros x (g & _ & G & <-); now apply HB).
  assert (NP : 0 < nr f0) by (pose proof (norm2_nonneg basis f0) as Q; fold nr in Q; lra).
  assert (EE : exists x, E x).
  { eexists. exists (fun s => (RtoC (/ sqrt (nr f0)) * f0 s)%C). split; [|split; [|reflexivity]].
    - intros e v Hin. unfold br. rewrite braket_scal_r. fold br. rewrite (A0 e v Hin). ring.
    - unfold nr. rewrite norm2_scal. fold nr. rewrite Cnorm2_RtoC. pose proof (sqrt_lt_R0 _ NP) as SP. pose proof (sqrt_sqrt (nr f0) ltac:(lra)) as SS. apply (Rmult_eq_reg_r (sqrt (nr f0) * sqrt (nr f0))); [|nra]. rewrite SS at 2. field. lra. }
  destruct (completeness E EB EE) as [m [M1 M2]].
  assert (AP : forall n : nat, exists g, away es g /\ nr g = 1 /\ m - / (INR n + 1) <= q g).
  { intros n. apply NNPP. intros NX. assert (P : 0 < / (INR n + 1)) by (apply Rinv_0_lt_compat; pose proof (pos_INR n); lra).
    assert (m <= m - / (INR n + 1)); [|lra]. apply M2. intros x (g & G1 & G2 & <-). apply Rnot_lt_le. intros L. apply NX. exists g. repeat split; [exact G1|exact G2|lra]. }
  destruct (functional_choice (fun (n : nat) g => away es g /\ nr g = 1 /\ m - / (INR n + 1) <= q g) AP) as [F HF].
  destruct (converge F (fun n => proj1 (proj2 (HF n))) basis (incl_refl _)) as (p & L & P1 & P2).
  assert (CQ : ccv (fun n => br (F (p n)) (O (F (p n)))) (br L (O L))).
  { apply ccv_br; [exact P2|]. intros s Hs. rewrite (O_value L s Hs). apply (ccv_ext (fun n => br (O (point s)) (F (p n)))); [intros n; now rewrite (O_value _ s Hs)|]. apply ccv_br; [intros; apply ccv_const|exact P2]. }
  exists L, m. split; [|split; [|split]].
  - intros e v Hin. apply (ccv_same (fun n => br v (F (p n)))); [apply ccv_br; [intros; apply ccv_const|exact P2]|]. apply (ccv_ext (fun _ => C0)); [|apply ccv_const]. intros n. symmetry. exact (proj1 (HF (p n)) e v Hin).
  - apply RtoC_inj. unfold nr. rewrite <- braket_self. fold br. apply (ccv_same (fun n => br (F (p n)) (F (p n)))); [now apply ccv_br|]. apply (ccv_ext (fun _ => RtoC 1)); [|apply ccv_const].
    intros n. unfold br. rewrite braket_self. fold nr. now rewrite (proj1 (proj2 (HF (p n)))).
  - apply (UL_sequence _ _ _ (proj1 CQ)). intros e He. destruct (archimed_cor1 e He) as (N & HN1 & HN2). exists N. intros n Hn. unfold R_dist. fold (q (F (p n))).
    destruct (HF (p n)) as (H1 & H2 & H3). pose proof (M1 (q (F (p n))) ltac:(exists (F (p n)); tauto)) as UB.
    assert (IN : / (INR (p n) + 1) <= / INR N). { apply Rinv_le_contravar; [apply lt_0_INR; lia|]. pose proof (increasing_ge p P1 n) as Q. assert (N <= p n)%nat as Q2 by lia. apply le_INR in Q2. lra. }
    apply Rabs_def1; lra.
  - intros g G1 G2. apply M1. now exists g.
Qed.

Lemma next es f0 : good es -> away es f0 -> nr f0 <> 0 -> exists e v, good ((e, v) :: es).
Proof.
  intros G A0 N0. destruct (maximiser es f0 A0 N0) as (f & m & F1 & F2 & F3 & F4). exists m, f. cbn [good]. split; [exact F2|]. split; [|split; [exact F1|exact G]].
  (* m |g|^2 - <g|O g> is not negative in the subspace *)
  assert (PS : forall g, away es g -> q g <= m * nr g).
  { intros g Hg. destruct (Req_dec (nr g) 0) as [Z|NZ].
    - rewrite Z, Rmult_0_r. assert (QZ : br g (O g) = C0).
      { unfold br, braket. rewrite <- (csum_zero basis). apply csum_ext. intros s Hs. rewrite (nr_zero g Z s Hs). apply C_eq; cbn; ring. }
      unfold q. rewrite QZ. cbn. lra.
    - assert (NP : 0 < nr g) by (pose proof (norm2_nonneg basis g) as Q; fold nr in Q; lra). set (a := / sqrt (nr g)). pose proof (sqrt_lt_R0 _ NP) as SP. pose proof (sqrt_sqrt (nr g) ltac:(lra)) as SS.
      assert (AA : a * a * nr g = 1) by (unfold a; rewrite <- SS at 3; field; lra).
      pose proof (F4 (fun s => (RtoC a * g s)%C)) as Q. assert (Q1 : away es (fun s => (RtoC a * g s)%C)) by (intros e v Hin; unfold br; rewrite braket_scal_r; fold br; rewrite (Hg e v Hin); ring).
      assert (Q2 : nr (fun s => (RtoC a * g s)%C) = 1) by (unfold nr; rewrite norm2_scal, Cnorm2_RtoC; fold nr; exact AA). specialize (Q Q1 Q2).
      assert (QS : q (fun s => (RtoC a * g s)%C) = a * a * q g).
      { unfold q. unfold br at 1. rewrite (value_scal basis O Hh). fold br. rewrite Cnorm2_RtoC. generalize (br g (O g)). intros [x y]. unfold RtoC, Cmul. cbn. ring. }
      rewrite QS in Q. assert (AP : 0 < a) by (apply Rinv_0_lt_compat; exact SP). apply (Rmult_le_reg_l (a * a)); [nra|]. replace (a * a * (m * nr g)) with (m * (a * a * nr g)) by ring. rewrite AA. lra. }
  set (r := fun s => (RtoC m * f s + (- C1) * O f s)%C).
  assert (RA : away es r).
  { intros e v Hin. unfold r, br. rewrite braket_add_r, !braket_scal_r. fold br. rewrite (F1 e v Hin).
    assert (Z : br v (O f) = C0).
    { unfold br. rewrite (Hh v f). rewrite (braket_ext basis f f (O v) (fun s => RtoC e * v s)%C); [|reflexivity|exact (proj2 (good_eigen es G e v Hin))]. rewrite braket_scal_r, (braket_conj basis f v). fold br. rewrite (F1 e v Hin). apply C_eq; cbn; ring. }
    rewrite Z. ring. }
  assert (RF : br r r = (RtoC m * br r f - br r (O f))%C) by (unfold r at 2; unfold br; rewrite braket_add_r, !braket_scal_r; ring).
  assert (RR : br r r = RtoC (nr r)) by apply braket_self.
  assert (EXP : forall t, 0 <= 2 * t * nr r + t * t * (m * nr r - q r)).
  { intros t. pose proof (PS (fun s => (f s + RtoC t * r s)%C)) as Q. assert (Q1 : away es (fun s => (f s + RtoC t * r s)%C)) by (intros e v Hin; unfold br; rewrite braket_add_r, braket_scal_r; fold br; rewrite (F1 e v Hin), (RA e v Hin); ring). specialize (Q Q1).
    assert (QE : q (fun s => (f s + RtoC t * r s)%C) = q f + 2 * t * Re (br r (O f)) + t * t * q r).
    { unfold q at 1. rewrite br_O_add. unfold br at 1 2. rewrite !braket_add_l, !braket_scal_l. fold br. unfold q. assert (HC : br f (O r) = Cconj (br r (O f))) by apply (Hh f r). rewrite HC.
      generalize (br f (O f)), (br r (O f)), (br r (O r)). intros [x1 y1] [x2 y2] [x3 y3]. unfold Cadd, Cmul, Cconj, RtoC. cbn. ring. }
    assert (NE : nr (fun s => (f s + RtoC t * r s)%C) = nr f + 2 * t * Re (br r f) + t * t * nr r).
    { apply RtoC_inj. unfold nr at 1. rewrite <- braket_self. rewrite braket_add_l, braket_scal_l, !braket_add_r, !braket_scal_r. rewrite (braket_conj basis f r), !braket_self. fold br nr.
      generalize (br r f), (nr f), (nr r). intros [x2 y2] a b. unfold Cadd, Cmul, Cconj, RtoC. cbn. f_equal; ring. }
    rewrite QE, NE, F3, F2 in Q. pose proof RF as RF'. rewrite RR in RF'. apply (f_equal Re) in RF'. revert RF' Q. generalize (br r f), (br r (O f)). intros [x1 y1] [x2 y2]. unfold Csub, Copp, Cadd, Cmul, RtoC. cbn. intros RF' Q. nra. }
  assert (NZ : nr r = 0).
  { pose proof (norm2_nonneg basis r) as P0. fold nr in P0. destruct (Req_dec (nr r) 0) as [|NZ]; [assumption|exfalso]. assert (NP : 0 < nr r) by lra.
    set (D := m * nr r - q r) in *. assert (D0 : 0 <= D) by (pose proof (PS r RA); unfold D; lra).
    specialize (EXP (- nr r / (D + 1))). set (x := / (D + 1)). assert (XP : 0 < x) by (apply Rinv_0_lt_compat; lra). assert (XD : x * D = 1 - x) by (unfold x; field; lra).
    replace (2 * (- nr r / (D + 1)) * nr r + - nr r / (D + 1) * (- nr r / (D + 1)) * D) with (nr r * nr r * x * (x * D - 2)) in EXP by (unfold x; field; lra). rewrite XD in EXP.
    assert (0 < nr r * nr r * x) by (repeat apply Rmult_lt_0_compat; assumption). nra. }
  intros s Hs. pose proof (nr_zero r NZ s Hs) as Z. unfold r in Z. replace (O f s) with (RtoC m * f s - (RtoC m * f s + - C1 * O f s))%C by ring. rewrite Z. ring.
Qed.

Lemma spectral : exists es, eigensystem basis O es.
Proof.
  assert (K : forall k, exists es, good es /\ (length es = k \/ forall f, away es f -> nr f = 0)).
  { induction k as [|k (es & G & IH)]; [exists []; split; [exact I|now left]|]. destruct IH as [IH|IH]; [|exists es; tauto].
    destruct (classic (exists f, away es f /\ nr f <> 0)) as [(f & A & N)|NX].
    - destruct (next es f G A N) as (e & v & G'). exists ((e, v) :: es). split; [exact G'|left; cbn; now rewrite IH].
    - exists es. split; [exact G|right]. intros f Hf. apply NNPP. intros Q. apply NX. now exists f. }
  destruct (K (Datatypes.S (length basis))) as (es & G & [L|F]); [pose proof (good_length es G); lia|].
  exists es. split; [intros e v Hin; now apply (good_eigen es G)|]. intros f. destruct (projection es G f) as (g & A & P & _). fold nr. rewrite P, (F g A). fold br. ring.
Qed.
End Spectral.
