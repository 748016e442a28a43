(** The part of an N-spin matrix that a matrix on the sites l sees. *)
From Coq Require Import String List Reals Bool Arith Lia Lra Permutation.
From Verif Require Import Base Cplx Povm_Spec Povm_Proofs Povm3_Proofs PovmOp_Spec PovmOp_Proofs Many_Spec Many_Proofs.
Import ListNotations.
Local Open Scope R_scope.

Section Sites.
  Variables (N : nat) (l : list nat).
  Hypothesis nd : NoDup l.
  Hypothesis inside : forall i, In i l -> (i < N)%nat.
  Let m := length l.

  Lemma on_words q x : (0 < q)%nat -> In x (words q N) -> In (on x l) (words q m).
  Proof.
    intros Hq H. apply in_words. split; [unfold on, m; now rewrite map_length|]. intros v Hv. unfold on in Hv. apply in_map_iff in Hv as (i & <- & _). now apply (words_nth q N).
  Qed.
  Lemma find_combine (b : list nat) i k : length b = m -> (k < m)%nat -> nth k l 0%nat = i ->
    find (fun p => Nat.eqb (fst p) i) (combine l b) = Some (i, nth k b 0%nat).
  Proof.
    unfold m in *. clear inside. revert b k. induction l as [|j l' IH]; intros b k Hb Hk E; [cbn in Hk; lia|]. destruct b as [|v b]; [discriminate|]. inversion nd as [|? ? H1 H2]; subst.
    cbn [combine find fst]. destruct k as [|k].
    - cbn [nth]. now rewrite Nat.eqb_refl.
    - cbn [nth]. cbn in Hk, Hb. destruct (Nat.eqb_spec j (nth k l' 0%nat)) as [->|_]; [exfalso; apply H1; apply nth_In; lia|]. apply IH; [exact H2|lia|lia|reflexivity].
  Qed.
  Lemma find_combine_out (b : list nat) i : ~ In i l -> find (fun p => Nat.eqb (fst p) i) (combine l b) = None.
  Proof.
    clear nd inside m. revert b. induction l as [|j l' IH]; intros b H; [reflexivity|]. destruct b as [|v b]; [reflexivity|]. cbn. destruct (Nat.eqb_spec j i) as [->|_]; [exfalso; apply H; now left|]. apply IH. intros Hi. apply H. now right.
  Qed.
  Lemma replaced_in x u k : length x = N -> length u = m -> (k < m)%nat -> nth (nth k l 0%nat) (replaced x l u) 0%nat = nth k u 0%nat.
  Proof.
    intros Hx Hu Hk. unfold replaced. assert (Hi : (nth k l 0 < N)%nat) by (apply inside, nth_In; exact Hk).
    rewrite Hx. rewrite nth_map_seq_ by exact Hi. now rewrite (find_combine u _ k Hu Hk eq_refl).
  Qed.
  Lemma replaced_out x u i : length x = N -> ~ In i l -> nth i (replaced x l u) 0%nat = nth i x 0%nat.
  Proof.
    intros Hx Hi. unfold replaced. rewrite Hx. destruct (Nat.lt_ge_cases i N) as [H|H].
    - rewrite nth_map_seq_ by exact H. now rewrite find_combine_out.
    - rewrite !nth_overflow; [reflexivity|lia|rewrite map_length, seq_length; lia].
  Qed.
  Lemma replaced_len x u : length (replaced x l u) = length x.
  Proof. unfold replaced. now rewrite map_length, seq_length. Qed.
  Lemma replaced_words q x u : (0 < q)%nat -> In x (words q N) -> In u (words q m) -> In (replaced x l u) (words q N).
  Proof.
    intros Hq Hx Hu. pose proof Hx as Hx'. pose proof Hu as Hu'. apply in_words in Hx' as [X1 _]. apply in_words in Hu' as [U1 _].
    apply in_words. split; [now rewrite replaced_len|]. intros v Hv. apply (In_nth _ _ 0%nat) in Hv as (i & _ & <-).
    destruct (in_dec Nat.eq_dec i l) as [H|H].
    - apply (In_nth _ _ 0%nat) in H as (k & Hk & <-). rewrite replaced_in by assumption. now apply (words_nth q m).
    - rewrite replaced_out by assumption. now apply (words_nth q N).
  Qed.
  Lemma on_replaced x u : length x = N -> length u = m -> on (replaced x l u) l = u.
  Proof.
    intros Hx Hu. unfold on. apply nth_ext with (d := nth 0 (replaced x l u) 0%nat) (d' := 0%nat); [now rewrite map_length|]. intros k Hk. rewrite map_length in Hk.
    rewrite (map_nth (fun i => nth i (replaced x l u) 0%nat)). now apply replaced_in.
  Qed.
  Lemma agree_off_iff x y : agree_off N l x y = true <-> forall i, (i < N)%nat -> ~ In i l -> nth i x 0%nat = nth i y 0%nat.
  Proof.
    unfold agree_off. rewrite forallb_forall. split.
    - intros H i Hi Hn. specialize (H i ltac:(apply in_seq; lia)). apply orb_true_iff in H as [H|H]; [|now apply Nat.eqb_eq]. apply existsb_exists in H as (j & Hj & E). apply Nat.eqb_eq in E as ->. contradiction.
    - intros H i Hi. apply in_seq in Hi. apply orb_true_iff. destruct (in_dec Nat.eq_dec i l) as [Hl|Hl].
      + left. apply existsb_exists. exists i. split; [exact Hl|apply Nat.eqb_refl].
      + right. apply Nat.eqb_eq. apply H; [lia|exact Hl].
  Qed.
  Lemma agree_off_sym x y : agree_off N l x y = agree_off N l y x.
  Proof. apply eq_true_iff_eq. rewrite !agree_off_iff. split; intros H i Hi Hn; symmetry; now apply H. Qed.
  Lemma replaced_unique x z u : length x = N -> length z = N -> length u = m -> on x l = u -> agree_off N l x z = true -> x = replaced z l u.
  Proof.
    intros Hx Hz Hu <- HA. apply nth_ext with (d := 0%nat) (d' := 0%nat); [now rewrite replaced_len, Hz|]. intros i Hi. rewrite Hx in Hi.
    destruct (in_dec Nat.eq_dec i l) as [H|H].
    - apply (In_nth _ _ 0%nat) in H as (k & Hk & <-). rewrite replaced_in by assumption. unfold on. rewrite (nth_indep (map (fun i => nth i x 0%nat) l) 0%nat (nth 0 x 0%nat)) by (rewrite map_length; exact Hk). now rewrite (map_nth (fun i => nth i x 0%nat)).
    - rewrite replaced_out by assumption. rewrite agree_off_iff in HA. now apply HA.
  Qed.
  Lemma replaced_on a : length a = N -> replaced a l (on a l) = a.
  Proof. intros H. symmetry. apply replaced_unique; try assumption; [unfold on; now rewrite map_length|reflexivity|]. apply agree_off_iff. reflexivity. Qed.
  Lemma agree_replaced x u : length x = N -> agree_off N l (replaced x l u) x = true.
  Proof. intros H. apply agree_off_iff. intros i _ Hi. now apply replaced_out. Qed.

  (** ** a weight of the other sites *)
  Variable rw : list nat -> list nat -> C.
  Hypothesis rw_off : forall x y x' y', length x = N -> length y = N -> length x' = N -> length y' = N ->
    agree_off N l x x' = true -> agree_off N l y y' = true -> rw x y = rw x' y'.

  Definition seen (X : mmat) (u v : list nat) : C :=
    over 2 N (fun x => over 2 N (fun y => (dl (on x l) u * dl (on y l) v * (X x y * rw y x))%C)).
  Definition local (X : mmat) : mat := fun i j => seen X (undig 2 m i) (undig 2 m j).
  Lemma local_dig X u v : In u (words 2 m) -> In v (words 2 m) -> local X (digits2 u) (digits2 v) = seen X u v.
  Proof. intros Hu Hv. unfold local. rewrite !dig2, !undig_dig by assumption. reflexivity. Qed.

  Lemma seen_sum X g : over 2 m (fun u => over 2 m (fun v => (seen X u v * g u v)%C)) =
    over 2 N (fun x => over 2 N (fun y => (X x y * rw y x * g (on x l) (on y l))%C)).
  Proof.
    transitivity (over 2 m (fun u => over 2 m (fun v => over 2 N (fun x => over 2 N (fun y => (dl (on x l) u * (dl (on y l) v * (X x y * rw y x * g u v)))%C))))).
    { apply over_ext. intros u _. apply over_ext. intros v _. unfold seen. rewrite <- over_scal_r. apply over_ext. intros x _. rewrite <- over_scal_r. apply over_ext. intros y _. ring. }
    rewrite (over_ext 2 m _ (fun u => over 2 N (fun x => over 2 N (fun y => (dl (on x l) u * (over 2 m (fun v => dl (on y l) v * (X x y * rw y x * g u v))))%C)))).
    - rewrite over_swap. apply over_ext. intros x Hx. rewrite over_swap. apply over_ext. intros y Hy.
      rewrite (over_dl 2 m (on x l) (fun u => over 2 m (fun v => (dl (on y l) v * (X x y * rw y x * g u v))%C))) by (apply on_words; [lia|exact Hx]).
      apply (over_dl 2 m (on y l) (fun v => (X x y * rw y x * g (on x l) v)%C)). apply on_words; [lia|exact Hy].
    - intros u _. rewrite over_swap. apply over_ext. intros x _. rewrite over_swap. apply over_ext. intros y _. now rewrite over_scal.
  Qed.
  Lemma len_words q n x : In x (words q n) -> length x = n.
  Proof. intros H. now apply in_words in H as [H _]. Qed.
  (** matrices on the sites l act on what is seen *)
  Lemma pick_left A u z y : In u (words 2 m) -> In z (words 2 N) -> In y (words 2 N) ->
    over 2 N (fun x => (dl (on x l) u * (embedded N A l x z * rw y x))%C) = (A (digits2 u) (digits2 (on z l)) * rw y z)%C.
  Proof.
    intros Hu Hz Hy. pose proof (len_words _ _ _ Hu) as Lu. pose proof (len_words _ _ _ Hz) as Lz. pose proof (len_words _ _ _ Hy) as Ly.
    rewrite (over_single 2 N (replaced z l u)).
    - rewrite on_replaced, dl_refl by assumption. unfold embedded. rewrite agree_replaced, on_replaced by assumption.
      rewrite (rw_off y (replaced z l u) y z); try assumption; [ring|now rewrite replaced_len|apply agree_off_iff; reflexivity|now apply agree_replaced].
    - apply replaced_words; [lia|exact Hz|exact Hu].
    - intros x Hx Hne. pose proof (len_words _ _ _ Hx) as Lx. unfold dl. destruct (list_eq_dec Nat.eq_dec (on x l) u) as [E|_]; [|ring]. unfold embedded. destruct (agree_off N l x z) eqn:EA; [|ring].
      exfalso. apply Hne. now apply replaced_unique.
  Qed.
  Lemma pick_right A v z x : In v (words 2 m) -> In z (words 2 N) -> In x (words 2 N) ->
    over 2 N (fun y => (dl (on y l) v * (embedded N A l z y * rw y x))%C) = (A (digits2 (on z l)) (digits2 v) * rw z x)%C.
  Proof.
    intros Hu Hz Hy. pose proof (len_words _ _ _ Hu) as Lu. pose proof (len_words _ _ _ Hz) as Lz. pose proof (len_words _ _ _ Hy) as Ly.
    rewrite (over_single 2 N (replaced z l v)).
    - rewrite on_replaced, dl_refl by assumption. unfold embedded. rewrite agree_off_sym, agree_replaced, on_replaced by assumption.
      rewrite (rw_off (replaced z l v) x z x); try assumption; [ring|now rewrite replaced_len|now apply agree_replaced|apply agree_off_iff; reflexivity].
    - apply replaced_words; [lia|exact Hz|exact Hu].
    - intros y Hx Hne. pose proof (len_words _ _ _ Hx) as Lx. unfold dl. destruct (list_eq_dec Nat.eq_dec (on y l) v) as [E|_]; [|ring]. unfold embedded. rewrite agree_off_sym. destruct (agree_off N l y z) eqn:EA; [|ring].
      exfalso. apply Hne. now apply replaced_unique.
  Qed.
  Lemma seen_left A X u v : In u (words 2 m) -> In v (words 2 m) ->
    seen (mmul N (embedded N A l) X) u v = over 2 m (fun w => (A (digits2 u) (digits2 w) * seen X w v)%C).
  Proof.
    intros Hu Hv. transitivity (over 2 m (fun w => over 2 m (fun v' => (seen X w v' * (A (digits2 u) (digits2 w) * dl v v'))%C))).
    - rewrite (seen_sum X (fun w v' => (A (digits2 u) (digits2 w) * dl v v')%C)). unfold seen, mmul.
      rewrite (over_ext 2 N (fun x => over 2 N (fun y => (dl (on x l) u * dl (on y l) v * (over 2 N (fun z => (embedded N A l x z * X z y)%C) * rw y x))%C))
        (fun x => over 2 N (fun y => over 2 N (fun z => (X z y * dl (on y l) v * (dl (on x l) u * (embedded N A l x z * rw y x)))%C)))).
      + rewrite over_swap. rewrite (over_ext 2 N _ (fun y => over 2 N (fun z => (X z y * dl (on y l) v * over 2 N (fun x => (dl (on x l) u * (embedded N A l x z * rw y x))%C))%C))).
        * rewrite over_swap. apply over_ext. intros z Hz. apply over_ext. intros y Hy. rewrite pick_left by assumption. rewrite (dl_sym v). ring.
        * intros y Hy. rewrite over_swap. apply over_ext. intros z Hz. now rewrite over_scal.
      + intros x _. apply over_ext. intros y _. rewrite <- over_scal_r, <- over_scal. apply over_ext. intros z _. ring.
    - apply over_ext. intros w Hw. rewrite (over_ext 2 m _ (fun v' => (dl v v' * (A (digits2 u) (digits2 w) * seen X w v'))%C)) by (intros; ring). now rewrite over_dl.
  Qed.
  Lemma seen_right A X u v : In u (words 2 m) -> In v (words 2 m) ->
    seen (mmul N X (embedded N A l)) u v = over 2 m (fun w => (seen X u w * A (digits2 w) (digits2 v))%C).
  Proof.
    intros Hu Hv. transitivity (over 2 m (fun u' => over 2 m (fun w => (seen X u' w * (A (digits2 w) (digits2 v) * dl u u'))%C))).
    - rewrite (seen_sum X (fun u' w => (A (digits2 w) (digits2 v) * dl u u')%C)). unfold seen, mmul.
      apply over_ext. intros x Hx.
      rewrite (over_ext 2 N _ (fun y => over 2 N (fun z => (X x z * dl (on x l) u * (dl (on y l) v * (embedded N A l z y * rw y x)))%C))).
      + rewrite over_swap. apply over_ext. intros z Hz. rewrite over_scal, pick_right by assumption. rewrite (dl_sym u). ring.
      + intros y _. rewrite <- over_scal_r, <- over_scal. apply over_ext. intros z _. ring.
    - rewrite over_swap. apply over_ext. intros w Hw. rewrite (over_ext 2 m _ (fun u' => (dl u u' * (seen X u' w * A (digits2 w) (digits2 v)))%C)) by (intros; ring). now rewrite (over_dl 2 m u (fun u' => (seen X u' w * A (digits2 w) (digits2 v))%C)).
  Qed.
  Lemma undig_words i : (i < 2 ^ m)%nat -> In (undig 2 m i) (words 2 m) /\ digits2 (undig 2 m i) = i.
  Proof. intros H. rewrite dig2. now apply dig_undig; [lia|]. Qed.
  Lemma local_left A X : same (2 ^ m) (local (mmul N (embedded N A l) X)) (mul (2 ^ m) A (local X)).
  Proof.
    intros i j Hi Hj. destruct (undig_words i Hi) as [I1 I2], (undig_words j Hj) as [J1 J2]. unfold local at 1. rewrite seen_left by assumption. unfold mul. rewrite csumn_words. apply over_ext. intros w Hw.
    rewrite I2, <- dig2. rewrite <- J2 at 2. now rewrite local_dig.
  Qed.
  Lemma local_right A X : same (2 ^ m) (local (mmul N X (embedded N A l))) (mul (2 ^ m) (local X) A).
  Proof.
    intros i j Hi Hj. destruct (undig_words i Hi) as [I1 I2], (undig_words j Hj) as [J1 J2]. unfold local at 1. rewrite seen_right by assumption. unfold mul. rewrite csumn_words. apply over_ext. intros w Hw.
    rewrite J2, <- dig2. rewrite <- I2 at 2. now rewrite local_dig.
  Qed.
  Lemma local_add X Y i j : local (mplus X Y) i j = (local X i j + local Y i j)%C.
  Proof. unfold local, seen, mplus. rewrite <- over_add. apply over_ext. intros x _. rewrite <- over_add. apply over_ext. intros y _. ring. Qed.
  Lemma local_times c X i j : local (mtimes c X) i j = (c * local X i j)%C.
  Proof. unfold local, seen, mtimes. rewrite <- over_scal. apply over_ext. intros x _. rewrite <- over_scal. apply over_ext. intros y _. ring. Qed.
  Lemma local_ext X Y : (forall x y, In x (words 2 N) -> In y (words 2 N) -> X x y = Y x y) -> forall i j, local X i j = local Y i j.
  Proof. intros H i j. unfold local, seen. apply over_ext. intros x Hx. apply over_ext. intros y Hy. now rewrite H. Qed.
  Lemma dl_conj u v : Cconj (dl u v) = dl u v.
  Proof. unfold dl. destruct (list_eq_dec Nat.eq_dec u v); [apply Cconj_C1|apply Cconj_C0]. Qed.
  Lemma local_hermitian X : mhermitian N X -> (forall x y, In x (words 2 N) -> In y (words 2 N) -> Cconj (rw x y) = rw y x) -> hermitian (2 ^ m) (local X).
  Proof.
    intros HX HR i j _ _. unfold dagger, local, seen. rewrite over_conj. rewrite (over_ext 2 N _ (fun x => over 2 N (fun y => (dl (on x l) (undig 2 m j) * dl (on y l) (undig 2 m i) * (Cconj (X x y) * Cconj (rw y x)))%C))).
    - rewrite over_swap. apply over_ext. intros y Hy. apply over_ext. intros x Hx. rewrite HR by assumption. rewrite <- (HX y x Hy Hx). unfold mdagger. ring.
    - intros x _. rewrite over_conj. apply over_ext. intros y _. now rewrite !Cconj_mul, !dl_conj.
  Qed.
  Lemma mmul_assoc X Y Z x y : mmul N (mmul N X Y) Z x y = mmul N X (mmul N Y Z) x y.
  Proof.
    unfold mmul. rewrite (over_ext 2 N (fun z => (over 2 N (fun w => (X x w * Y w z)%C) * Z z y)%C) (fun z => over 2 N (fun w => (X x w * (Y w z * Z z y))%C))).
    - rewrite over_swap. apply over_ext. intros w _. now rewrite over_scal.
    - intros z _. rewrite <- over_scal_r. apply over_ext. intros w _. ring.
  Qed.
  Lemma mdagger_embedded A x y : mdagger (embedded N A l) x y = embedded N (dagger A) l x y.
  Proof. unfold mdagger, embedded, dagger. rewrite agree_off_sym. destruct (agree_off N l x y); [reflexivity|apply Cconj_C0]. Qed.

  (** the generators on one matrix *)
  Definition lflow (d : nat) (k : dynamics) (A rho : mat) : mat :=
    match k with Coherent => von_neumann d A rho | Dissipation => lindblad d A rho | Cooling => times (- C1)%C (anticommutator d A rho) end.
  Lemma local_flow k A X : same (2 ^ m) (local (flow N k (embedded N A l) X)) (lflow (2 ^ m) k A (local X)).
  Proof.
    set (E := embedded N A l). set (E' := embedded N (dagger A) l).
    assert (SL : same (2 ^ m) (local X) (local X)) by (intros ? ? _ _; reflexivity).
    assert (SA : forall B, same (2 ^ m) B B) by (intros ? ? ? _ _; reflexivity).
    destruct k; intros i j Hi Hj; cbn [flow lflow].
    - rewrite local_times, local_add, local_times. unfold von_neumann, commutator, times, plus. unfold E. rewrite local_left, local_right by assumption. reflexivity.
    - rewrite local_add, local_times, local_add.
      assert (D1 : local (mmul N (mmul N E X) (mdagger E)) i j = mul (2 ^ m) (mul (2 ^ m) A (local X)) (dagger A) i j).
      { rewrite (local_ext _ (mmul N (mmul N E X) E')).
        - unfold E'. rewrite local_right by assumption. apply mul_same; try assumption; [apply local_left|apply SA].
        - intros x y _ _. unfold mmul at 1 3. apply over_ext. intros z _. unfold E, E'. now rewrite mdagger_embedded. }
      assert (D2 : local (mmul N (mmul N (mdagger E) E) X) i j = mul (2 ^ m) (mul (2 ^ m) (dagger A) A) (local X) i j).
      { rewrite (local_ext _ (mmul N E' (mmul N E X))).
        - unfold E'. rewrite local_left, mul_assoc by assumption. apply mul_same; try assumption; [apply SA|apply local_left].
        - intros x y _ _. rewrite mmul_assoc. unfold mmul at 1 3. apply over_ext. intros z _. unfold E, E'. now rewrite mdagger_embedded. }
      assert (D3 : local (mmul N X (mmul N (mdagger E) E)) i j = mul (2 ^ m) (local X) (mul (2 ^ m) (dagger A) A) i j).
      { rewrite (local_ext _ (mmul N (mmul N X E') E)).
        - unfold E. rewrite local_right, <- mul_assoc by assumption. apply mul_same; try assumption; [apply local_right|apply SA].
        - intros x y _ _. rewrite mmul_assoc. unfold mmul at 1 3. apply over_ext. intros z _. f_equal. unfold mmul. apply over_ext. intros w _. unfold E, E'. now rewrite mdagger_embedded. }
      rewrite D1, D2, D3. reflexivity.
    - rewrite local_times, local_add. unfold anticommutator, times, plus. unfold E. rewrite local_left, local_right by assumption. reflexivity.
  Qed.
  (** traces against a matrix that is the weight times a matrix on the sites l *)
  Lemma local_trace X K Q : (forall x y, In x (words 2 N) -> In y (words 2 N) -> Q y x = (rw y x * K (digits2 (on y l)) (digits2 (on x l)))%C) ->
    mtr N (mmul N X Q) = tr (2 ^ m) (mul (2 ^ m) (local X) K).
  Proof.
    intros HQ. unfold tr, mul. rewrite csumn_words. transitivity (over 2 m (fun u => over 2 m (fun v => (seen X u v * K (digits2 v) (digits2 u))%C))).
    - rewrite (seen_sum X (fun u v => K (digits2 v) (digits2 u))). unfold mtr, mmul. apply over_ext. intros x Hx. apply over_ext. intros y Hy. rewrite HQ by assumption. ring.
    - apply over_ext. intros u Hu. rewrite csumn_words. apply over_ext. intros v Hv. rewrite <- !dig2. now rewrite local_dig.
  Qed.
End Sites.
Lemma mtr_comm N X Y : mtr N (mmul N X Y) = mtr N (mmul N Y X).
Proof. unfold mtr, mmul. rewrite over_swap. apply over_ext. intros x _. apply over_ext. intros y _. ring. Qed.
