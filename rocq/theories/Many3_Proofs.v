(** Product measurements and POVM operators on N spins. *)
From Coq Require Import String List Reals Bool Arith Lia Lra Permutation.
From Verif Require Import Base Cplx Povm_Model Povm_Spec Povm_Proofs Povm3_Proofs PovmOp_Spec PovmOp_Proofs Many_Spec Many_Proofs Many2_Proofs.
Import ListNotations.
Local Open Scope R_scope.

Section Elements.
  Variables (N : nat) (l : list nat).
  Hypothesis nd : NoDup l.
  Hypothesis inside : forall i, In i l -> (i < N)%nat.
  Let m := length l.
  Variables (M fam : nat -> mat).
  Hypothesis family : forall b u v, In b (words 4 m) -> In u (words 2 m) -> In v (words 2 m) ->
    fam (digits4 b) (digits2 u) (digits2 v) = cprod (map (fun k => M (nth k b 0%nat) (nth k u 0%nat) (nth k v 0%nat)) (seq 0 m)).
  Hypothesis herm : forall a, (a < 4)%nat -> hermitian 2 (M a).

  Definition others : list nat := filter (fun i => negb (existsb (Nat.eqb i) l)) (seq 0 N).
  Lemma others_in i : In i others <-> (i < N)%nat /\ ~ In i l.
  Proof.
    unfold others. rewrite filter_In, in_seq, negb_true_iff. split.
    - intros [H1 H2]. split; [lia|]. intros H. assert (existsb (Nat.eqb i) l = true) by (apply existsb_exists; exists i; split; [exact H|apply Nat.eqb_refl]). congruence.
    - intros [H1 H2]. split; [lia|]. apply not_true_iff_false. intros H. apply existsb_exists in H as (j & Hj & E). apply Nat.eqb_eq in E as ->. contradiction.
  Qed.
  Lemma sites_split : Permutation (seq 0 N) (l ++ others).
  Proof.
    apply NoDup_Permutation; [apply seq_NoDup| |].
    - apply NoDup_app_intro_; [exact nd|apply NoDup_filter, seq_NoDup|]. intros i H1 H2. now apply others_in in H2 as [_ H2].
    - intros i. rewrite in_app_iff, others_in, in_seq. split.
      + intros H. destruct (in_dec Nat.eq_dec i l) as [Hi|Hi]; [now left|right; split; [lia|exact Hi]].
      + intros [H|[H _]]; [specialize (inside i H)|]; lia.
  Qed.
  Lemma cprod_sites (f : nat -> C) : cprod (map f (seq 0 N)) = (cprod (map f others) * cprod (map f l))%C.
  Proof. rewrite (cprod_perm _ _ (Permutation_map f sites_split)), map_app, cprod_app. ring. Qed.
  Lemma nth_on x k : (k < m)%nat -> nth k (on x l) 0%nat = nth (nth k l 0%nat) x 0%nat.
  Proof. intros H. unfold on. rewrite (nth_indep (map (fun i => nth i x 0%nat) l) 0%nat (nth 0 x 0%nat)) by (rewrite map_length; exact H). now rewrite (map_nth (fun i => nth i x 0%nat)). Qed.
  Lemma fam_on a x y : In a (words 4 N) -> In x (words 2 N) -> In y (words 2 N) ->
    cprod (map (fun i => M (nth i a 0%nat) (nth i x 0%nat) (nth i y 0%nat)) l) = fam (digits4 (on a l)) (digits2 (on x l)) (digits2 (on y l)).
  Proof.
    intros Ha Hx Hy. rewrite family; [|apply (on_words N l 4); [lia|exact Ha]|apply (on_words N l 2); [lia|exact Hx]|apply (on_words N l 2); [lia|exact Hy]].
    rewrite <- (map_nth_seq_ (fun i => M (nth i a 0%nat) (nth i x 0%nat) (nth i y 0%nat)) l). apply cprod_ext. intros k Hk. apply in_seq in Hk. now rewrite !nth_on by (unfold m; lia).
  Qed.

  (** ** the weight of the outcomes on the other sites *)
  Definition restw (a y x : list nat) : C := cprod (map (fun i => M (nth i a 0%nat) (nth i y 0%nat) (nth i x 0%nat)) others).
  Lemma restw_off a x y x' y' : agree_off N l x x' = true -> agree_off N l y y' = true -> restw a x y = restw a x' y'.
  Proof. rewrite !agree_off_iff. intros H1 H2. apply cprod_ext. intros i Hi. apply others_in in Hi as [H3 H4]. now rewrite H1, H2. Qed.
  Lemma element_split a b x y : In a (words 4 N) -> In b (words 4 m) -> In x (words 2 N) -> In y (words 2 N) ->
    product_element N M (replaced a l b) y x = (restw a y x * fam (digits4 b) (digits2 (on y l)) (digits2 (on x l)))%C.
  Proof.
    intros Ha Hb Hx Hy. pose proof (len_words _ _ _ Ha) as La. pose proof (len_words _ _ _ Hb) as Lb. unfold product_element. rewrite cprod_sites. f_equal.
    - apply cprod_ext. intros i Hi. apply others_in in Hi as [_ Hi]. now rewrite (replaced_out N) by assumption.
    - rewrite fam_on; try assumption; [|now apply (replaced_words N l nd inside 4); [lia| |]]. now rewrite (on_replaced N l nd inside) by assumption.
  Qed.
  Lemma restw_herm a x y : In a (words 4 N) -> In x (words 2 N) -> In y (words 2 N) -> Cconj (restw a x y) = restw a y x.
  Proof.
    intros Ha Hx Hy. unfold restw. rewrite cprod_conj, map_map. apply cprod_ext. intros i _. apply (herm (nth i a 0%nat)); [apply (words_nth 4 N)|apply (words_nth 2 N)|apply (words_nth 2 N)]; try assumption; lia.
  Qed.

  (** W acts on the outcome probabilities of m spins as the generator acts on their states *)
  Definition implements (k : dynamics) (A : mat) (W : nat -> nat -> R) : Prop := forall sigma, hermitian (2 ^ m) sigma -> forall a, (a < 4 ^ m)%nat ->
    RtoC (rsumn (4 ^ m) (fun b => W a b * outcome_prob (2 ^ m) sigma fam b)) = tr (2 ^ m) (mul (2 ^ m) (fam a) (lflow (2 ^ m) k A sigma)).

  Lemma rsumn_words f : rsumn (4 ^ m) f = rsum (map (fun b => f (digits4 b)) (outcomes m)).
  Proof.
    rewrite outcomes_words. assert (E : RtoC (rsumn (4 ^ m) f) = RtoC (rsum (map (fun b => f (digits4 b)) (words 4 m)))).
    { rewrite <- csumn_RtoC, csumn_words. rewrite <- csum_RtoC, map_map. apply over_ext. intros b _. now rewrite dig4. }
    apply (f_equal Re) in E. exact E.
  Qed.
  Theorem acts_flow k A W rho a : implements k A W -> mhermitian N rho -> In a (words 4 N) ->
    RtoC (acts W l (probability N M rho) a) = mtr N (mmul N (product_element N M a) (flow N k (embedded N A l) rho)).
  Proof.
    intros HW HR Ha. pose proof (len_words _ _ _ Ha) as La.
    assert (OFF : forall x y x' y', length x = N -> length y = N -> length x' = N -> length y' = N -> agree_off N l x x' = true -> agree_off N l y y' = true -> restw a x y = restw a x' y') by (intros; now apply restw_off).
    set (sigma := local N l (restw a) rho).
    assert (HS : hermitian (2 ^ m) sigma). { apply local_hermitian; [exact HR|]. intros x y Hx Hy. now apply restw_herm. }
    assert (On : In (on a l) (words 4 m)) by (apply (on_words N l 4); [lia|exact Ha]).
    assert (P : forall b, In b (words 4 m) -> probability N M rho (replaced a l b) = outcome_prob (2 ^ m) sigma fam (digits4 b)).
    { intros b Hb. unfold probability, outcome_prob. f_equal. apply (local_trace N l (restw a)). intros x y Hx Hy. now apply element_split. }
    unfold acts. fold (on a l). fold m. rewrite (rsum_ext _ (fun b => W (digits4 (on a l)) (digits4 b) * outcome_prob (2 ^ m) sigma fam (digits4 b))).
    2: { intros b Hb. rewrite outcomes_words in Hb. now rewrite P. }
    rewrite <- (rsumn_words (fun b => W (digits4 (on a l)) b * outcome_prob (2 ^ m) sigma fam b)).
    rewrite (HW sigma HS) by (rewrite dig4; now apply dig_lt). rewrite mtr_comm.
    rewrite (local_trace N l (restw a) _ (fam (digits4 (on a l))) (product_element N M a)).
    - rewrite tr_comm. unfold tr. apply csumn_ext. intros i Hi. apply mul_same; try assumption; [|intros ? ? _ _; reflexivity].
      intros p q Hp Hq. symmetry. now apply local_flow.
    - intros x y Hx Hy. rewrite <- (replaced_on N l nd inside a La) at 1. now apply element_split.
  Qed.

  (** ** the weight of the trace over the other sites *)
  Definition tracew (y x : list nat) : C := if agree_off N l y x then C1 else C0.
  Lemma agree_off_trans x y z : agree_off N l x y = true -> agree_off N l y z = true -> agree_off N l x z = true.
  Proof. rewrite !agree_off_iff. intros H1 H2 i Hi Hn. now rewrite H1, H2. Qed.
  Lemma tracew_off x y x' y' : agree_off N l x x' = true -> agree_off N l y y' = true -> tracew x y = tracew x' y'.
  Proof.
    intros H1 H2. unfold tracew. replace (agree_off N l x' y') with (agree_off N l x y); [reflexivity|]. apply eq_true_iff_eq. split; intros H.
    - apply agree_off_trans with x; [now rewrite agree_off_sym|]. now apply agree_off_trans with y.
    - apply agree_off_trans with x'; [exact H1|]. apply agree_off_trans with y'; [exact H|]. now rewrite agree_off_sym.
  Qed.
  Hypothesis compl : complete 2 4 M.
  Lemma dl_product a b : length a = N -> length b = m ->
    dl (on a l) b = cprod (map (fun i => if existsb (Nat.eqb i) l then (if (nth i (replaced a l b) 0 =? nth i a 0)%nat then C1 else C0) else C1) (seq 0 N)).
  Proof.
    intros La Lb. unfold dl. destruct (list_eq_dec Nat.eq_dec (on a l) b) as [E|E].
    - symmetry. apply cprod_one. intros i _. destruct (existsb (Nat.eqb i) l); [|reflexivity]. rewrite <- E, (replaced_on N l nd inside) by exact La. now rewrite Nat.eqb_refl.
    - assert (exists k, (k < m)%nat /\ nth k (on a l) 0%nat <> nth k b 0%nat) as (k & Hk & Hne).
      { destruct (Forall_Exists_dec (fun k => nth k (on a l) 0%nat = nth k b 0%nat) (fun k => Nat.eq_dec _ _) (seq 0 m)) as [F|F].
        - exfalso. apply E. apply nth_ext with (d := 0%nat) (d' := 0%nat); [unfold on; rewrite map_length; symmetry; exact Lb|]. intros k Hk. unfold on in Hk. rewrite map_length in Hk. rewrite Forall_forall in F. apply F. apply in_seq. unfold m. lia.
        - apply Exists_exists in F as (k & Hk & F). apply in_seq in Hk. exists k. split; [lia|exact F]. }
      symmetry. rewrite nth_on in Hne by exact Hk. apply cprod_zero with (nth k l 0%nat).
      + apply in_seq. specialize (inside (nth k l 0%nat) ltac:(apply nth_In; exact Hk)). lia.
      + replace (existsb (Nat.eqb (nth k l 0%nat)) l) with true by (symmetry; apply existsb_exists; exists (nth k l 0%nat); split; [apply nth_In; exact Hk|apply Nat.eqb_refl]).
        rewrite (replaced_in N l nd inside) by assumption. destruct (Nat.eqb_spec (nth k b 0%nat) (nth (nth k l 0%nat) a 0%nat)) as [E'|_]; [congruence|reflexivity].
  Qed.
  Lemma sum_element b x y : In b (words 4 m) -> In x (words 2 N) -> In y (words 2 N) ->
    over 4 N (fun a => (dl (on a l) b * product_element N M a y x)%C) = (tracew y x * fam (digits4 b) (digits2 (on y l)) (digits2 (on x l)))%C.
  Proof.
    intros Hb Hx Hy. pose proof (len_words _ _ _ Hb) as Lb. set (z := replaced (repeat 0%nat N) l b).
    set (c := fun i v => ((if existsb (Nat.eqb i) l then (if (nth i z 0 =? v)%nat then C1 else C0) else C1) * M v (nth i y 0%nat) (nth i x 0%nat))%C).
    assert (Lz : length (repeat 0%nat N) = N) by apply repeat_length.
    rewrite (over_ext 4 N _ (fun a => cprod (map (fun i => c (0 + i)%nat (nth i a 0%nat)) (seq 0 N)))).
    - rewrite (over_cprod 4 N c 0). rewrite cprod_sites. f_equal.
      + unfold tracew. destruct (agree_off N l y x) eqn:EA.
        * apply cprod_one. intros i Hi. apply others_in in Hi as [H1 H2]. cbn [Nat.add]. unfold c. replace (existsb (Nat.eqb i) l) with false by (symmetry; apply not_true_iff_false; intros H; apply existsb_exists in H as (j & Hj & E); apply Nat.eqb_eq in E as ->; contradiction).
          rewrite agree_off_iff in EA. change (csumn 4 (fun v => (C1 * M v (nth i y 0%nat) (nth i x 0%nat))%C) = C1).
          pose proof (compl (nth i y 0%nat) (nth i x 0%nat) (words_nth 2 N y i ltac:(lia) Hy) (words_nth 2 N x i ltac:(lia) Hx)) as EC. unfold combo in EC. rewrite EC. unfold ident. rewrite (EA i H1 H2). now rewrite Nat.eqb_refl.
        * assert (exists i, (i < N)%nat /\ ~ In i l /\ nth i y 0%nat <> nth i x 0%nat) as (i & H1 & H2 & H3).
          { destruct (Forall_Exists_dec (fun i => nth i y 0%nat = nth i x 0%nat) (fun i => Nat.eq_dec _ _) others) as [F|F].
            - exfalso. rewrite Forall_forall in F. assert (agree_off N l y x = true); [|congruence]. apply agree_off_iff. intros i Hi Hn. apply F. apply others_in. tauto.
            - apply Exists_exists in F as (i & Hi & F). apply others_in in Hi as [H1 H2]. exists i. tauto. }
          apply cprod_zero with i; [apply others_in; tauto|]. cbn [Nat.add]. unfold c. replace (existsb (Nat.eqb i) l) with false by (symmetry; apply not_true_iff_false; intros H; apply existsb_exists in H as (j & Hj & E); apply Nat.eqb_eq in E as ->; contradiction).
          change (csumn 4 (fun v => (C1 * M v (nth i y 0%nat) (nth i x 0%nat))%C) = C0).
          pose proof (compl (nth i y 0%nat) (nth i x 0%nat) (words_nth 2 N y i ltac:(lia) Hy) (words_nth 2 N x i ltac:(lia) Hx)) as EC. unfold combo in EC. rewrite EC. unfold ident. destruct (Nat.eqb_spec (nth i y 0%nat) (nth i x 0%nat)); [contradiction|reflexivity].
      + assert (Hz : In z (words 4 N)). { apply (replaced_words N l nd inside 4); [lia| |exact Hb]. apply in_words. split; [exact Lz|]. intros v Hv. apply repeat_spec in Hv. lia. }
        replace (digits4 b) with (digits4 (on z l)) by (unfold z; now rewrite (on_replaced N l nd inside)). rewrite <- fam_on by assumption.
        apply cprod_ext. intros i Hi. cbn [Nat.add]. unfold c. replace (existsb (Nat.eqb i) l) with true by (symmetry; apply existsb_exists; exists i; split; [exact Hi|apply Nat.eqb_refl]).
        apply (csumn_delta 4 (nth i z 0%nat) (fun v => M v (nth i y 0%nat) (nth i x 0%nat))). apply (words_nth 4 N); [lia|exact Hz].
    - intros a Ha. pose proof (len_words _ _ _ Ha) as La. rewrite dl_product by assumption. unfold product_element. rewrite <- cprod_mul. apply cprod_ext. intros i _. cbn [Nat.add]. unfold c.
      destruct (existsb (Nat.eqb i) l) eqn:EI; [|reflexivity]. apply existsb_exists in EI as (j & Hj & E). apply Nat.eqb_eq in E as ->. apply (In_nth _ _ 0%nat) in Hj as (k & Hk & <-).
      unfold z. now rewrite !(replaced_in N l nd inside) by assumption.
  Qed.

  Definition observes (A : mat) (O : nat -> R) : Prop := forall sigma, hermitian (2 ^ m) sigma ->
    RtoC (rsumn (4 ^ m) (fun a => outcome_prob (2 ^ m) sigma fam a * O a)) = tr (2 ^ m) (mul (2 ^ m) sigma A).
  Theorem acts_observable A O rho : observes A O -> mhermitian N rho ->
    RtoC (rsum (map (fun a => probability N M rho a * O (digits4 (on a l))) (words 4 N))) = mtr N (mmul N rho (embedded N A l)).
  Proof.
    intros HO HR. set (sigma := local N l tracew rho).
    assert (HS : hermitian (2 ^ m) sigma).
    { apply local_hermitian; [exact HR|]. intros x y _ _. unfold tracew. rewrite (agree_off_sym N l y x). destruct (agree_off N l x y); [apply Cconj_C1|apply Cconj_C0]. }
    transitivity (RtoC (rsumn (4 ^ m) (fun b => outcome_prob (2 ^ m) sigma fam b * O b))).
    - rewrite rsumn_words, outcomes_words. rewrite <- csum_RtoC, map_map. rewrite <- (csum_RtoC (map _ (words 4 m))), map_map.
      change (over 4 N (fun a => RtoC (probability N M rho a * O (digits4 (on a l)))) = over 4 m (fun b => RtoC (outcome_prob (2 ^ m) sigma fam (digits4 b) * O (digits4 b)))).
      transitivity (over 4 N (fun a => over 4 m (fun b => (dl (on a l) b * RtoC (probability N M rho a * O (digits4 b)))%C))).
      { apply over_ext. intros a Ha. symmetry. apply (over_dl 4 m (on a l) (fun b => RtoC (probability N M rho a * O (digits4 b)))). apply (on_words N l 4); [lia|exact Ha]. }
      rewrite over_swap. apply over_ext. intros b Hb.
      assert (EQ : outcome_prob (2 ^ m) sigma fam (digits4 b) = Re (over 4 N (fun a => (dl (on a l) b * mtr N (mmul N rho (product_element N M a)))%C))).
      { unfold outcome_prob. f_equal. unfold sigma. transitivity (mtr N (mmul N rho (fun y x => over 4 N (fun a => (dl (on a l) b * product_element N M a y x)%C)))).
        { symmetry. apply (local_trace N l tracew rho). intros x y Hx Hy. now apply sum_element. }
        unfold mtr, mmul. rewrite (over_ext 2 N _ (fun x => over 4 N (fun a => (dl (on a l) b * over 2 N (fun z => (rho x z * product_element N M a z x)%C))%C))).
          + rewrite over_swap. apply over_ext. intros a _. now rewrite over_scal.
          + intros x _. rewrite (over_ext 2 N _ (fun z => over 4 N (fun a => (dl (on a l) b * (rho x z * product_element N M a z x))%C))).
            * rewrite over_swap. apply over_ext. intros a _. now rewrite over_scal.
            * intros z _. rewrite <- over_scal. apply over_ext. intros a _. ring. }
      rewrite EQ. rewrite RtoC_mul. assert (RE : forall f, RtoC (Re (over 4 N (fun a => (dl (on a l) b * f a)%C))) = over 4 N (fun a => (dl (on a l) b * RtoC (Re (f a)))%C)).
      { intros f. unfold over. rewrite Re_csum. rewrite map_map, <- csum_RtoC, map_map. apply csum_ext. intros a _. unfold dl. destruct (list_eq_dec Nat.eq_dec (on a l) b); destruct (f a) as [p q]; Cring. }
      rewrite RE, <- over_scal_r. apply over_ext. intros a _. rewrite RtoC_mul. unfold probability. ring.
    - rewrite (HO sigma HS). symmetry. apply local_trace. intros x y _ _. unfold embedded, tracew. destruct (agree_off N l y x); ring.
  Qed.
End Elements.
