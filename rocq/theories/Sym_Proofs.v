(** Signed permutation matrices, np.unique, the rings and the square lattices. *)
From Coq Require Import ZArith List Reals Lra Lia Bool Arith Permutation Sorted.
From Verif Require Import Base Cplx Stats_Model BranchFree_Model Dist Sampler_Model Sampler_Spec Sampler2_Proofs Sym_Model Sym_Spec.
Import ListNotations.

Lemma map2_map_r {A B D E} (f : A -> B -> D) (g : E -> B) x y : map2 f x (map g y) = map2 (fun a e => f a (g e)) x y.
Proof. revert y. induction x as [|a x IH]; intros [|b y]; try reflexivity. unfold map2 in *. cbn. f_equal. apply IH. Qed.
Lemma map2_map_l {A B D E} (f : A -> B -> D) (g : E -> A) x y : map2 f (map g x) y = map2 (fun e b => f (g e) b) x y.
Proof. revert y. induction x as [|a x IH]; intros [|b y]; try reflexivity. unfold map2 in *. cbn. f_equal. apply IH. Qed.
Lemma map2_same {A D} (f : A -> A -> D) x : map2 f x x = map (fun a => f a a) x.
Proof. unfold map2. induction x as [|a x IH]; [reflexivity|]. cbn. f_equal. exact IH. Qed.
Lemma nth_map_seq {A} (f : nat -> A) n i d : i < n -> nth i (map f (seq 0 n)) d = f i.
Proof. intros H. rewrite (nth_indep _ d (f 0)) by (rewrite map_length, seq_length; exact H). rewrite map_nth, seq_nth by exact H. reflexivity. Qed.
Lemma map_nth_seq {A} (l : list A) d : map (fun i => nth i l d) (seq 0 (length l)) = l.
Proof. apply nth_ext with d d; [now rewrite map_length, seq_length|]. intros i H. rewrite map_length, seq_length in H. now rewrite nth_map_seq. Qed.

(** ** matrices given by a sign and a map *)
Definition smat (n : nat) (sg : Z) (f : nat -> nat) : mat :=
  map (fun i => map (fun j => if j =? f i then sg else 0%Z) (seq 0 n)) (seq 0 n).

Lemma smat_square n sg f : square n (smat n sg f).
Proof. unfold smat. split; [now rewrite map_length, seq_length|]. apply Forall_map, Forall_forall. intros. now rewrite map_length, seq_length. Qed.
Lemma smat_entry n sg f i j : i < n -> j < n -> entry (smat n sg f) i j = if j =? f i then sg else 0%Z.
Proof. intros Hi Hj. unfold entry, smat. rewrite nth_map_seq by assumption. now rewrite nth_map_seq. Qed.
Lemma smat_ext n sg f g : (forall i, i < n -> f i = g i) -> smat n sg f = smat n sg g.
Proof. intros H. unfold smat. apply map_ext_in. intros i Hi. apply in_seq in Hi. rewrite H by lia. reflexivity. Qed.
Lemma smat_inj n sg tu f g : 0 < n -> sg <> 0%Z -> (forall i, i < n -> f i < n) -> smat n sg f = smat n tu g -> sg = tu /\ forall i, i < n -> f i = g i.
Proof.
  intros Hn Hs Hf E.
  assert (G : forall i, i < n -> sg = tu /\ f i = g i).
  { intros i Hi. pose proof (smat_entry n sg f i (f i) Hi (Hf i Hi)) as H. rewrite E, smat_entry, Nat.eqb_refl in H by auto.
    destruct (Nat.eqb_spec (f i) (g i)); [auto|congruence]. }
  split; [apply (G 0 Hn)|]. intros i Hi. now apply G.
Qed.
Lemma zsum_ext {A} (f g : A -> Z) l : (forall x, In x l -> f x = g x) -> zsum (map f l) = zsum (map g l).
Proof. intros H. f_equal. now apply map_ext_in. Qed.
Lemma zsum_single n k (v : Z) (h : nat -> Z) : k < n -> zsum (map (fun j => ((if (j =? k)%nat then v else 0) * h j)%Z) (seq 0 n)) = (v * h k)%Z.
Proof.
  assert (Z0 : forall a m, (k < a \/ a + m <= k) -> zsum (map (fun j => ((if (j =? k)%nat then v else 0) * h j)%Z) (seq a m)) = 0%Z).
  { intros a m. revert a. induction m as [|m IH]; intros a H; [reflexivity|]. cbn [seq map]. unfold zsum, big in *. cbn [fold_right]. rewrite IH by lia. destruct (Nat.eqb_spec a k); lia. }
  intros Hk. replace n with (k + S (n - k - 1)) by lia. rewrite seq_app, map_app. unfold zsum at 1. rewrite (big_app 0%Z Z.add) by (intros; lia).
  fold (zsum (map (fun j => ((if (j =? k)%nat then v else 0) * h j)%Z) (seq 0 k))). rewrite Z0 by lia. cbn [Nat.add seq map]. rewrite Nat.eqb_refl.
  unfold big. cbn [fold_right]. fold (big 0%Z Z.add (map (fun j => ((if (j =? k)%nat then v else 0) * h j)%Z) (seq (S k) (n - k - 1)))). fold zsum. rewrite Z0 by lia. lia.
Qed.
Lemma smat_mul n sg tu f g : (forall i, i < n -> f i < n) -> mat_mul (smat n sg f) (smat n tu g) = smat n (sg * tu) (fun i => g (f i)).
Proof.
  intros Hf. destruct n as [|m]; [reflexivity|]. set (n := S m) in *. unfold mat_mul.
  assert (HL : length (hd [] (smat n tu g)) = n) by (unfold smat, n; cbn [seq map hd length]; now rewrite map_length, seq_length). rewrite HL.
  unfold smat. rewrite map_map. apply map_ext_in. intros i Hi. apply in_seq in Hi. apply map_ext_in. intros j Hj. apply in_seq in Hj.
  rewrite map_map, map2_map_l, map2_map_r, map2_same.
  rewrite (zsum_ext _ (fun k => ((if (k =? f i)%nat then sg else 0) * (if (j =? g k)%nat then tu else 0))%Z)).
  - rewrite (zsum_single n (f i) sg (fun k => if j =? g k then tu else 0%Z)) by (apply Hf; lia). destruct (j =? g (f i)); lia.
  - intros k Hk. rewrite nth_map_seq by lia. reflexivity.
Qed.
Lemma smat_product n sg tu f g : (forall i, i < n -> f i < n) -> is_product n (smat n sg f) (smat n tu g) (smat n (sg * tu) (fun i => g (f i))).
Proof.
  intros Hf. split; [apply smat_square|]. intros i j Hi Hj. rewrite smat_entry by assumption. change (fold_right Z.add 0%Z) with zsum.
  rewrite (zsum_ext _ (fun k => ((if (k =? f i)%nat then sg else 0) * (if (j =? g k)%nat then tu else 0))%Z)).
  - rewrite (zsum_single n (f i) sg (fun k => if j =? g k then tu else 0%Z)) by (apply Hf; lia). destruct (j =? g (f i)); lia.
  - intros k Hk. apply in_seq in Hk. now rewrite !smat_entry by lia.
Qed.
Lemma square_ext n A B : square n A -> square n B -> (forall i j, i < n -> j < n -> entry A i j = entry B i j) -> A = B.
Proof.
  intros [LA RA] [LB RB] H. apply nth_ext with [] []; [lia|]. intros i Hi. rewrite Forall_forall in RA, RB.
  assert (length (nth i A []) = n) by (apply RA, nth_In; lia). assert (length (nth i B []) = n) by (apply RB, nth_In; lia).
  apply nth_ext with 0%Z 0%Z; [lia|]. intros j Hj. apply H; lia.
Qed.
Lemma is_product_unique n A B D D' : is_product n A B D -> is_product n A B D' -> D = D'.
Proof. intros [S1 H1] [S2 H2]. apply (square_ext n); auto. intros i j Hi Hj. now rewrite H1, H2. Qed.
Lemma signed_smat n A : signed_permutation n A -> exists sg f, (sg = 1 \/ sg = -1)%Z /\ (forall i, i < n -> f i < n) /\ (forall i j, i < n -> j < n -> f i = f j -> i = j) /\ A = smat n sg f.
Proof.
  intros (S & sg & f & H1 & H2 & H3 & H4). exists sg, f. repeat (split; [assumption|]). apply (square_ext n); [assumption|apply smat_square|]. intros i j Hi Hj. rewrite smat_entry by assumption. auto.
Qed.
Lemma smat_signed n sg f : (sg = 1 \/ sg = -1)%Z -> (forall i, i < n -> f i < n) -> (forall i j, i < n -> j < n -> f i = f j -> i = j) -> signed_permutation n (smat n sg f).
Proof. intros H1 H2 H3. split; [apply smat_square|]. exists sg, f. repeat (split; [assumption|]). intros. now apply smat_entry. Qed.
Lemma map_matrix_smat n m : length m = n -> map_matrix n m = smat n 1 (fun i => nth i m 0).
Proof. intros H. unfold map_matrix, smat. rewrite <- (map_nth_seq m 0) at 1. rewrite map_map, H. reflexivity. Qed.
Lemma mat_opp_smat n sg f : mat_opp (smat n sg f) = smat n (- sg) f.
Proof. unfold mat_opp, smat. rewrite map_map. apply map_ext. intros i. rewrite map_map. apply map_ext. intros j. now destruct (j =? f i). Qed.

(** ** np.unique *)
Lemma lex_refl a : lex a a = Eq. Proof. induction a as [|x a IH]; [reflexivity|]. cbn. now rewrite Z.compare_refl. Qed.
Lemma lex_eq a b : lex a b = Eq -> a = b.
Proof. revert b. induction a as [|x a IH]; intros [|y b] H; cbn in H; try discriminate; [reflexivity|]. destruct (Z.compare_spec x y); try discriminate. subst. f_equal. auto. Qed.
Lemma lex_gt a b : lex a b = Gt -> lex b a = Lt.
Proof.
  revert b. induction a as [|x a IH]; intros [|y b] H; cbn in *; try discriminate; [reflexivity|].
  rewrite (Z.compare_antisym x y). destruct (Z.compare_spec x y); cbn; try discriminate; auto.
Qed.
Lemma lex_trans a b c : lex a b = Lt -> lex b c = Lt -> lex a c = Lt.
Proof.
  revert b c. induction a as [|x a IH]; intros [|y b] [|z c] H1 H2; cbn in *; try discriminate; auto.
  destruct (Z.compare_spec x y) as [->|Hxy|Hxy]; try discriminate; destruct (Z.compare_spec y z) as [->|Hyz|Hyz]; try discriminate.
  - now apply IH with b.
  - reflexivity.
  - apply Z.compare_lt_iff in Hxy. now rewrite Hxy.
  - assert (H : (x < z)%Z) by lia. apply Z.compare_lt_iff in H. now rewrite H.
Qed.
Definition keyed (x : mat * C) : list Z := concat (fst x).
Definition klt (x y : mat * C) : Prop := lex (keyed x) (keyed y) = Lt.
Lemma insert_in x l y : In y (insert_unique x l) -> y = x \/ In y l.
Proof.
  induction l as [|z l IH]; cbn; [intros [|[]]; auto|]. destruct (lex _ _); cbn; intros H; [right; destruct H; auto| |].
  - destruct H as [H|H]; auto.
  - destruct H as [H|H]; auto. destruct (IH H); auto.
Qed.
Lemma insert_keeps x l y : In y l -> In y (insert_unique x l).
Proof. induction l as [|z l IH]; cbn; [intros []|]. destruct (lex _ _); cbn; intros [H|H]; auto. Qed.
Lemma insert_has x l : exists y, In y (insert_unique x l) /\ keyed y = keyed x.
Proof.
  induction l as [|z l IH]; cbn; [exists x; cbn; auto|]. destruct (lex (concat (fst x)) (concat (fst z))) eqn:E; cbn.
  - exists z. split; [auto|]. symmetry. now apply lex_eq.
  - exists x. auto.
  - destruct IH as (y & H & K). eauto.
Qed.
Lemma insert_sorted x l : StronglySorted klt l -> StronglySorted klt (insert_unique x l).
Proof.
  induction 1 as [|z l HS IH HF]; cbn; [repeat constructor|]. destruct (lex (concat (fst x)) (concat (fst z))) eqn:E.
  - now constructor.
  - constructor; [now constructor|]. constructor; [exact E|]. eapply Forall_impl; [|exact HF]. intros y Hy. eapply lex_trans; [exact E|exact Hy].
  - constructor; [assumption|]. apply Forall_forall. intros y Hy. apply insert_in in Hy as [->|Hy]; [now apply lex_gt|]. rewrite Forall_forall in HF. auto.
Qed.
(** the factor is the one of the first occurrence *)
Lemma insert_new x l : In x (insert_unique x l) \/ exists y, In y l /\ keyed y = keyed x.
Proof.
  induction l as [|z l IH]; cbn; [auto|]. destruct (lex (concat (fst x)) (concat (fst z))) eqn:E; cbn; auto.
  - right. exists z. split; [auto|]. symmetry. now apply lex_eq.
  - destruct IH as [H|(y & H & K)]; [auto|right; eauto].
Qed.
Lemma unique_acc l acc : StronglySorted klt acc -> StronglySorted klt (fold_left (fun a x => insert_unique x a) l acc)
  /\ (forall y, In y (fold_left (fun a x => insert_unique x a) l acc) -> In y acc \/ In y l)
  /\ (forall y, In y acc -> In y (fold_left (fun a x => insert_unique x a) l acc))
  /\ (forall y, In y l -> exists z, In z (fold_left (fun a x => insert_unique x a) l acc) /\ keyed z = keyed y).
Proof.
  revert acc. induction l as [|x l IH]; intros acc HS; cbn [fold_left]; [repeat split; auto; intros y []|].
  destruct (IH (insert_unique x acc) (insert_sorted x acc HS)) as (I1 & I2 & I3 & I4). split; [assumption|]. split; [|split].
  - intros y Hy. destruct (I2 y Hy) as [H|H]; [|cbn; auto]. apply insert_in in H as [->|H]; cbn; auto.
  - intros y Hy. apply I3, insert_keeps, Hy.
  - intros y [<-|Hy]; [|auto]. destruct (insert_has x acc) as (z & Hz & K). exists z. auto.
Qed.
Lemma unique_spec l : StronglySorted klt (unique l) /\ (forall y, In y (unique l) -> In y l) /\ (forall y, In y l -> exists z, In z (unique l) /\ keyed z = keyed y).
Proof. destruct (unique_acc l [] (SSorted_nil _)) as (H1 & H2 & _ & H4). split; [exact H1|]. split; [|exact H4]. intros y Hy. destruct (H2 y Hy) as [[]|]; assumption. Qed.

Lemma square_concat n A B : square n A -> square n B -> concat A = concat B -> A = B.
Proof.
  intros [LA RA] [LB RB]. revert B n LA RA LB RB. induction A as [|a A IH]; intros [|b B] n LA RA LB RB H; cbn in *; try (subst; discriminate); [reflexivity|].
  inversion RA as [|? ? Ha RA']; inversion RB as [|? ? Hb RB']; subst.
  assert (a = b /\ concat A = concat B) as [-> E].
  { assert (G : forall (a b x y : list Z), length a = length b -> a ++ x = b ++ y -> a = b /\ x = y).
    { clear. induction a as [|u a IH]; intros [|v b] x y HL H; cbn in *; try discriminate; [auto|]. inversion H. destruct (IH b x y) as [-> ->]; auto. }
    apply G; congruence. }
  f_equal. assert (HN : forall n0 (l : mat), Forall (fun r : list Z => length r = n0) l -> forall B', Forall (fun r => length r = n0) B' -> length l = length B' -> concat l = concat B' -> l = B').
  { clear. intros n0 l Hl. induction Hl as [|r l Hr _ IH]; intros [|r' B'] HB HL HC; cbn in *; try discriminate; [reflexivity|]. inversion HB; subst.
    assert (G : forall (a b x y : list Z), length a = length b -> a ++ x = b ++ y -> a = b /\ x = y).
    { clear. induction a as [|u a IH]; intros [|v b] x y HL H; cbn in *; try discriminate; [auto|]. inversion H. destruct (IH b x y) as [-> ->]; auto. }
    destruct (G r r' _ _ ltac:(congruence) HC) as [-> HE]. f_equal. apply IH; auto. }
  eapply HN; [exact RA'| | |exact E]; [eapply Forall_impl; [|exact RB']; cbn; lia|lia].
Qed.
Lemma unique_mats n l : Forall (fun x => square n (fst x)) l -> NoDup (map fst (unique l)) /\ forall A, In A (map fst (unique l)) <-> In A (map fst l).
Proof.
  intros H. destruct (unique_spec l) as (S & H1 & H2). rewrite Forall_forall in H. split.
  - clear H2. assert (HS : Forall (fun x => square n (fst x)) (unique l)) by (apply Forall_forall; auto). clear H H1. induction S as [|x u S IH HF]; [constructor|]. cbn. inversion HS; subst. constructor; [|auto].
    intros Hin. apply in_map_iff in Hin as (y & E & Hy). rewrite Forall_forall in HF. specialize (HF y Hy). unfold klt, keyed in HF. rewrite E, lex_refl in HF. discriminate.
  - intros A. rewrite !in_map_iff. split; intros (x & E & Hx).
    + exists x. auto.
    + destruct (H2 x Hx) as (z & Hz & K). exists z. split; [|assumption]. rewrite <- E. apply (square_concat n); auto.
Qed.
(** order within the list: the factor of an element is that of its first occurrence *)
Lemma unique_first l A f : (forall x y, In x l -> In y l -> keyed x = keyed y -> fst x = fst y) ->
  In (A, f) (unique l) -> exists l1 l2, l = l1 ++ (A, f) :: l2 /\ ~ In A (map fst l1).
Proof.
  assert (G : forall l acc A f, StronglySorted klt acc -> (forall x y, In x (acc ++ l) -> In y (acc ++ l) -> keyed x = keyed y -> fst x = fst y) ->
    In (A, f) (fold_left (fun a x => insert_unique x a) l acc) -> ~ In (A, f) acc -> ~ In A (map fst acc) /\ exists l1 l2, l = l1 ++ (A, f) :: l2 /\ ~ In A (map fst l1)).
  { clear. induction l as [|x l IH]; intros acc A f HS HK Hin Hnot; cbn [fold_left] in Hin; [contradiction|].
    assert (HK' : forall u v, In u (insert_unique x acc ++ l) -> In v (insert_unique x acc ++ l) -> keyed u = keyed v -> fst u = fst v).
    { assert (M : forall u, In u (insert_unique x acc ++ l) -> In u (acc ++ x :: l)).
      { intros u Hu. apply in_app_iff in Hu as [Hu|Hu]; apply in_app_iff; [|right; right; exact Hu]. apply insert_in in Hu as [->|Hu]; [right; left; reflexivity|left; exact Hu]. }
      intros u v Hu Hv. apply HK; auto. }
    assert (AccNo : In (A, f) (fold_left (fun a x => insert_unique x a) (x :: l) acc) -> ~ In A (map fst acc)).
    { intros Hf Hc. apply in_map_iff in Hc as ((A', f') & E & Hc). cbn in E. subst A'. destruct (unique_acc (x :: l) acc HS) as (S1 & _ & S3 & _).
      pose proof (S3 _ Hc) as Hc'. assert (f' = f); [|subst; contradiction].
      clear -S1 Hf Hc'. induction S1 as [|z u S1 IH1 HF]; [destruct Hf|]. rewrite Forall_forall in HF. destruct Hf as [->|Hf], Hc' as [Hc'|Hc'].
      - congruence.
      - specialize (HF _ Hc'). unfold klt, keyed in HF. cbn in HF. rewrite lex_refl in HF. discriminate.
      - subst z. specialize (HF _ Hf). unfold klt, keyed in HF. cbn in HF. rewrite lex_refl in HF. discriminate.
      - auto. }
    split; [now apply AccNo|].
    assert (Dec : In (A, f) (insert_unique x acc) \/ ~ In (A, f) (insert_unique x acc)).
    { assert (In (A, f) (insert_unique x acc) -> (A, f) = x) by (intros H; apply insert_in in H as [H|H]; [assumption|contradiction]).
      destruct (insert_new x acc) as [H1|(y & Hy & K)].
      - destruct (Classical_Prop.classic ((A, f) = x)) as [<-|N]; [left; exact H1|right; auto].
      - right. intros H2. pose proof (H H2) as E. subst x.
        assert (EA : fst y = A) by (apply (HK y (A, f)); [apply in_app_iff; auto|apply in_app_iff; right; left; reflexivity|exact K]).
        apply AccNo; [exact Hin|]. rewrite <- EA. now apply in_map. }
    destruct Dec as [D|D].
    - apply insert_in in D as [D|D]; [|contradiction]. subst x. exists [], l. split; [reflexivity|]. intros [].
    - destruct (IH (insert_unique x acc) A f (insert_sorted x acc HS) HK' Hin D) as (N & l1 & l2 & -> & N2).
      exists (x :: l1), l2. split; [reflexivity|]. cbn. intros [E|E]; [|contradiction]. apply N.
      destruct (insert_has x acc) as (y & Hy & K). apply in_map_iff. exists y. split; [|assumption]. rewrite <- E.
      apply HK; [|apply in_app_iff; right; left; reflexivity|assumption]. apply in_app_iff. apply insert_in in Hy as [->|Hy]; [right; left; reflexivity|left; exact Hy]. }
  intros HK Hin. destruct (G l [] A f (SSorted_nil _) HK Hin) as [_ H]; [intros []|exact H].
Qed.
