(** Proofs about compiled POVM operators. *)
From Coq Require Import String List Reals Bool Arith Lia Lra Permutation.
From Verif Require Import Base Cplx PovmOp_Model PovmOp_Spec.
Import ListNotations.

(** ** indices *)
Lemma flat_index_acc l acc : fold_left (fun acc x => 4 * acc + x) l acc = acc * 4 ^ length l + digits4 l.
Proof. revert acc. induction l as [|x l IH]; intros acc; cbn [fold_left digits4 length]; [cbn; lia|]. rewrite IH. rewrite Nat.pow_succ_r'. lia. Qed.
Lemma flat_index_digits l : flat_index l = digits4 l.
Proof. unfold flat_index. rewrite flat_index_acc. lia. Qed.
Lemma digits4_snoc l y : digits4 (l ++ [y]) = 4 * digits4 l + y.
Proof. rewrite <- !flat_index_digits. unfold flat_index. rewrite fold_left_app. reflexivity. Qed.
Lemma product4_outcomes m : product4 m = outcomes m.
Proof. induction m as [|m IH]; [reflexivity|]. cbn [product4 outcomes]. now rewrite IH. Qed.
Lemma outcomes_length k b : In b (outcomes k) -> length b = k.
Proof.
  revert b. induction k as [|k IH]; intros b H; cbn in H; [destruct H as [<-|[]]; reflexivity|].
  rewrite !in_app_iff in H. repeat (destruct H as [H|H]); try (apply in_map_iff in H as (c & <- & H); cbn; f_equal; now apply IH); destruct H.
Qed.
Lemma rsum_flat_map {A B} (f : A -> list B) (g : B -> R) l : rsum (map g (flat_map f l)) = rsum (map (fun x => rsum (map g (f x))) l).
Proof. induction l as [|x l IH]; [reflexivity|]. cbn [flat_map map]. rewrite map_app, rsum_app, IH. reflexivity. Qed.
Lemma outcomes_snoc k (g : list nat -> R) :
  rsum (map g (outcomes (S k))) = rsum (map (fun b => rsum (map (fun y => g (b ++ [y])) [0; 1; 2; 3])) (outcomes k)).
Proof.
  revert g. induction k as [|k IH]; intros g.
  - cbn. lra.
  - change (outcomes (S (S k))) with (flat_map (fun x => map (cons x) (outcomes (S k))) [0; 1; 2; 3]).
    rewrite rsum_flat_map. change (outcomes (S k)) with (flat_map (fun x => map (cons x) (outcomes k)) [0; 1; 2; 3]) at 2. rewrite rsum_flat_map.
    apply rsum_ext. intros x _. rewrite map_map, IH, map_map. reflexivity.
Qed.

(** ** replaced sites *)
Lemma set_nth_length i v s : length (set_nth i v s) = length s.
Proof. revert i. induction s as [|x s IH]; intros [|i]; cbn; auto. Qed.
Lemma nth_set_nth i v s j : i < length s -> nth j (set_nth i v s) 0 = if i =? j then v else nth j s 0.
Proof.
  revert i j. induction s as [|x s IH]; intros [|i] j H; cbn in H |- *; try lia.
  - destruct j; reflexivity.
  - destruct j; cbn; [reflexivity|]. apply IH. lia.
Qed.
Lemma set_sites_length s l b : length (set_sites s l b) = length s.
Proof. revert s b. induction l as [|i l IH]; intros s [|v b]; cbn; auto. rewrite IH. apply set_nth_length. Qed.
Lemma nth_set_sites s l b j : NoDup l -> (forall i, In i l -> i < length s) -> length b = length l ->
  nth j (set_sites s l b) 0 = match find (fun p => fst p =? j) (combine l b) with Some p => snd p | None => nth j s 0 end.
Proof.
  revert s b. induction l as [|i l IH]; intros s [|v b] ND Hl Hb; cbn in Hb; try lia; [reflexivity|].
  inversion ND as [|? ? Hi ND']; subst. cbn [set_sites combine find fst snd].
  rewrite IH; [|exact ND'|intros x Hx; rewrite set_nth_length; apply Hl; now right|lia]. rewrite nth_set_nth by (apply Hl; now left).
  destruct (Nat.eqb_spec i j) as [->|Hij]; [|reflexivity].
  destruct (find _ (combine l b)) as [p|] eqn:E; [|reflexivity]. exfalso. apply find_some in E as [E1 E2]. apply Nat.eqb_eq in E2. apply Hi. rewrite <- E2. destruct p. now apply in_combine_l in E1.
Qed.
Lemma nth_map_seq_ {A} (g : nat -> A) n j d : j < n -> nth j (map g (seq 0 n)) d = g j.
Proof. intros H. rewrite (nth_indep _ d (g 0)) by (rewrite map_length, seq_length; exact H). rewrite map_nth, seq_nth by exact H. reflexivity. Qed.
Lemma set_sites_replaced s l b : NoDup l -> (forall i, In i l -> i < length s) -> length b = length l -> set_sites s l b = replaced s l b.
Proof.
  intros ND Hl Hb. apply (nth_ext _ _ 0 0); [unfold replaced; rewrite set_sites_length, map_length, seq_length; reflexivity|].
  intros j Hj. rewrite set_sites_length in Hj. rewrite nth_set_sites by assumption. unfold replaced.
  rewrite nth_map_seq_ by exact Hj. reflexivity.
Qed.
Lemma combine_snoc {A B} (l : list A) (b : list B) x y : length b = length l -> combine (l ++ [x]) (b ++ [y]) = combine l b ++ [(x, y)].
Proof. revert b. induction l as [|i l IH]; intros [|v b] H; cbn in H |- *; try lia; [reflexivity|]. rewrite IH by lia. reflexivity. Qed.
Lemma find_app_ {A} (f : A -> bool) l1 l2 : find f (l1 ++ l2) = match find f l1 with Some x => Some x | None => find f l2 end.
Proof. induction l1 as [|x l1 IH]; [reflexivity|]. cbn. now destruct (f x). Qed.
Lemma replaced_snoc s l b x : ~ In x l -> length b = length l -> replaced s (l ++ [x]) (b ++ [nth x s 0]) = replaced s l b.
Proof.
  intros Hx Hb. unfold replaced. apply map_ext. intros i. rewrite combine_snoc by exact Hb. rewrite find_app_. destruct (find _ (combine l b)) as [p|]; [reflexivity|].
  cbn. destruct (Nat.eqb_spec x i) as [->|_]; reflexivity.
Qed.

(** ** identity on further sites *)
Lemma acts_snoc (x : sized) l i f s : ~ In i l -> nth i s 0 < 4 -> acts (snd (kron_eye x)) (l ++ [i]) f s = acts (snd x) l f s.
Proof.
  intros Hi H4. unfold acts. rewrite app_length. cbn [length]. rewrite Nat.add_1_r, outcomes_snoc. apply rsum_ext. intros b Hb. apply outcomes_length in Hb.
  rewrite map_app. cbn [map]. rewrite digits4_snoc. unfold kron_eye. cbn [snd].
  assert (D : forall a y, y < 4 -> ((4 * a + y) / 4 = a /\ (4 * a + y) mod 4 = y)).
  { intros a y Hy. split; [rewrite Nat.mul_comm, Nat.div_add_l, Nat.div_small by lia; lia|rewrite Nat.add_comm, Nat.mul_comm, Nat.mod_add, Nat.mod_small by lia; reflexivity]. }
  rewrite (proj1 (D _ _ H4)), (proj2 (D _ _ H4)). rewrite !digits4_snoc.
  rewrite (proj1 (D _ 0 ltac:(lia))), (proj2 (D _ 0 ltac:(lia))), (proj1 (D _ 1 ltac:(lia))), (proj2 (D _ 1 ltac:(lia))), (proj1 (D _ 2 ltac:(lia))), (proj2 (D _ 2 ltac:(lia))), (proj1 (D _ 3 ltac:(lia))), (proj2 (D _ 3 ltac:(lia))).
  rewrite !rsum_cons, rsum_nil. rewrite <- (replaced_snoc s l b i Hi Hb).
  destruct (nth i s 0) as [|[|[|[|n]]]]; cbn [Nat.eqb]; try lia; lra.
Qed.
Lemma acts_pad k (x : sized) l ext f s : length ext = k -> NoDup (l ++ ext) -> (forall i, In i ext -> nth i s 0 < 4) ->
  acts (snd (pad_matrix k x)) (l ++ ext) f s = acts (snd x) l f s.
Proof.
  revert x l ext. induction k as [|k IH]; intros x l ext Hk ND H4.
  - destruct ext; [|discriminate Hk]. now rewrite app_nil_r.
  - destruct ext as [|i ext]; [discriminate Hk|]. cbn [pad_matrix]. change (l ++ i :: ext) with (l ++ [i] ++ ext) in *. rewrite app_assoc in *.
    rewrite IH; [|now injection Hk|exact ND|intros j Hj; apply H4; now right]. apply acts_snoc; [|apply H4; now left].
    assert (ND2 : NoDup (l ++ [i])). { clear -ND. induction ext as [|e ext IH] using rev_ind; [now rewrite app_nil_r in ND|]. rewrite app_assoc in ND. apply NoDup_remove_1 in ND. rewrite app_nil_r in ND. now apply IH. }
    apply NoDup_remove_2 in ND2. now rewrite app_nil_r in ND2.
Qed.
Lemma pad_dim k x : fst (pad_matrix k x) = fst x * 4 ^ k.
Proof. revert x. induction k as [|k IH]; intros x; cbn [pad_matrix]; [cbn; lia|]. rewrite IH. cbn [kron_eye fst]. rewrite Nat.pow_succ_r'. lia. Qed.
Lemma acts_add (w y : nat -> nat -> R) c l f s : acts (fun a b => (w a b + c * y a b)%R) l f s = (acts w l f s + c * acts y l f s)%R.
Proof. unfold acts. rewrite <- rsum_scal, <- rsum_map_add. apply rsum_ext. intros b _. lra. Qed.
Lemma acts_zero l f s : acts (fun _ _ => 0%R) l f s = 0%R.
Proof. unfold acts. rewrite (rsum_ext _ (fun _ => 0%R)) by (intros; lra). apply rsum_zero. Qed.

(** ** padding of the indices *)
Lemma mem_in x l : mem x l = true <-> In x l.
Proof. unfold mem. rewrite existsb_exists. split; [intros (y & H & E); apply Nat.eqb_eq in E; now subst|intros H; exists x; split; [exact H|apply Nat.eqb_refl]]. Qed.
Lemma mem_out x l : mem x l = false <-> ~ In x l.
Proof. rewrite <- mem_in. destruct (mem x l); split; intros; try congruence; exfalso; auto. Qed.
Lemma find_free_ok fuel P e I t : e < P + 1 -> t < fuel -> ~ In ((e + t) mod (P + 1)) I ->
  exists e', find_free fuel P e I = Ok e' /\ e' < P + 1 /\ ~ In e' I.
Proof.
  revert e t. induction fuel as [|fuel IH]; intros e t He Ht HI; [lia|]. cbn [find_free]. destruct (mem e I) eqn:E.
  - destruct t as [|t].
    + rewrite Nat.add_0_r, Nat.mod_small in HI by lia. apply mem_in in E. contradiction.
    + apply (IH _ t); [apply Nat.mod_upper_bound; lia|lia|]. rewrite Nat.add_mod_idemp_l by lia. replace (e + 1 + t) with (e + S t) by lia. exact HI.
  - exists e. split; [reflexivity|]. split; [exact He|now apply mem_out].
Qed.
Lemma exists_free (I : list nat) n : length I < n -> exists x, x < n /\ ~ In x I.
Proof.
  intros H. destruct (Exists_dec (fun x => ~ In x I) (seq 0 n)) as [E|E].
  - intros x. destruct (in_dec Nat.eq_dec x I); [right; tauto|now left].
  - apply Exists_exists in E as (x & Hx & Hn). apply in_seq in Hx. exists x. split; [lia|exact Hn].
  - exfalso. assert (incl (seq 0 n) I).
    { intros x Hx. destruct (in_dec Nat.eq_dec x I) as [|Hn]; [assumption|]. exfalso. apply E. apply Exists_exists. now exists x. }
    apply NoDup_incl_length in H0; [|apply seq_NoDup]. rewrite seq_length in H0. lia.
Qed.
Lemma NoDup_app_snoc_ {A} (l : list A) x : NoDup l -> ~ In x l -> NoDup (l ++ [x]).
Proof. intros ND H. apply (Permutation_NoDup (l := x :: l)); [apply Permutation_cons_append|now constructor]. Qed.
Lemma pad_indices_ok k P I : NoDup I -> (forall i, In i I -> i <= P) -> length I + k <= P + 1 ->
  exists ext, pad_indices k P I = Ok (I ++ ext) /\ length ext = k /\ NoDup (I ++ ext) /\ (forall i, In i (I ++ ext) -> i <= P).
Proof.
  revert I. induction k as [|k IH]; intros I ND HI Hl.
  - exists []. rewrite app_nil_r. repeat split; auto.
  - cbn [pad_indices]. set (e0 := (last I 0 + 1) mod (P + 1)). assert (He0 : e0 < P + 1) by (apply Nat.mod_upper_bound; lia).
    destruct (exists_free I (P + 1) ltac:(lia)) as (x & Hx & Hn).
    destruct (find_free_ok (P + 1) P e0 I ((x + (P + 1) - e0) mod (P + 1)) He0) as (e & -> & He & Hne).
    + apply Nat.mod_upper_bound. lia.
    + rewrite Nat.add_mod_idemp_r by lia. replace (e0 + (x + (P + 1) - e0)) with (x + 1 * (P + 1)) by lia. rewrite Nat.mod_add by lia. now rewrite Nat.mod_small.
    + cbn [bind]. destruct (IH (I ++ [e])) as (ext & E1 & E2 & E3 & E4).
      * apply NoDup_app_snoc_; assumption.
      * intros i Hi. apply in_app_iff in Hi as [Hi|[<-|[]]]; [now apply HI|lia].
      * rewrite app_length. cbn. lia.
      * exists (e :: ext). rewrite <- app_assoc in E1, E3, E4. cbn [app] in *. split; [exact E1|]. split; [cbn; lia|]. split; assumption.
Qed.
