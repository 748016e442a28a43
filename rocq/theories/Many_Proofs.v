(** Sums over words, matrices on some of the sites. *)
From Coq Require Import String List Reals Bool Arith Lia Lra Permutation.
From Verif Require Import Base Cplx Povm_Spec Povm_Proofs Povm3_Proofs PovmOp_Spec PovmOp_Proofs Many_Spec.
Import ListNotations.
Local Open Scope R_scope.

(** ** words *)
Lemma in_words q n x : In x (words q n) <-> length x = n /\ forall v, In v x -> (v < q)%nat.
Proof.
  revert x. induction n as [|n IH]; intros x; cbn [words].
  - split; [intros [<-|[]]; split; [reflexivity|intros v []]|intros [H _]; destruct x; [now left|discriminate]].
  - rewrite in_flat_map. split.
    + intros (v & Hv & Hx). apply in_seq in Hv. apply in_map_iff in Hx as (y & <- & Hy). apply IH in Hy as [H1 H2]. split; [cbn; lia|]. intros w [<-|Hw]; [lia|now apply H2].
    + intros [H1 H2]. destruct x as [|v y]; [discriminate|]. exists v. split; [apply in_seq; specialize (H2 v (or_introl eq_refl)); lia|]. apply in_map. apply IH. split; [cbn in H1; lia|]. intros w Hw. apply H2. now right.
Qed.
Lemma words_nth q n x i : (0 < q)%nat -> In x (words q n) -> (nth i x 0 < q)%nat.
Proof. intros Hq H. apply in_words in H as [_ H]. destruct (nth_in_or_default i x 0%nat) as [Hi|E]; [now apply H|lia]. Qed.
Lemma NoDup_map_cons (v : nat) (L : list (list nat)) : NoDup L -> NoDup (map (cons v) L).
Proof. intros H. induction H as [|x L H1 H2 IH]; [constructor|]. cbn. constructor; [|exact IH]. intros H. apply in_map_iff in H as (y & E & Hy). injection E as ->. contradiction. Qed.
Lemma NoDup_app_intro_ {A} (a b : list A) : NoDup a -> NoDup b -> (forall x, In x a -> In x b -> False) -> NoDup (a ++ b).
Proof.
  intros Ha Hb H. induction Ha as [|x a H1 H2 IH]; [exact Hb|]. cbn. constructor.
  - intros Hx. apply in_app_iff in Hx as [Hx|Hx]; [contradiction|]. apply (H x); [now left|exact Hx].
  - apply IH. intros y Hy. apply H. now right.
Qed.
Lemma NoDup_words q n : NoDup (words q n).
Proof.
  induction n as [|n IH]; [repeat constructor; cbn; tauto|]. cbn [words].
  assert (G : forall l, NoDup l -> NoDup (flat_map (fun x => map (cons x) (words q n)) l)); [|apply G, seq_NoDup].
  intros l. induction l as [|v l IHl]; intros H; [constructor|]. inversion H as [|? ? H1 H2]; subst. cbn. apply NoDup_app_intro_; [now apply NoDup_map_cons|now apply IHl|].
  intros x Hx Hx'. apply in_map_iff in Hx as (y & <- & _). apply in_flat_map in Hx' as (w & Hw & Hx'). apply in_map_iff in Hx' as (z & E & _). injection E as -> _. contradiction.
Qed.

(** ** sums over words *)
Lemma over_ext q n f g : (forall x, In x (words q n) -> f x = g x) -> over q n f = over q n g.
Proof. intros H. unfold over. now apply csum_ext. Qed.
Lemma over_scal q n c f : over q n (fun x => (c * f x)%C) = (c * over q n f)%C.
Proof. apply csum_scal. Qed.
Lemma over_scal_r q n c f : over q n (fun x => (f x * c)%C) = (over q n f * c)%C.
Proof. apply csum_scal_r. Qed.
Lemma over_swap q n p m (f : list nat -> list nat -> C) : over q n (fun x => over p m (fun y => f x y)) = over p m (fun y => over q n (fun x => f x y)).
Proof. unfold over. apply csum_swap. Qed.
Lemma over_add q n f g : over q n (fun x => (f x + g x)%C) = (over q n f + over q n g)%C.
Proof. apply csum_map_add. Qed.
Lemma over_conj q n f : Cconj (over q n f) = over q n (fun x => Cconj (f x)).
Proof. unfold over. now rewrite csum_conj, map_map. Qed.
Definition dl (u v : list nat) : C := if list_eq_dec Nat.eq_dec u v then C1 else C0.
Lemma dl_refl u : dl u u = C1.
Proof. unfold dl. now destruct (list_eq_dec Nat.eq_dec u u). Qed.
Lemma dl_neq u v : u <> v -> dl u v = C0.
Proof. unfold dl. now destruct (list_eq_dec Nat.eq_dec u v). Qed.
Lemma dl_sym u v : dl u v = dl v u.
Proof. unfold dl. destruct (list_eq_dec Nat.eq_dec u v), (list_eq_dec Nat.eq_dec v u); congruence. Qed.
Lemma csum_single (L : list (list nat)) x0 f : NoDup L -> In x0 L -> (forall x, In x L -> x <> x0 -> f x = C0) -> csum (map f L) = f x0.
Proof.
  intros H. induction H as [|x L H1 H2 IH]; intros Hin Hz; [destruct Hin|]. cbn [map]. rewrite csum_cons. destruct Hin as [->|Hin].
  - rewrite (csum_ext f (fun _ => C0)), csum_zero; [ring|]. intros y Hy. apply Hz; [now right|]. intros ->. contradiction.
  - rewrite IH; [|exact Hin|intros y Hy; apply Hz; now right]. rewrite Hz; [ring|now left|]. intros ->. contradiction.
Qed.
Lemma over_single q n x0 f : In x0 (words q n) -> (forall x, In x (words q n) -> x <> x0 -> f x = C0) -> over q n f = f x0.
Proof. intros. apply csum_single; [apply NoDup_words|assumption|assumption]. Qed.
Lemma over_dl q n u f : In u (words q n) -> over q n (fun x => (dl u x * f x)%C) = f u.
Proof. intros H. rewrite (over_single q n u); [rewrite dl_refl; ring|exact H|]. intros x _ Hx. rewrite dl_neq by congruence. ring. Qed.

(** numbers and digits *)
Fixpoint dig (q : nat) (l : list nat) : nat := match l with [] => O | x :: l => (x * q ^ length l + dig q l)%nat end.
Lemma dig2 l : digits2 l = dig 2 l.
Proof. induction l as [|x l IH]; [reflexivity|]. cbn [digits2 dig]. now rewrite IH. Qed.
Lemma dig4 l : digits4 l = dig 4 l.
Proof. induction l as [|x l IH]; [reflexivity|]. cbn [digits4 dig]. now rewrite IH. Qed.
Lemma dig_lt q n u : In u (words q n) -> (dig q u < q ^ n)%nat.
Proof.
  revert u. induction n as [|n IH]; intros u H; apply in_words in H as [H1 H2].
  - destruct u; [cbn; lia|discriminate].
  - destruct u as [|v u]; [discriminate|]. cbn [length] in H1. injection H1 as H1. cbn [dig Nat.pow]. rewrite H1. specialize (IH u). assert (In u (words q n)) by (apply in_words; split; [exact H1|intros; apply H2; now right]).
    specialize (IH H). specialize (H2 v (or_introl eq_refl)). nia.
Qed.
Lemma csumn_words q n f : csumn (q ^ n) f = over q n (fun u => f (dig q u)).
Proof.
  revert f. induction n as [|n IH]; intros f.
  - unfold csumn, over. cbn. reflexivity.
  - cbn [Nat.pow]. rewrite csumn_prod. unfold over. cbn [words]. rewrite flat_map_concat_map, concat_map, csum_concat, !map_map. unfold csumn at 1. f_equal. apply map_ext_in. intros v Hv.
    rewrite map_map, IH. apply over_ext. intros u Hu. cbn [dig]. apply in_words in Hu as [-> _]. reflexivity.
Qed.
Fixpoint undig (q n i : nat) : list nat := match n with O => [] | S n => (i / q ^ n)%nat :: undig q n (i mod q ^ n) end.
Lemma undig_dig q n u : In u (words q n) -> undig q n (dig q u) = u.
Proof.
  revert u. induction n as [|n IH]; intros u H.
  - apply in_words in H as [H1 _]. now destruct u.
  - pose proof H as H0. apply in_words in H as [H1 H2]. destruct u as [|v u]; [discriminate|]. cbn [length] in H1. injection H1 as H1.
    assert (Hu : In u (words q n)) by (apply in_words; split; [exact H1|intros; apply H2; now right]).
    pose proof (dig_lt q n u Hu). cbn [undig dig]. rewrite H1, split_div, split_mod by assumption. now rewrite IH.
Qed.
Lemma dig_undig q n i : (0 < q)%nat -> (i < q ^ n)%nat -> In (undig q n i) (words q n) /\ dig q (undig q n i) = i.
Proof.
  intros Hq. revert i. induction n as [|n IH]; intros i Hi.
  - cbn in Hi. split; [now left|cbn; lia].
  - assert (P : (q ^ n <> 0)%nat) by (apply Nat.pow_nonzero; lia). destruct (IH (i mod q ^ n)%nat (Nat.mod_upper_bound _ _ P)) as [I1 I2].
    cbn [undig]. split.
    + apply in_words in I1 as [J1 J2]. apply in_words. split; [cbn; now rewrite J1|]. intros v [<-|Hv]; [|now apply J2]. apply Nat.div_lt_upper_bound; [exact P|]. cbn in Hi. lia.
    + cbn [dig]. apply in_words in I1 as [J1 _]. rewrite J1, I2. rewrite (Nat.div_mod i (q ^ n)) at 3 by exact P. lia.
Qed.
Lemma outcomes_words k : outcomes k = words 4 k.
Proof. induction k as [|k IH]; [reflexivity|]. cbn [outcomes words]. rewrite IH. reflexivity. Qed.

(** ** products *)
Lemma cprod_app a b : cprod (a ++ b) = (cprod a * cprod b)%C.
Proof. induction a as [|x a IH]; cbn; [ring|rewrite IH; ring]. Qed.
Lemma cprod_perm a b : Permutation a b -> cprod a = cprod b.
Proof. intros H. induction H; cbn; [reflexivity|rewrite IHPermutation; reflexivity|ring|congruence]. Qed.
Lemma cprod_conj l : Cconj (cprod l) = cprod (map Cconj l).
Proof. induction l as [|x l IH]; [apply Cconj_C1|]. cbn. now rewrite Cconj_mul, IH. Qed.
Lemma cprod_mul {A} (f g : A -> C) l : cprod (map (fun x => (f x * g x)%C) l) = (cprod (map f l) * cprod (map g l))%C.
Proof. induction l as [|x l IH]; cbn; [ring|rewrite IH; ring]. Qed.
Lemma cprod_ext {A} (f g : A -> C) l : (forall x, In x l -> f x = g x) -> cprod (map f l) = cprod (map g l).
Proof. intros H. f_equal. now apply map_ext_in. Qed.
Lemma cprod_one {A} (f : A -> C) l : (forall x, In x l -> f x = C1) -> cprod (map f l) = C1.
Proof. intros H. induction l as [|x l IH]; [reflexivity|]. cbn. rewrite (H x), IH; [ring|intros; apply H; now right|now left]. Qed.
Lemma cprod_zero {A} (f : A -> C) l x : In x l -> f x = C0 -> cprod (map f l) = C0.
Proof. intros H E. induction l as [|y l IH]; [destruct H|]. cbn. destruct H as [->|H]; [rewrite E|rewrite IH by exact H]; ring. Qed.
Lemma map_nth_seq_ {A} (g : nat -> A) (l : list nat) : map (fun k => g (nth k l 0%nat)) (seq 0 (length l)) = map g l.
Proof.
  apply nth_ext with (d := g 0%nat) (d' := g 0%nat); [now rewrite !map_length, seq_length|]. intros n Hn. rewrite map_length, seq_length in Hn.
  rewrite (nth_map_seq_ (fun k => g (nth k l 0%nat))) by exact Hn. now rewrite map_nth.
Qed.
(** the sum of products is the product of the sums *)
Lemma over_cprod q n (c : nat -> nat -> C) s : over q n (fun a => cprod (map (fun i => c (s + i)%nat (nth i a 0%nat)) (seq 0 n))) = cprod (map (fun i => csumn q (c (s + i)%nat)) (seq 0 n)).
Proof.
  revert s. induction n as [|n IH]; intros s.
  - unfold over. cbn. ring.
  - unfold over. cbn [words]. rewrite flat_map_concat_map, concat_map, csum_concat, !map_map.
    rewrite (csum_ext _ (fun v => (c s v * cprod (map (fun i => csumn q (c (S s + i)%nat)) (seq 0 n)))%C)).
    + rewrite csum_scal_r. cbn [seq map cprod]. rewrite Nat.add_0_r. unfold csumn at 3. f_equal. rewrite <- seq_shift, map_map. f_equal. apply map_ext. intros i. now rewrite Nat.add_succ_r.
    + intros v _. rewrite map_map. cbn [seq map cprod]. rewrite Nat.add_0_r. rewrite (csum_ext _ (fun a => (c s v * cprod (map (fun i => c (S s + i)%nat (nth i a 0%nat)) (seq 0 n)))%C)).
      * rewrite csum_scal. f_equal. apply (IH (S s)).
      * intros a _. f_equal. rewrite <- seq_shift, map_map. f_equal. apply map_ext. intros i. cbn [nth]. now rewrite Nat.add_succ_r.
Qed.
