(** Freshness of random keys. *)
From Coq Require Import List Arith Lia.
From Verif Require Import Keys_Model Sampler2_Proofs.
Import ListNotations.

Definition extends (k l : key) : Prop := exists p, l = p ++ k.
Lemma ext_refl k : extends k k. Proof. now exists []. Qed.
Lemma ext_trans a b c : extends a b -> extends b c -> extends a c.
Proof. intros [p ->] [q ->]. exists (q ++ p). apply app_assoc. Qed.
Lemma ext_child k i : extends k (i :: k). Proof. now exists [i]. Qed.
Lemma ext_length a b : extends a b -> length a <= length b.
Proof. intros [p ->]. rewrite app_length. lia. Qed.
(** two keys below a common one are comparable *)
Lemma ext_linear a b c : extends a c -> extends b c -> extends a b \/ extends b a.
Proof.
  intros [p ->] [q E]. revert q E. induction p as [|x p IH]; intros q E.
  - cbn in E. subst. right. now exists q.
  - destruct q as [|y q]; cbn in E.
    + left. subst. exists (x :: p). reflexivity.
    + inversion E. eapply IH; eassumption.
Qed.
Lemma ext_strict k i l : extends (i :: k) l -> l <> k /\ extends k l.
Proof. intros H. split; [|eapply ext_trans; [apply ext_child|exact H]]. intros ->. apply ext_length in H. cbn in H. lia. Qed.
Lemma children_apart k i j l : extends (i :: k) l -> extends (j :: k) l -> i = j.
Proof.
  intros [p ->] [q E]. assert (E' : (p ++ [i]) ++ k = (q ++ [j]) ++ k) by (rewrite <- !app_assoc; exact E). apply app_inv_tail in E'. apply app_inj_tail in E' as [_ ->]. reflexivity.
Qed.

(** keys none of which extends another *)
Definition antichain (ks : list key) : Prop := NoDup ks /\ forall a b, In a ks -> In b ks -> extends a b -> a = b.
Definition apart (ks ks' : list key) : Prop := forall a b l, In a ks -> In b ks' -> extends a l -> extends b l -> False.

(** [used] and the new keys [ks'] stem from [ks], and stay usable *)
Record fresh (ks used ks' : list key) : Prop := mk_fresh {
  f_nodup : NoDup used;
  f_used : forall l, In l used -> exists k, In k ks /\ extends k l;
  f_new : forall l, In l ks' -> exists k, In k ks /\ extends k l;
  f_anti : antichain ks';
  f_apart : forall l k, In l used -> In k ks' -> ~ extends k l }.

Lemma fresh_nil ks : antichain ks -> fresh ks [] ks.
Proof. intros H. constructor; [constructor|intros l []| |assumption|intros l k []]. intros l Hl. exists l. split; [assumption|apply ext_refl]. Qed.

Lemma fresh_seq ks u ks1 v ks2 : fresh ks u ks1 -> fresh ks1 v ks2 -> fresh ks (u ++ v) ks2.
Proof.
  intros A B. constructor.
  - apply NoDup_app'; [apply A|apply B|]. intros l Hu Hv. destruct (f_used _ _ _ B l Hv) as (k & Hk & He). exact (f_apart _ _ _ A l k Hu Hk He).
  - intros l Hl. apply in_app_or in Hl as [Hl|Hl]; [now apply (f_used _ _ _ A)|]. destruct (f_used _ _ _ B l Hl) as (k & Hk & He). destruct (f_new _ _ _ A k Hk) as (k0 & H0 & E0). exists k0. split; [assumption|eapply ext_trans; eassumption].
  - intros l Hl. destruct (f_new _ _ _ B l Hl) as (k & Hk & He). destruct (f_new _ _ _ A k Hk) as (k0 & H0 & E0). exists k0. split; [assumption|eapply ext_trans; eassumption].
  - apply B.
  - intros l k Hl Hk He. apply in_app_or in Hl as [Hl|Hl]; [|exact (f_apart _ _ _ B l k Hl Hk He)].
    destruct (f_new _ _ _ B k Hk) as (k1 & H1 & E1). exact (f_apart _ _ _ A l k1 Hl H1 (ext_trans _ _ _ E1 He)).
Qed.

Lemma fresh_par a u a' b v b' : apart a b -> fresh a u a' -> fresh b v b' -> fresh (a ++ b) (u ++ v) (a' ++ b').
Proof.
  intros P A B.
  assert (X : forall x y l, (exists k, In k a /\ extends k x) -> (exists k, In k b /\ extends k y) -> extends x l -> extends y l -> False).
  { intros x y l (k & Hk & E1) (k' & Hk' & E2) E3 E4. exact (P k k' l Hk Hk' (ext_trans _ _ _ E1 E3) (ext_trans _ _ _ E2 E4)). }
  constructor.
  - apply NoDup_app'; [apply A|apply B|]. intros l Hu Hv. exact (X l l l (f_used _ _ _ A l Hu) (f_used _ _ _ B l Hv) (ext_refl l) (ext_refl l)).
  - intros l Hl. apply in_app_or in Hl as [Hl|Hl]; [destruct (f_used _ _ _ A l Hl) as (k & Hk & E)|destruct (f_used _ _ _ B l Hl) as (k & Hk & E)]; exists k; (split; [apply in_or_app; auto|assumption]).
  - intros l Hl. apply in_app_or in Hl as [Hl|Hl]; [destruct (f_new _ _ _ A l Hl) as (k & Hk & E)|destruct (f_new _ _ _ B l Hl) as (k & Hk & E)]; exists k; (split; [apply in_or_app; auto|assumption]).
  - split.
    + apply NoDup_app'; [apply A|apply B|]. intros l Hu Hv. exact (X l l l (f_new _ _ _ A l Hu) (f_new _ _ _ B l Hv) (ext_refl l) (ext_refl l)).
    + intros x y Hx Hy E. apply in_app_or in Hx as [Hx|Hx]; apply in_app_or in Hy as [Hy|Hy].
      * exact (proj2 (f_anti _ _ _ A) x y Hx Hy E).
      * exfalso. exact (X x y y (f_new _ _ _ A x Hx) (f_new _ _ _ B y Hy) E (ext_refl y)).
      * exfalso. exact (X y x y (f_new _ _ _ A y Hy) (f_new _ _ _ B x Hx) (ext_refl y) E).
      * exact (proj2 (f_anti _ _ _ B) x y Hx Hy E).
  - intros l k Hl Hk E. apply in_app_or in Hl as [Hl|Hl]; apply in_app_or in Hk as [Hk|Hk].
    + exact (f_apart _ _ _ A l k Hl Hk E).
    + exact (X l k l (f_used _ _ _ A l Hl) (f_new _ _ _ B k Hk) (ext_refl l) E).
    + exact (X k l l (f_new _ _ _ A k Hk) (f_used _ _ _ B l Hl) E (ext_refl l)).
    + exact (f_apart _ _ _ B l k Hl Hk E).
Qed.

Lemma antichain_cons_apart k ks : antichain (k :: ks) -> apart [k] ks.
Proof.
  intros [Hn H] a b l [<-|[]] Hb E1 E2. inversion Hn; subst. destruct (ext_linear _ _ _ E1 E2) as [E|E].
  - apply H in E; [|now left|now right]. now subst.
  - apply H in E; [|now right|now left]. now subst.
Qed.
Lemma antichain_app_apart a b : antichain (a ++ b) -> apart a b.
Proof.
  intros [Hn H] x y l Hx Hy E1 E2. assert (x <> y). { intros ->. clear -Hn Hx Hy. induction a; [contradiction|]. cbn in Hn. inversion Hn; subst. destruct Hx as [->|Hx]; [apply H1, in_or_app; auto|auto]. }
  destruct (ext_linear _ _ _ E1 E2) as [E|E]; apply H in E; try (apply in_or_app; auto); congruence.
Qed.
Lemma antichain_app_inv a b : antichain (a ++ b) -> antichain a /\ antichain b.
Proof.
  intros [Hn H]. assert (NoDup a /\ NoDup b) as [Ha Hb].
  { clear H. induction a as [|x a IH]; [split; [constructor|assumption]|]. cbn in Hn. inversion Hn; subst. destruct (IH H2). split; [constructor; [|assumption]|assumption]. intros Hx. apply H1, in_or_app. auto. }
  split; (split; [assumption|]); intros x y Hx Hy; apply H; apply in_or_app; auto.
Qed.

(** ** consumers *)
Definition own_keys (p : key -> list key) : Prop := forall k, NoDup (p k) /\ forall l, In l (p k) -> extends k l.

Lemma in_split k n l : In l (split k n) <-> exists i, i < n /\ l = i :: k.
Proof. unfold split. rewrite in_map_iff. split; [intros (i & <- & Hi); apply in_seq in Hi; exists i; split; [lia|reflexivity]|intros (i & Hi & ->); exists i; split; [reflexivity|apply in_seq; lia]]. Qed.
Lemma NoDup_split k n : NoDup (split k n).
Proof. apply NoDup_map_inj; [intros x y E; now inversion E|apply seq_NoDup]. Qed.
Lemma antichain_split k n : antichain (split k n).
Proof.
  split; [apply NoDup_split|]. intros a b Ha Hb E. apply in_split in Ha as (i & _ & ->). apply in_split in Hb as (j & _ & ->).
  now rewrite (children_apart k i j (j :: k) E (ext_refl _)).
Qed.
Lemma antichain_firstn n ks : antichain ks -> antichain (firstn n ks).
Proof. intros H. rewrite <- (firstn_skipn n ks) in H. now apply antichain_app_inv in H. Qed.
Lemma antichain_skipn n ks : antichain ks -> antichain (skipn n ks).
Proof. intros H. rewrite <- (firstn_skipn n ks) in H. now apply antichain_app_inv in H. Qed.
Lemma antichain_nil : antichain []. Proof. split; [constructor|intros a b []]. Qed.

Lemma own_flat_map p ks : own_keys p -> antichain ks -> fresh ks (flat_map p ks) [].
Proof.
  intros Hp Ha. constructor.
  - destruct Ha as [Hn H]. apply NoDup_flat_map; [assumption|intros; apply Hp|]. intros x y l Hx Hy H1 H2. apply Hp in H1. apply Hp in H2.
    destruct (ext_linear _ _ _ H1 H2) as [E|E]; apply H in E; auto.
  - intros l Hl. apply in_flat_map in Hl as (k & Hk & Hl). exists k. split; [assumption|now apply Hp].
  - intros l [].
  - apply antichain_nil.
  - intros l k _ [].
Qed.
(** the split key itself, then everything below its children *)
Lemma fresh_split k n ks used ks' : (forall l, In l ks -> In l (split k n)) -> fresh ks used ks' -> fresh [k] (k :: used) ks'.
Proof.
  intros Hs H.
  assert (X : forall l, (exists c, In c ks /\ extends c l) -> l <> k /\ extends k l).
  { intros l (c & Hc & E). apply Hs, in_split in Hc as (i & _ & ->). now apply ext_strict in E. }
  constructor.
  - constructor; [|apply H]. intros Hk. apply (f_used _ _ _ H), X in Hk. now apply (proj1 Hk).
  - intros l [<-|Hl]; [exists k; split; [now left|apply ext_refl]|]. exists k. split; [now left|]. apply X, (f_used _ _ _ H), Hl.
  - intros l Hl. exists k. split; [now left|]. apply X, (f_new _ _ _ H), Hl.
  - apply H.
  - intros l k' [<-|Hl] Hk'; [|now apply (f_apart _ _ _ H)]. intros E. apply (f_new _ _ _ H), X in Hk' as [N E']. apply N. destruct E as [p Ep]. destruct E' as [q Eq].
    assert (L : length q + length p = 0) by (pose proof (f_equal (@length nat) Ep); pose proof (f_equal (@length nat) Eq); rewrite app_length in *; lia).
    destruct p; [now symmetry|cbn in L; lia].
Qed.
Lemma own_split p n : own_keys p -> own_keys (fun k => k :: flat_map p (split k n)).
Proof.
  intros Hp k. pose proof (fresh_split k n _ _ _ (fun l H => H) (own_flat_map p _ Hp (antichain_split k n))) as F. split; [apply F|].
  intros l Hl. destruct (f_used _ _ _ F l Hl) as (c & [<-|[]] & E). exact E.
Qed.
Lemma own_draw : own_keys (fun k => [k]).
Proof. intros k. split; [repeat constructor; auto|]. intros l [<-|[]]. apply ext_refl. Qed.
Lemma flat_map_draw ks : flat_map (fun k : key => [k]) ks = ks.
Proof. induction ks; cbn; congruence. Qed.

Lemma own_spin_flip : own_keys use_spin_flip. Proof. exact own_draw. Qed.
Lemma own_Z2 : own_keys use_Z2. Proof. intros k. exact (own_split _ 2 own_draw k). Qed.
Lemma own_zeroMag : own_keys use_zeroMag. Proof. intros k. exact (own_split _ 3 own_draw k). Qed.
Lemma own_POVM : own_keys use_POVM.
Proof.
  intros k. destruct (own_Z2 k) as [N H]. split; [|intros l [<-|[<-|[<-|[]]]]; apply H; cbn; auto].
  inversion N as [|? ? N1 N2]; subst. inversion N2 as [|? ? N3 N4]; subst. constructor; [cbn in *; tauto|]. constructor; [intros [E|[]]; discriminate|repeat constructor; auto].
Qed.
Lemma own_rnn1d L batch : own_keys (use_rnn1d L batch).
Proof.
  intros k. pose proof (own_split _ batch (own_split _ L own_draw) k) as H. unfold use_rnn1d.
  rewrite (flat_map_ext _ (fun s => s :: flat_map (fun k => [k]) (split s L))); [exact H|]. intros s. now rewrite flat_map_draw.
Qed.
Lemma own_rnn2d Lx Ly batch : own_keys (use_rnn2d Lx Ly batch).
Proof.
  intros k. pose proof (own_split _ batch (own_split _ Lx (own_split _ Ly own_draw)) k) as H. unfold use_rnn2d.
  rewrite (flat_map_ext _ (fun s => s :: flat_map (fun r => r :: flat_map (fun k => [k]) (split r Ly)) (split s Lx))); [exact H|]. intros s. f_equal. apply flat_map_ext. intros r. now rewrite flat_map_draw.
Qed.

Section Run.
Variables (proposer : key -> list key) (netSample : nat -> key -> list key).
Hypothesis (Hprop : own_keys proposer) (Hnet : forall n, own_keys (netSample n)).

Lemma firstn_split k n m : firstn n (split k (n + m)) = split k n.
Proof. unfold split. rewrite firstn_map, seq_app, firstn_app, seq_length, Nat.sub_diag, firstn_O, app_nil_r, firstn_all2 by (now rewrite seq_length). reflexivity. Qed.
Lemma last_split k n : last (split k (n + 1)) [] = n :: k.
Proof. unfold split. rewrite seq_app, map_app. cbn. apply last_last. Qed.

Lemma update_fresh chains k : fresh [k] (fst (update_keys proposer chains k)) [snd (update_keys proposer chains k)].
Proof.
  unfold update_keys. rewrite firstn_split, last_split. cbn [fst snd split map seq nth].
  apply (fresh_split k (chains + 1) (split k chains ++ [chains :: k])).
  - intros l Hl. apply in_split. apply in_app_or in Hl as [Hl|[<-|[]]]; [apply in_split in Hl as (i & Hi & ->); exists i; split; [lia|reflexivity]|exists chains; split; [lia|reflexivity]].
  - apply (fresh_par (split k chains) (flat_map proposer (split k chains)) [] [chains :: k] [chains :: k; 0 :: chains :: k] [1 :: chains :: k]).
    + intros a b l Ha [<-|[]] E1 E2. apply in_split in Ha as (i & Hi & ->). pose proof (children_apart _ _ _ _ E1 E2). lia.
    + apply own_flat_map; [assumption|apply antichain_split].
    + apply (fresh_split (chains :: k) 2 ([0 :: chains :: k] ++ [1 :: chains :: k]) [0 :: chains :: k] [1 :: chains :: k]); [intros l Hl; exact Hl|].
      apply (fresh_par [0 :: chains :: k] [0 :: chains :: k] [] [1 :: chains :: k] [] [1 :: chains :: k]).
      * intros a b l [<-|[]] [<-|[]] E1 E2. pose proof (children_apart _ _ _ _ E1 E2). discriminate.
      * apply (own_flat_map (fun k => [k]) [0 :: chains :: k] own_draw). split; [repeat constructor; auto|]. intros a b [<-|[]] [<-|[]] _. reflexivity.
      * apply fresh_nil. split; [repeat constructor; auto|]. intros a b [<-|[]] [<-|[]] _. reflexivity.
Qed.
Lemma antichain_one k : antichain [k].
Proof. split; [repeat constructor; auto|]. intros a b [<-|[]] [<-|[]] _. reflexivity. Qed.
Lemma updates_fresh n chains k : fresh [k] (fst (updates_keys proposer n chains k)) [snd (updates_keys proposer n chains k)].
Proof.
  revert k. induction n as [|n IH]; intros k; cbn [updates_keys]; [apply fresh_nil, antichain_one|].
  pose proof (update_fresh chains k) as H. destruct (update_keys proposer chains k) as [u k1]. cbn [fst snd] in H. specialize (IH k1). destruct (updates_keys proposer n chains k1) as [v k2]. cbn [fst snd] in *.
  eapply fresh_seq; eassumption.
Qed.
Lemma mcmc_fresh n chains ks : antichain ks -> fresh ks (fst (mcmc_keys proposer n chains ks)) (snd (mcmc_keys proposer n chains ks)).
Proof.
  unfold mcmc_keys. cbn [fst snd]. induction ks as [|k ks IH]; intros H; [apply fresh_nil, antichain_nil|]. cbn [map concat].
  pose proof (updates_fresh n chains k) as F. destruct (updates_keys proposer n chains k) as [u k']. cbn [fst snd] in *.
  apply (fresh_par [k] u [k'] ks); [now apply antichain_cons_apart|assumption|]. apply IH. change (k :: ks) with ([k] ++ ks) in H. now apply antichain_app_inv in H.
Qed.
Lemma fresh_sub ks ks0 u v : (forall k, In k ks0 -> In k ks) -> fresh ks0 u v -> fresh ks u v.
Proof.
  intros H F. constructor; try apply F.
  - intros l Hl. destruct (f_used _ _ _ F l Hl) as (k & Hk & E). eauto.
  - intros l Hl. destruct (f_new _ _ _ F l Hl) as (k & Hk & E). eauto.
Qed.
Lemma fresh_weaken ks u v u' : NoDup u' -> (forall l, In l u' -> In l u) -> fresh ks u v -> fresh ks u' v.
Proof. intros N H F. constructor; try assumption; try apply F; intros; [apply (f_used _ _ _ F); auto|]. apply (f_apart _ _ _ F); auto. Qed.

Lemma skipn_add {A} a b (l : list A) : skipn a (skipn b l) = skipn (a + b) l.
Proof. revert l. induction b as [|b IH]; intros l; [now rewrite Nat.add_0_r|]. rewrite Nat.add_succ_r. destruct l as [|x l]; [now rewrite !skipn_nil|]. cbn [skipn]. apply IH. Qed.
Lemma gen_fresh n devices orbit ks : ks <> [] -> antichain ks -> fresh ks (fst (gen_keys netSample n devices orbit ks)) (snd (gen_keys netSample n devices orbit ks)).
Proof.
  intros Hne _. destruct ks as [|k ks]; [congruence|]. apply (fresh_sub _ [k]); [cbn; tauto|]. unfold gen_keys. cbn [hd fst snd].
  set (t := split k (3 * devices)). set (A := firstn devices t). set (B := firstn devices (skipn devices t)). set (D := skipn (2 * devices) t).
  assert (Et : t = A ++ (B ++ D)).
  { unfold A, B, D. rewrite <- (firstn_skipn devices t) at 1. f_equal. rewrite <- (firstn_skipn devices (skipn devices t)) at 1. f_equal.
    rewrite skipn_add. f_equal. lia. }
  pose proof (antichain_split k (3 * devices)) as HA. fold t in HA. rewrite Et in HA. pose proof HA as HA'. apply antichain_app_inv in HA' as [Ha Hbd]. pose proof Hbd as Hbd'. apply antichain_app_inv in Hbd' as [Hb Hd].
  assert (F : fresh (B ++ D) (flat_map (netSample n) B ++ D) []).
  { apply (fresh_par B _ [] D D []); [now apply antichain_app_apart|now apply own_flat_map|]. rewrite <- (flat_map_draw D) at 2. apply own_flat_map; [apply own_draw|assumption]. }
  assert (F' : fresh (B ++ D) (flat_map (netSample n) B ++ (if orbit then D else [])) []).
  { destruct orbit; [exact F|]. eapply fresh_weaken; [| |exact F]; [|intros l Hl; apply in_or_app; rewrite app_nil_r in Hl; auto].
    rewrite app_nil_r. apply (f_nodup B _ []). now apply own_flat_map. }
  apply (fresh_split k (3 * devices) (A ++ (B ++ D))); [intros l Hl; rewrite <- Et in Hl; exact Hl|].
  pose proof (fresh_par A [] A (B ++ D) _ [] (antichain_app_apart _ _ HA) (fresh_nil _ Ha) F') as G. cbn [app] in G. rewrite app_nil_r in G. exact G.
Qed.

Definition local_call (devices : nat) (c : call) (rk : nat * list key) :=
  match c with
  | Mcmc n chains => mcmc_keys proposer (n (fst rk)) chains (snd rk)
  | Gen n orbit => gen_keys netSample (n (fst rk)) devices orbit (snd rk)
  | SetKey seed => ([], set_random_key seed devices)
  end.
Definition is_sample (c : call) : Prop := match c with SetKey _ => False | _ => True end.

Lemma local_fresh devices c r ks : is_sample c -> ks <> [] -> antichain ks -> fresh ks (fst (local_call devices c (r, ks))) (snd (local_call devices c (r, ks))).
Proof. intros Hc Hn Ha. destruct c; cbn [local_call fst snd]; [now apply mcmc_fresh|now apply gen_fresh|contradiction]. Qed.
Lemma local_devices devices c r ks : is_sample c -> 1 <= devices -> length ks = devices -> length (snd (local_call devices c (r, ks))) = devices.
Proof.
  intros Hc Hd El. destruct c; cbn [local_call fst snd]; [|unfold gen_keys; cbn [snd]; rewrite firstn_length; unfold split; rewrite map_length, seq_length; lia|contradiction].
  unfold mcmc_keys. cbn [snd]. now rewrite !map_length.
Qed.

Lemma call_fresh devices c world : is_sample c -> 1 <= devices -> Forall (fun ks => length ks = devices) world -> antichain (concat world) ->
  fresh (concat world) (fst (do_call proposer netSample devices c world)) (concat (snd (do_call proposer netSample devices c world)))
  /\ Forall (fun ks => length ks = devices) (snd (do_call proposer netSample devices c world)).
Proof.
  intros Hc Hd. unfold do_call. cbn [fst snd]. change (fun rk => match c with Mcmc n chains => mcmc_keys proposer (n (fst rk)) chains (snd rk) | Gen n orbit => gen_keys netSample (n (fst rk)) devices orbit (snd rk) | SetKey seed => ([], set_random_key seed devices) end) with (local_call devices c).
  generalize 0 at 1 2 3. induction world as [|ks world IH]; intros start F Ha; [split; [apply fresh_nil, antichain_nil|constructor]|].
  inversion F; subst. cbn [length seq combine map concat] in *. destruct (IH (S start)) as [G1 G2]; [assumption|now apply antichain_app_inv in Ha|]. split.
  - apply fresh_par; [now apply antichain_app_apart| |exact G1]. apply local_fresh; [assumption|destruct ks; [cbn in Hd; lia|discriminate]|now apply antichain_app_inv in Ha].
  - constructor; [now apply local_devices|exact G2].
Qed.
Lemma calls_fresh devices cs world : Forall is_sample cs -> 1 <= devices -> Forall (fun ks => length ks = devices) world -> antichain (concat world) ->
  fresh (concat world) (fst (do_calls proposer netSample devices cs world)) (concat (snd (do_calls proposer netSample devices cs world))).
Proof.
  intros Hcs Hd. revert world. induction Hcs as [|c cs Hc _ IH]; intros world F Ha; cbn [do_calls]; [now apply fresh_nil|].
  destruct (call_fresh devices c world Hc Hd F Ha) as [G1 G2]. destruct (do_call proposer netSample devices c world) as [u w]. cbn [fst snd] in *.
  specialize (IH w G2 (f_anti _ _ _ G1)). destruct (do_calls proposer netSample devices cs w) as [v w']. cbn [fst snd] in *. eapply fresh_seq; eassumption.
Qed.

Lemma init_antichain seed commSize devices : antichain (concat (init_world seed commSize devices)) /\ Forall (fun ks => length ks = devices) (init_world seed commSize devices)
  /\ forall l, In l (concat (init_world seed commSize devices)) -> extends (PRNGKey seed) l.
Proof.
  assert (E : init_world seed commSize devices = map (fun r => split (r :: PRNGKey seed) devices) (seq 0 commSize)).
  { unfold init_world, init_keys. apply map_ext_in. intros r Hr. apply in_seq in Hr. unfold split at 2. rewrite (nth_indep _ [] (0 :: PRNGKey seed)) by (rewrite map_length, seq_length; lia).
    rewrite (map_nth (fun i => i :: PRNGKey seed)), seq_nth by lia. reflexivity. }
  rewrite E. clear E.
  assert (I : forall l, In l (concat (map (fun r => split (r :: PRNGKey seed) devices) (seq 0 commSize))) -> exists r i, l = i :: r :: PRNGKey seed /\ i < devices /\ r < commSize).
  { intros l Hl. apply in_concat in Hl as (ks & Hk & Hl). apply in_map_iff in Hk as (r & <- & Hr). apply in_seq in Hr. apply in_split in Hl as (i & Hi & ->). exists r, i. repeat split; lia. }
  split; [split|split].
  - rewrite <- flat_map_concat_map. apply NoDup_flat_map; [apply seq_NoDup|intros; apply NoDup_split|].
    intros x y l _ _ Hx Hy. apply in_split in Hx as (i & _ & ->). apply in_split in Hy as (j & _ & E). now inversion E.
  - intros a b Ha Hb [p E]. apply I in Ha as (r & i & -> & _). apply I in Hb as (r' & i' & -> & _).
    assert (p = []) as ->; [|cbn in E; congruence]. pose proof (f_equal (@length nat) E) as EL. rewrite app_length in EL. cbn in EL. destruct p; [reflexivity|cbn in EL; lia].
  - apply Forall_map, Forall_forall. intros r _. unfold split. now rewrite map_length, seq_length.
  - intros l Hl. apply I in Hl as (r & i & -> & _). now exists [i; r].
Qed.

Theorem consumed_NoDup seed commSize devices cs : 1 <= devices -> Forall is_sample cs -> NoDup (consumed proposer netSample seed commSize devices cs).
Proof. intros Hd Hcs. destruct (init_antichain seed commSize devices) as (H1 & H2 & _). apply (f_nodup _ _ _ (calls_fresh devices cs _ Hcs Hd H2 H1)). Qed.

(** one rank, with set_random_key and a new seed every time *)
Definition seeds (cs : list call) : list nat := flat_map (fun c => match c with SetKey s => [s] | _ => [] end) cs.
Lemma set_antichain seed devices : antichain (set_random_key seed devices) /\ forall l, In l (set_random_key seed devices) -> extends (PRNGKey seed) l.
Proof. split; [apply antichain_split|]. intros l Hl. apply in_split in Hl as (i & _ & ->). now exists [i]. Qed.
Lemma seeds_apart s s' l : extends (PRNGKey s) l -> extends (PRNGKey s') l -> s = s'.
Proof. intros [p ->] [q E]. apply app_inj_tail in E. now destruct E. Qed.

Lemma one_rank devices cs : forall ks s, 1 <= devices -> length ks = devices -> antichain ks -> (forall l, In l ks -> extends (PRNGKey s) l) -> NoDup (s :: seeds cs) ->
  NoDup (fst (do_calls proposer netSample devices cs [ks]))
  /\ forall l, In l (fst (do_calls proposer netSample devices cs [ks])) -> (exists k, In k ks /\ extends k l) \/ exists s', In s' (seeds cs) /\ extends (PRNGKey s') l.
Proof.
  induction cs as [|c cs IH]; intros ks s Hd Hl Ha Hs Hn; [split; [constructor|intros l []]|].
  destruct c as [n chains|n orbit|seed].
  1, 2: cbn [do_calls]; (match goal with |- context [do_call _ _ _ ?c _] => destruct (call_fresh devices c [ks] I Hd) as [G1 G2]; [repeat constructor; assumption|cbn [concat]; now rewrite app_nil_r|] end);
    (match goal with |- context [do_call ?a ?b ?c ?d ?e] => destruct (do_call a b c d e) as [u w] eqn:Ew end); cbn [fst snd concat] in G1; rewrite app_nil_r in G1; cbn [snd] in G2;
    assert (exists ks', w = [ks']) as [ks' ->] by (unfold do_call in Ew; cbn [length seq combine map] in Ew; inversion Ew; eauto);
    cbn [concat] in G1; rewrite app_nil_r in G1; inversion G2 as [|? ? Hl' _]; subst;
    destruct (IH ks' s Hd Hl' (f_anti _ _ _ G1)) as [N U]; [intros l Hk; destruct (f_new _ _ _ G1 l Hk) as (k & Hk' & E); eapply ext_trans; [apply Hs, Hk'|exact E]|exact Hn|];
    destruct (do_calls proposer netSample (length ks) cs [ks']) as [v w']; cbn [fst] in *;
    (split; [apply NoDup_app'; [apply G1|exact N|]|]).
  1, 3: intros l Hu Hv; destruct (U l Hv) as [(k & Hk & E)|(s' & Hs' & E)];
     [exact (f_apart _ _ _ G1 l k Hu Hk E)|]; destruct (f_used _ _ _ G1 l Hu) as (k & Hk & E'); pose proof (seeds_apart s s' l (ext_trans _ _ _ (Hs k Hk) E') E); subst; inversion Hn; contradiction.
  1, 2: intros l Hin; apply in_app_or in Hin as [Hin|Hin]; [left; exact (f_used _ _ _ G1 l Hin)|]; destruct (U l Hin) as [(k & Hk & E)|X]; [left|right; exact X];
     destruct (f_new _ _ _ G1 k Hk) as (k0 & H0 & E0); exists k0; split; [assumption|eapply ext_trans; eassumption].
  cbn [do_calls do_call length seq combine map concat fst snd app]. cbn [seeds flat_map app] in Hn. fold (seeds cs) in Hn.
  destruct (set_antichain seed devices) as [A1 A2]. destruct (IH (set_random_key seed devices) seed Hd) as [N U]; [unfold set_random_key, split; now rewrite map_length, seq_length|assumption|assumption|now inversion Hn|].
  destruct (do_calls proposer netSample devices cs [set_random_key seed devices]) as [v w']. cbn [fst] in *. split; [exact N|].
  intros l Hin. right. destruct (U l Hin) as [(k & Hk & E)|(s' & Hs' & E)]; [exists seed; split; [now left|eapply ext_trans; [apply A2, Hk|exact E]]|exists s'; split; [now right|exact E]].
Qed.
Theorem consumed_one_rank seed devices cs : 1 <= devices -> NoDup (seed :: seeds cs) -> NoDup (consumed proposer netSample seed 1 devices cs).
Proof.
  intros Hd Hn. destruct (init_antichain seed 1 devices) as (H1 & H2 & H3). unfold consumed. unfold init_world in *. cbn [seq map concat] in *. rewrite app_nil_r in *. inversion H2 as [|? ? HL _].
  exact (proj1 (one_rank devices cs _ seed Hd HL H1 H3 Hn)).
Qed.
End Run.
