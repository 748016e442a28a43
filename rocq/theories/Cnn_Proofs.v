(** Proofs about convolutional networks. *)
From Coq Require Import ZArith List Reals Bool Arith Lia Lra Permutation.
From Verif Require Import Base Cplx BranchFree_Model Stats_Model Sym_Model Sampler2_Proofs Sym_Proofs Vqs_Proofs Cnn_Model Cnn_Spec.
Import ListNotations.

Lemma csum_flat_map {A B} (f : B -> C) (g : A -> list B) l : csum (map f (flat_map g l)) = csum (map (fun a => csum (map f (g a))) l).
Proof. induction l as [|a l IH]; [reflexivity|]. cbn [flat_map map]. now rewrite map_app, csum_app, csum_cons, IH. Qed.
Lemma in_indices sh idx : In idx (indices sh) <-> Forall2 lt idx sh.
Proof.
  revert idx. induction sh as [|n sh IH]; intros idx; cbn [indices].
  - split; [intros [<-|[]]; constructor|]. inversion 1. now left.
  - rewrite in_flat_map. split.
    + intros (i & Hi & H). apply in_map_iff in H as (r & <- & Hr). apply in_seq in Hi. constructor; [lia|now apply IH].
    + inversion 1 as [|i ? r ? H1 H2]; subst. exists i. split; [apply in_seq; lia|]. apply in_map. now apply IH.
Qed.
Lemma moved_in sh t idx : Forall2 lt idx sh -> length t = length sh -> Forall2 lt (moved sh t idx) sh.
Proof.
  intros H. revert t. induction H as [|i n idx sh Hi H IH]; intros [|a t] HL; try discriminate; cbn; constructor.
  - apply Nat.mod_upper_bound. lia.
  - apply IH. cbn in HL. lia.
Qed.
Lemma rotate_perm n a : Permutation (map (fun i => (i + a) mod n) (seq 0 n)) (seq 0 n).
Proof.
  destruct n as [|n]; [constructor|]. set (N := S n).
  apply NoDup_Permutation_bis.
  - assert (G : forall l, NoDup l -> (forall i, In i l -> i < N) -> NoDup (map (fun i => (i + a) mod N) l)).
    { induction 1 as [|x l Hx HN IH]; intros HB; cbn [map]; constructor; [|apply IH; intros; apply HB; now right].
      intros Hin. apply in_map_iff in Hin as (y & E & Hy). apply Hx. replace x with y; [exact Hy|].
      assert (Bx : x < N) by (apply HB; now left). assert (By : y < N) by (apply HB; now right).
      assert (NZ : N <> 0) by (unfold N; lia).
      pose proof (Nat.div_mod (y + a) N NZ) as D1. pose proof (Nat.div_mod (x + a) N NZ) as D2. rewrite E in D1.
      assert ((y + a) / N = (x + a) / N) by nia. nia. }
    apply G; [apply seq_NoDup|]. intros i Hi. apply in_seq in Hi. lia.
  - now rewrite map_length.
  - intros i Hi. apply in_map_iff in Hi as (j & <- & Hj). apply in_seq. pose proof (Nat.mod_upper_bound (j + a) N). unfold N in *. lia.
Qed.
Lemma csum_moved sh : forall t (f : list nat -> C), length t = length sh -> csum (map (fun idx => f (moved sh t idx)) (indices sh)) = csum (map f (indices sh)).
Proof.
  induction sh as [|n sh IH]; intros [|a t] f HL; try discriminate; [reflexivity|]. cbn [indices]. rewrite !csum_flat_map.
  transitivity (csum (map (fun i => csum (map (fun r => f (i :: r)) (indices sh))) (map (fun i => (i + a) mod n) (seq 0 n)))).
  - rewrite map_map. apply csum_ext. intros i _. rewrite map_map. cbn [moved]. apply (IH t (fun r => f ((i + a) mod n :: r))). cbn in HL. lia.
  - rewrite (csum_perm _ (map (fun i => csum (map (fun r => f (i :: r)) (indices sh))) (seq 0 n))) by apply Permutation_map, rotate_perm.
    apply csum_ext. intros i _. now rewrite map_map.
Qed.

(** two arrays, the second being the first one moved by t *)
Definition rel (sh t : list nat) (X Y : tensor) : Prop :=
  t_shape X = sh /\ t_shape Y = sh /\ t_chan X = t_chan Y
  /\ forall idx c, Forall2 lt idx sh -> t_at Y idx c = t_at X (moved sh t idx) c.

Lemma output_rel sh t X Y : length t = length sh -> rel sh t X Y -> output Y = output X.
Proof.
  intros HL (E1 & E2 & E3 & H). unfold output. rewrite E1, E2, E3. f_equal.
  refine (eq_trans _ (csum_moved sh t (fun idx => csum (map (t_at X idx) (seq 0 (t_chan Y)))) HL)). apply csum_ext. intros idx Hi. apply csum_ext. intros c _. apply H. now apply in_indices.
Qed.

Definition wrapped (sh idx j : list nat) : list nat := map2 (fun i n => i mod n) (map2 Nat.add (map2 Nat.mul idx (repeat 1 (length sh))) j) sh.
Lemma wrapped_cons n sh i idx k j : wrapped (n :: sh) (i :: idx) (k :: j) = (i * 1 + k) mod n :: wrapped sh idx j.
Proof. reflexivity. Qed.
Lemma wrapped_in sh idx F j : Forall2 lt idx sh -> Forall2 lt j F -> length F = length sh -> Forall2 lt (wrapped sh idx j) sh.
Proof.
  intros H. revert F j. induction H as [|i n idx sh Hi H IH]; intros F j HJ HL.
  - destruct F; [|discriminate]. inversion HJ. constructor.
  - destruct F as [|f F]; [discriminate|]. inversion HJ as [|k ? j' ? Hk HJ']; subst. rewrite wrapped_cons. constructor; [apply Nat.mod_upper_bound; lia|].
    apply (IH F); [exact HJ'|cbn in HL; lia].
Qed.
Lemma wrapped_moved sh idx F j : Forall2 lt idx sh -> Forall2 lt j F -> length F = length sh -> forall t, length t = length sh ->
  moved sh t (wrapped sh idx j) = wrapped sh (moved sh t idx) j.
Proof.
  intros H. revert F j. induction H as [|i n idx sh Hi H IH]; intros F j HJ HL t HT.
  - destruct F; [|discriminate]. inversion HJ. reflexivity.
  - destruct F as [|f F]; [discriminate|]. destruct t as [|a t]; [discriminate|]. inversion HJ as [|k ? j' ? Hk HJ']; subst. cbn [length] in HL, HT.
    cbn [moved]. rewrite !wrapped_cons. cbn [moved]. f_equal; [|apply (IH F); [exact HJ'|lia|lia]].
    rewrite !Nat.mul_1_r. rewrite !Nat.add_mod_idemp_l by lia. f_equal. lia.
Qed.
Lemma wrap_shape sh F : length F = length sh -> Forall (fun n => 1 <= n) F -> Forall (fun n => 1 <= n) sh ->
  map2 (fun nf s => (fst nf - snd nf) / s + 1) (combine (map2 (fun n f => n + (f - 1)) sh F) F) (repeat 1 (length sh)) = sh.
Proof.
  revert F. induction sh as [|n sh IH]; intros [|f F] HL HF HS; try discriminate; [reflexivity|].
  inversion HF as [|? ? Hf HF']; subst. inversion HS as [|? ? Hn HS']; subst. rewrite map2_cons. cbn [combine length repeat]. rewrite map2_cons. cbn [fst snd].
  f_equal; [rewrite Nat.div_1_r; lia|]. apply IH; [cbn in HL; lia|assumption|assumption].
Qed.
Lemma cnn_layer_rel sh t F l X Y : length t = length sh -> length F = length sh -> Forall (fun n => 1 <= n) F -> Forall (fun n => 1 <= n) sh ->
  rel sh t X Y -> rel sh t (cnn_layer F (repeat 1 (length sh)) true X l) (cnn_layer F (repeat 1 (length sh)) true Y l).
Proof.
  intros HT HL HF HS (E1 & E2 & E3 & H). destruct l as [[[c fn] b] p]. unfold cnn_layer, act, conv_valid, pad_wrap, rel. cbn [t_shape t_chan t_at].
  rewrite E1, E2, E3. split; [now apply wrap_shape|]. split; [now apply wrap_shape|]. split; [reflexivity|].
  intros idx c' Hi. f_equal. f_equal. apply csum_ext. intros j Hj. apply in_indices in Hj. apply csum_ext. intros c0 _. f_equal.
  fold (wrapped sh idx j). fold (wrapped sh (moved sh t idx) j). rewrite H by now apply (wrapped_in sh idx F j). now rewrite (wrapped_moved sh idx F j).
Qed.

(** filters of diameter one *)
Lemma same_pad_one n : 1 <= n -> same_pad n 1 1 = (0, 0).
Proof. intros H. unfold same_pad. rewrite Nat.div_1_r. replace (n + 1 - 1) with n by lia. replace ((n - 1) * 1 + 1 - n) with 0 by lia. reflexivity. Qed.
Lemma pads_one sh : Forall (fun n => 1 <= n) sh ->
  map2 (fun nf s => same_pad (fst nf) (snd nf) s) (combine (map2 (fun n f => n + (f - 1)) sh (repeat 1 (length sh))) (repeat 1 (length sh))) (repeat 1 (length sh)) = repeat (0, 0) (length sh).
Proof.
  induction 1 as [|n sh Hn HS IH]; [reflexivity|]. cbn [length repeat]. rewrite map2_cons. cbn [combine]. rewrite map2_cons. cbn [fst snd].
  rewrite IH. f_equal. replace (n + (1 - 1)) with n by lia. now apply same_pad_one.
Qed.
Lemma one_shape sh : Forall (fun n => 1 <= n) sh ->
  map2 (fun nf s => (fst nf - snd nf) / s + 1)
    (combine (map2 (fun n p => fst p + n + snd p) (map2 (fun n f => n + (f - 1)) sh (repeat 1 (length sh))) (repeat (0, 0) (length sh))) (repeat 1 (length sh))) (repeat 1 (length sh)) = sh.
Proof.
  induction 1 as [|n sh Hn HS IH]; [reflexivity|]. cbn [length repeat]. rewrite !map2_cons. cbn [combine]. rewrite map2_cons. cbn [fst snd]. rewrite IH. f_equal. rewrite Nat.div_1_r. lia.
Qed.
Lemma one_inside sh idx j : Forall2 lt idx sh -> Forall2 lt j (repeat 1 (length sh)) ->
  let k := map2 Nat.add (map2 Nat.mul idx (repeat 1 (length sh))) j in
  forallb (fun b => b) (map2 (fun ip n => (fst (snd ip) <=? fst ip) && (fst ip <? fst (snd ip) + n)) (combine k (repeat (0, 0) (length sh))) (map2 (fun n f => n + (f - 1)) sh (repeat 1 (length sh)))) = true
  /\ map2 (fun i n => i mod n) (map2 (fun i p => i - fst p) k (repeat (0, 0) (length sh))) sh = wrapped sh idx j.
Proof.
  intros H. revert j. induction H as [|i n idx sh Hi H IH]; intros j HJ.
  - inversion HJ. split; reflexivity.
  - cbn [length repeat] in HJ. inversion HJ as [|k0 ? j' ? Hk HJ']; subst. cbn [length repeat]. rewrite !map2_cons. cbn [combine]. rewrite !map2_cons. cbn [fst snd forallb].
    destruct (IH j' HJ') as [I1 I2]. split.
    + rewrite I1, andb_true_r. cbn [Nat.leb andb]. apply Nat.ltb_lt. lia.
    + rewrite wrapped_cons, I2. f_equal. f_equal. lia.
Qed.
Lemma cpx_layer_rel sh t l X Y : length t = length sh -> Forall (fun n => 1 <= n) sh ->
  rel sh t X Y -> rel sh t (cpx_cnn_layer (repeat 1 (length sh)) (repeat 1 (length sh)) true X l) (cpx_cnn_layer (repeat 1 (length sh)) (repeat 1 (length sh)) true Y l).
Proof.
  intros HT HS (E1 & E2 & E3 & H). destruct l as [[[c fn] b] p]. unfold cpx_cnn_layer, act, conv_same, conv_valid, pad_zero, pad_wrap, rel. cbn [t_shape t_chan t_at].
  rewrite E1, E2, E3, pads_one by assumption. split; [now apply one_shape|]. split; [now apply one_shape|]. split; [reflexivity|].
  intros idx c' Hi. f_equal. f_equal. apply csum_ext. intros j Hj. apply in_indices in Hj. apply csum_ext. intros c0 _. f_equal.
  destruct (one_inside sh idx j Hi Hj) as [I1 I2]. cbv zeta in I1, I2.
  destruct (one_inside sh (moved sh t idx) j (moved_in sh t idx Hi HT) Hj) as [J1 J2]. cbv zeta in J1, J2.
  rewrite I1, J1, I2, J2. assert (HL : length (repeat 1 (length sh)) = length sh) by apply repeat_length.
  rewrite H by now apply (wrapped_in sh idx (repeat 1 (length sh)) j). now rewrite (wrapped_moved sh idx (repeat 1 (length sh)) j).
Qed.
Lemma fold_rel {A} (f : tensor -> A -> tensor) sh t ls : (forall l X Y, rel sh t X Y -> rel sh t (f X l) (f Y l)) ->
  forall X Y, rel sh t X Y -> rel sh t (fold_left f ls X) (fold_left f ls Y).
Proof. intros H. induction ls as [|l ls IH]; intros X Y HR; cbn [fold_left]; [exact HR|]. apply IH. now apply H. Qed.
