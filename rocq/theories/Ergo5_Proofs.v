(** The proposals connect their spaces; parity under single flips. *)
From Coq Require Import ZArith List Reals Bool Arith Lia Lra.
From Verif Require Import Base Cplx Mpi_Model Mpi_Spec Stats_Model BranchFree_Model Dist Sampler_Model Sampler_Spec Sampler_Proofs Sampler2_Proofs Ergo_Model Ergo_Spec Ergo_Proofs Ergo2_Proofs Ergo3_Proofs Ergo4_Proofs.
Import ListNotations.

(** ** every outcome has positive weight *)
Definition strict {A} (m : dist A) : Prop := Forall (fun wa => (0 < fst wa)%R) m.
Lemma strict_ret {A} (a : A) : strict (ret a).
Proof. constructor; [cbn; lra|constructor]. Qed.
Lemma strict_bind {A B} (m : dist A) (g : A -> dist B) : strict m -> (forall a, outcome m a -> strict (g a)) -> strict (dbind m g).
Proof.
  intros Hm Hg. unfold dbind. apply Forall_forall. intros vb H. apply in_flat_map in H as ([w a] & Hin & H). apply in_map_iff in H as ([v b] & <- & Hb).
  cbn [fst snd] in *. unfold strict in Hm. rewrite Forall_forall in Hm. pose proof (Hm _ Hin) as H1. cbn in H1.
  assert (strict (g a)) as H2. { apply Hg. apply (in_map snd) in Hin. exact Hin. }
  unfold strict in H2. rewrite Forall_forall in H2. pose proof (H2 _ Hb) as H3. cbn in H3. now apply Rmult_lt_0_compat.
Qed.
Lemma strict_uniform {A} (l : list A) : strict (uniform l).
Proof.
  unfold uniform. apply Forall_map. apply Forall_forall. intros a Ha. cbn [fst]. apply Rinv_0_lt_compat. apply lt_0_INR. destruct l; [destruct Ha|cbn; lia].
Qed.
Lemma strict_nonneg {A} (m : dist A) : strict m -> nonneg m.
Proof. intros H. eapply Forall_impl; [|exact H]. cbn. intros; lra. Qed.
Lemma strict_pos m t : strict m -> outcome m t -> (0 < Pr m t)%R.
Proof. intros H Ho. apply outcome_pos; [now apply strict_nonneg| |assumption]. intros w Hin. unfold strict in H. rewrite Forall_forall in H. exact (H _ Hin). Qed.

Lemma strict_spin_flip s : strict (propose_spin_flip s).
Proof. apply strict_bind; [apply strict_uniform|]. intros; apply strict_ret. Qed.
Lemma strict_Z2 s : strict (propose_spin_flip_Z2 s).
Proof. apply strict_bind; [apply strict_uniform|]. intros. apply strict_bind; [apply strict_uniform|]. intros; apply strict_ret. Qed.
Lemma strict_zeroMag a b s m : propose_spin_flip_zeroMag [a; b] s = Ok m -> strict m.
Proof.
  intros H. apply zeroMag_inv in H. subst m. apply strict_bind; [apply strict_uniform|]. intros. apply strict_bind; [apply strict_uniform|]. intros. apply strict_bind; [apply strict_uniform|]. intros; apply strict_ret.
Qed.

(** ** single flips reach everything *)
Section Flips.
Variable prop : config -> dist config.
Variable n : nat.
Hypothesis Hflip : forall s i, In s (all_configs 2 n) -> i < n -> (0 < Pr (prop s) (flip1 i s))%R.

Lemma flip_connected s t : In s (all_configs 2 n) -> In t (all_configs 2 n) -> exists m, walk prop m s t.
Proof.
  intros Hs Ht. pose proof Hs as Hs'. pose proof Ht as Ht'. apply in_all_configs in Hs' as [Ls Bs]. apply in_all_configs in Ht' as [Lt Bt].
  assert (G : forall k, k <= n -> exists m u, walk prop m s u /\ In u (all_configs 2 n) /\ (forall p, p < k -> nth p u 0 = nth p t 0) /\ (forall p, k <= p -> nth p u 0 = nth p s 0)).
  { induction k as [|k IH]; intros Hk.
    - exists 0, s. repeat split; [constructor|assumption|lia].
    - destruct IH as (m & u & W & Hu & H1 & H2); [lia|]. pose proof Hu as Hu'. apply in_all_configs in Hu' as [Lu Bu].
      destruct (Nat.eq_dec (nth k u 0) (nth k t 0)) as [E|E].
      + exists m, u. repeat split; try assumption; [|intros; apply H2; lia]. intros p Hp. destruct (Nat.eq_dec p k) as [->|]; [assumption|]. apply H1. lia.
      + exists (m + 1), (flip1 k u). split; [apply (walk_app _ _ _ _ u); [assumption|apply walk_1; apply Hflip; [assumption|lia]]|]. split; [apply in_all_configs; split; [now rewrite flip1_length|apply flip1_binary; [exact Bu|lia]]|].
        assert (Nf : forall p, nth p (flip1 k u) 0 = if p =? k then 1 - nth k u 0 else nth p u 0) by (intros; apply nth_flip1; [exact Bu|lia]). split.
        * intros p Hp. rewrite Nf. destruct (Nat.eqb_spec p k) as [->|]; [|apply H1; lia]. pose proof (binary_nth u k Bu). pose proof (binary_nth t k Bt). lia.
        * intros p Hp. rewrite Nf. destruct (Nat.eqb_spec p k); [lia|]. apply H2. lia. }
  destruct (G n (le_n n)) as (m & u & W & Hu & H1 & _). apply in_all_configs in Hu as [Lu _]. exists m. replace t with u; [exact W|]. now apply (config_ext _ _ n).
Qed.

Lemma flip_back s : 1 <= n -> In s (all_configs 2 n) -> walk prop 2 s s.
Proof.
  intros Hn Hs. pose proof Hs as Hs'. apply in_all_configs in Hs' as [Ls Bs]. econstructor; [apply (Hflip s 0); [assumption|lia]|]. apply walk_1.
  assert (H : flip1 0 (flip1 0 s) = s) by (apply (flip1_inv 0 s (flip1 0 s)); [exact Bs|lia|reflexivity]). rewrite <- H at 2. apply Hflip; [|lia].
  apply in_all_configs. split; [now rewrite flip1_length|apply flip1_binary; [exact Bs|lia]].
Qed.

(** after flipping the first j sites one after the other *)
Lemma flip_first s j : In s (all_configs 2 n) -> j <= n -> exists u, walk prop j s u /\ In u (all_configs 2 n) /\ forall p, p < n -> nth p u 0 = if p <? j then 1 - nth p s 0 else nth p s 0.
Proof.
  intros Hs. induction j as [|j IH]; intros Hj.
  - exists s. repeat split; [constructor|assumption].
  - destruct IH as (u & W & Hu & H); [lia|]. pose proof Hu as Hu'. apply in_all_configs in Hu' as [Lu Bu]. exists (flip1 j u). split; [|split].
    + replace (S j) with (j + 1) by lia. apply (walk_app _ _ _ _ u); [assumption|]. apply walk_1, Hflip; [assumption|lia].
    + apply in_all_configs. split; [now rewrite flip1_length|apply flip1_binary; [exact Bu|lia]].
    + intros p Hp. rewrite nth_flip1 by (try exact Bu; lia). rewrite !H by lia. destruct (Nat.eqb_spec p j) as [->|Hn].
      * replace (j <? j) with false by (symmetry; apply Nat.ltb_ge; lia). now replace (j <? S j) with true by (symmetry; apply Nat.ltb_lt; lia).
      * destruct (Nat.ltb_spec p j), (Nat.ltb_spec p (S j)); try reflexivity; lia.
Qed.
End Flips.

Lemma spin_flip_moves n s i : In s (all_configs 2 n) -> i < n -> (0 < Pr (propose_spin_flip s) (flip1 i s))%R.
Proof.
  intros Hs Hi. apply in_all_configs in Hs as [L _]. apply strict_pos; [apply strict_spin_flip|]. unfold propose_spin_flip. apply outcome_bind. exists i. split; [apply outcome_uniform, in_seq; lia|]. apply outcome_ret. reflexivity.
Qed.
Lemma Z2_outcome s i k : i < length s -> k < 5 -> outcome (propose_spin_flip_Z2 s) (flipZ2 i k s).
Proof.
  intros Hi Hk. unfold propose_spin_flip_Z2. apply outcome_bind. exists i. split; [apply outcome_uniform, in_seq; lia|]. apply outcome_bind. exists k. split; [apply outcome_uniform, in_seq; lia|]. apply outcome_ret. reflexivity.
Qed.
Lemma Z2_moves n s i : In s (all_configs 2 n) -> i < n -> (0 < Pr (propose_spin_flip_Z2 s) (flip1 i s))%R.
Proof.
  intros Hs Hi. apply in_all_configs in Hs as [L _]. apply strict_pos; [apply strict_Z2|]. apply (Z2_outcome s i 1); lia.
Qed.
Lemma Z2_odd q s : In s (all_configs 2 (2 * q + 1)) -> walk propose_spin_flip_Z2 (2 * q + 1) s s.
Proof.
  intros Hs. set (n := 2 * q + 1) in *. destruct (flip_first propose_spin_flip_Z2 n (Z2_moves n) s (2 * q) Hs ltac:(unfold n; lia)) as (u & W & Hu & H).
  unfold n at 1. apply (walk_app _ _ _ _ u); [exact W|]. apply walk_1. apply in_all_configs in Hu as [Lu Bu]. apply in_all_configs in Hs as [Ls Bs].
  apply strict_pos; [apply strict_Z2|]. replace s with (flipZ2 (2 * q) 0 u); [apply Z2_outcome; unfold n in *; lia|]. unfold flipZ2. cbn [Nat.eqb].
  apply (config_ext _ _ n); [now rewrite flip_all_length, flip1_length|assumption|]. intros p Hp. rewrite nth_flip_all by (rewrite flip1_length; lia). rewrite nth_flip1 by (try exact Bu; unfold n in *; lia).
  pose proof (binary_nth s p Bs). destruct (Nat.eqb_spec p (2 * q)) as [->|Hne].
  - rewrite H by (unfold n; lia). replace (2 * q <? 2 * q) with false by (symmetry; apply Nat.ltb_ge; lia). lia.
  - rewrite H by assumption. replace (p <? 2 * q) with true by (symmetry; apply Nat.ltb_lt; unfold n in Hp; lia). lia.
Qed.
