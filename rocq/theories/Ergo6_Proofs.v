(** The proposal with zero magnetisation connects its space without periods. *)
From Coq Require Import ZArith List Reals Bool Arith Lia Lra.
From Verif Require Import Base Cplx Mpi_Model Mpi_Spec Stats_Model BranchFree_Model Dist Sampler_Model Sampler_Spec Sampler_Proofs Sampler2_Proofs Ergo_Model Ergo_Spec Ergo_Proofs Ergo2_Proofs Ergo3_Proofs Ergo4_Proofs Ergo5_Proofs.
Import ListNotations.

Lemma rsum_one {A} (f : A -> R) l a : (forall x, In x l -> (0 <= f x)%R) -> In a l -> (f a <= rsum (map f l))%R.
Proof.
  induction l as [|b l IH]; intros H Ha; [destruct Ha|]. cbn [map]. rewrite rsum_cons.
  assert (0 <= rsum (map f l))%R by (apply rsum_map_nonneg; intros; apply H; now right). pose proof (H b ltac:(now left)).
  destruct Ha as [->|Ha]; [lra|]. specialize (IH (fun x Hx => H x (or_intror Hx)) Ha). lra.
Qed.

Section ZeroMag.
Variables (a b : nat) (prop : config -> dist config).
Hypothesis Hp : forall s, length s = a * b -> propose_spin_flip_zeroMag [a; b] s = Ok (prop s).
Notation n := (a * b).

Lemma hit_nonneg s t k i j : (0 <= hit s t k i j)%R.
Proof. unfold hit. destruct (nth i s 0 =? 1), (nth j s 0 =? 0), (config_eq_dec (moveK k i j s) t); lra. Qed.
Lemma zeroMag_moves s i j k : In s (zm_configs n) -> i < n -> j < n -> nth i s 0 = 1 -> nth j s 0 = 0 -> k < 5 -> (0 < Pr (prop s) (moveK k i j s))%R.
Proof.
  intros Hs Hi Hj H1 H0 Hk. apply in_zm_configs in Hs as [L Hz]. rewrite (zeroMag_Pr a b s _ _ (Hp s L) L Hz).
  assert (Ho : (0 < INR (ones s))%R). { apply lt_0_INR. destruct Hz as [_ Hz]. lia. }
  assert (Hh : hit s (moveK k i j s) k i j = 1%R). { unfold hit. rewrite H1, H0. cbn [Nat.eqb]. destruct (config_eq_dec _ _); [reflexivity|congruence]. }
  repeat apply Rmult_lt_0_compat; try (now apply Rinv_0_lt_compat); [lra|]. rewrite L.
  apply Rlt_le_trans with 1%R; [lra|]. rewrite <- Hh.
  eapply Rle_trans; [|apply (rsum_one (fun i0 => rsum (map (fun j0 => rsum (map (fun k0 => hit s (moveK k i j s) k0 i0 j0) (seq 0 5))) (seq 0 n))) (seq 0 n) i); [|apply in_seq; lia]].
  - eapply Rle_trans; [|apply (rsum_one (fun j0 => rsum (map (fun k0 => hit s (moveK k i j s) k0 i j0) (seq 0 5))) (seq 0 n) j); [|apply in_seq; lia]].
    + apply (rsum_one (fun k0 => hit s (moveK k i j s) k0 i j)); [intros; apply hit_nonneg|apply in_seq; lia].
    + intros. apply rsum_map_nonneg. intros; apply hit_nonneg.
  - intros. apply rsum_map_nonneg. intros. apply rsum_map_nonneg. intros; apply hit_nonneg.
Qed.
Lemma swap_moves s i j : In s (zm_configs n) -> i < n -> j < n -> nth i s 0 = 1 -> nth j s 0 = 0 -> (0 < Pr (prop s) (swap i j s))%R.
Proof. intros. apply (zeroMag_moves s i j 1); auto; lia. Qed.
Lemma swap_in s i j : In s (zm_configs n) -> i < n -> j < n -> nth i s 0 = 1 -> nth j s 0 = 0 -> In (swap i j s) (zm_configs n).
Proof.
  intros Hs Hi Hj H1 H0. apply in_zm_configs in Hs as [L Hz]. apply in_zm_configs. split; [now rewrite swap_length|]. apply swap_zero_mag; auto; lia.
Qed.

Lemma ones_le_eq s t : length s = length t -> binary s -> binary t -> (forall p, p < length s -> nth p s 0 <= nth p t 0) -> ones t <= ones s -> s = t.
Proof.
  revert t. induction s as [|x s IH]; intros [|y t] L Bs Bt H Ho; cbn [length] in L; try lia; [reflexivity|].
  apply Forall_cons_iff in Bs as [Bx Bs]. apply Forall_cons_iff in Bt as [By Bt]. rewrite !ones_cons in Ho. pose proof (H 0 ltac:(cbn; lia)) as Hxy. cbn [nth] in Hxy.
  assert (Hl : ones s <= ones t).
  { assert (Hq : forall p, p < length s -> nth p s 0 <= nth p t 0) by (intros p Hp'; apply (H (S p)); cbn; lia). clear -L Bs Bt Hq. revert t L Bt Hq. induction s as [|x s IH]; intros [|y t] L Bt Hq; cbn [length] in *; try lia.
    apply Forall_cons_iff in Bs as [Bx Bs]. apply Forall_cons_iff in Bt as [By Bt]. rewrite !ones_cons. pose proof (Hq 0 ltac:(cbn; lia)) as Hxy. cbn [nth] in Hxy.
    specialize (IH Bs t ltac:(lia) Bt (fun p Hp' => Hq (S p) ltac:(lia))). destruct x as [|[|x]], y as [|[|y]]; cbn [Nat.eqb]; lia. }
  assert (x = y) as -> by (destruct x as [|[|x]], y as [|[|y]]; cbn [Nat.eqb] in Ho; lia). f_equal. apply IH; try assumption; [lia| |].
  - intros p Hp'. apply (H (S p)). cbn. lia.
  - lia.
Qed.

Lemma find_pos (P : nat -> bool) m : {i | i < m /\ P i = true} + {forall i, i < m -> P i = false}.
Proof.
  induction m as [|m [(i & Hi & H)|H]]; [right; lia|left; exists i; split; [lia|assumption]|]. destruct (P m) eqn:E; [left; exists m; split; [lia|assumption]|].
  right. intros i Hi. destruct (Nat.eq_dec i m) as [->|]; [assumption|]. apply H. lia.
Qed.

Definition differ (s t : config) : nat := length (filter (fun p => negb (nth p s 0 =? nth p t 0)) (seq 0 n)).

Lemma filter_lt {A} (p q : A -> bool) l x : (forall y, In y l -> p y = true -> q y = true) -> In x l -> q x = true -> p x = false -> length (filter p l) < length (filter q l).
Proof.
  assert (G : forall l, (forall y, In y l -> p y = true -> q y = true) -> length (filter p l) <= length (filter q l)).
  { clear l x. induction l as [|y l IH]; intros H; [reflexivity|]. cbn [filter]. specialize (IH (fun z Hz => H z (or_intror Hz))). specialize (H y (or_introl eq_refl)). destruct (p y); [rewrite H by reflexivity; cbn; lia|]. destruct (q y); cbn; lia. }
  induction l as [|y l IH]; intros H Hx Hq Hpx; [destruct Hx|]. cbn [filter]. pose proof (G l (fun z Hz => H z (or_intror Hz))) as Gl. destruct Hx as [->|Hx].
  - rewrite Hq, Hpx. cbn. lia.
  - specialize (IH (fun z Hz => H z (or_intror Hz)) Hx Hq Hpx). specialize (H y (or_introl eq_refl)). destruct (p y); [rewrite H by reflexivity; cbn; lia|]. destruct (q y); cbn; lia.
Qed.

Lemma zm_connected s t : In s (zm_configs n) -> In t (zm_configs n) -> exists m, walk prop m s t.
Proof.
  intros Hs Ht. remember (differ s t) as D eqn:ED. revert s Hs ED. induction D as [D IH] using lt_wf_ind. intros s Hs ->.
  pose proof Hs as Hs'. apply in_zm_configs in Hs' as (Ls & Bs & Os). pose proof Ht as Ht'. apply in_zm_configs in Ht' as (Lt & Bt & Ot).
  destruct (find_pos (fun i => (nth i s 0 =? 1) && (nth i t 0 =? 0)) n) as [(i & Hi & H)|Hno].
  2: { exists 0. replace t with s; [constructor|]. apply ones_le_eq; try assumption; [lia| |lia]. intros p Hp'. specialize (Hno p ltac:(lia)). apply andb_false_iff in Hno.
       pose proof (binary_nth s p Bs). destruct Hno as [Hno|Hno]; apply Nat.eqb_neq in Hno; lia. }
  apply andb_prop in H as [Hi1 Hi0]. apply Nat.eqb_eq in Hi1, Hi0.
  destruct (find_pos (fun j => (nth j s 0 =? 0) && (nth j t 0 =? 1)) n) as [(j & Hj & H)|Hno].
  2: { exists 0. replace t with s; [constructor|]. symmetry. apply ones_le_eq; try assumption; [lia| |lia]. intros p Hp'. specialize (Hno p ltac:(lia)). apply andb_false_iff in Hno.
       pose proof (binary_nth t p Bt). destruct Hno as [Hno|Hno]; apply Nat.eqb_neq in Hno; lia. }
  apply andb_prop in H as [Hj0 Hj1]. apply Nat.eqb_eq in Hj0, Hj1.
  destruct (IH (differ (swap i j s) t)) with (s := swap i j s) as (m & W); [|now apply swap_in|reflexivity|].
  - unfold differ. assert (N : forall p, nth p (swap i j s) 0 = if p =? j then 1 else if p =? i then 0 else nth p s 0) by (intros; apply nth_swap; lia).
    apply (filter_lt _ _ _ i).
    + intros p _ Hd. rewrite N in Hd. destruct (Nat.eqb_spec p j) as [Ej|_]; [rewrite Ej, Hj1 in Hd; discriminate Hd|]. destruct (Nat.eqb_spec p i) as [Ei|_]; [rewrite Ei, Hi0 in Hd; discriminate Hd|]. exact Hd.
    + apply in_seq. lia.
    + rewrite Hi1, Hi0. reflexivity.
    + rewrite N, Nat.eqb_refl. destruct (Nat.eqb_spec i j) as [->|]; [congruence|]. rewrite Hi0. reflexivity.
  - exists (1 + m). apply (walk_app _ _ _ _ (swap i j s)); [|exact W]. apply walk_1, swap_moves; assumption.
Qed.

Lemma swap_undo s i j : binary s -> i < length s -> j < length s -> nth i s 0 = 1 -> nth j s 0 = 0 -> swap j i (swap i j s) = s.
Proof.
  intros Bs Hi Hj H1 H0. assert (i <> j) by (intros ->; lia). apply (config_ext _ _ (length s)); rewrite ?swap_length; try reflexivity. intros p Hp'.
  rewrite !nth_swap by (rewrite ?swap_length; assumption). destruct (Nat.eqb_spec p i) as [->|]; [now rewrite H1|]. destruct (Nat.eqb_spec p j) as [->|]; [now rewrite H0|]. reflexivity.
Qed.

Lemma zm_closed z i j : In z (zm_configs n) -> i < n -> j < n -> nth i z 0 = 1 -> nth j z 0 = 0 -> walk prop 2 z z.
Proof.
  intros Hz Hi Hj H1 H0. assert (i <> j) by (intros ->; lia). pose proof Hz as Hz'. apply in_zm_configs in Hz' as (L & Bz & _).
  econstructor; [now apply (swap_moves z i j)|]. apply walk_1. rewrite <- (swap_undo z i j) at 2; [|assumption|lia|lia|assumption|assumption]. apply swap_moves; [now apply swap_in|assumption|assumption| |];
  rewrite nth_swap by lia; rewrite ?Nat.eqb_refl; [reflexivity|]. now destruct (Nat.eqb_spec i j).
Qed.
Lemma zm_triangle z i j k : In z (zm_configs n) -> i < n -> j < n -> k < n -> j <> k -> nth i z 0 = 1 -> nth j z 0 = 0 -> nth k z 0 = 0 -> walk prop 3 z z.
Proof.
  intros Hz Hi Hj Hk Hjk H1 H0 H0'. assert (i <> j) by (intros ->; lia). assert (i <> k) by (intros ->; lia). pose proof Hz as Hz'. apply in_zm_configs in Hz' as (L & Bz & _).
  assert (Z1 : In (swap i j z) (zm_configs n)) by now apply swap_in.
  assert (N1 : forall p, nth p (swap i j z) 0 = if p =? j then 1 else if p =? i then 0 else nth p z 0) by (intros; apply nth_swap; lia).
  assert (A1 : nth j (swap i j z) 0 = 1) by (rewrite N1, Nat.eqb_refl; reflexivity).
  assert (A2 : nth k (swap i j z) 0 = 0) by (rewrite N1; destruct (Nat.eqb_spec k j); [congruence|]; destruct (Nat.eqb_spec k i); [congruence|assumption]).
  assert (Z2 : In (swap j k (swap i j z)) (zm_configs n)) by now apply swap_in.
  assert (N2 : forall p, nth p (swap j k (swap i j z)) 0 = if p =? k then 1 else if p =? j then 0 else nth p (swap i j z) 0) by (intros; apply nth_swap; rewrite swap_length; lia).
  assert (A3 : nth k (swap j k (swap i j z)) 0 = 1) by (rewrite N2, Nat.eqb_refl; reflexivity).
  assert (A4 : nth i (swap j k (swap i j z)) 0 = 0).
  { rewrite N2. destruct (Nat.eqb_spec i k); [congruence|]. destruct (Nat.eqb_spec i j); [congruence|]. rewrite N1. destruct (Nat.eqb_spec i j); [congruence|]. now rewrite Nat.eqb_refl. }
  assert (Ez : swap k i (swap j k (swap i j z)) = z).
  { apply (config_ext _ _ n); [now rewrite !swap_length|assumption|]. intros p Hp'. rewrite nth_swap by (rewrite !swap_length; lia). rewrite N2, N1.
    destruct (Nat.eqb_spec p i) as [->|]; [lia|]. destruct (Nat.eqb_spec p k) as [->|]; [lia|]. destruct (Nat.eqb_spec p j) as [->|]; [lia|reflexivity]. }
  econstructor; [apply (swap_moves z i j); assumption|]. econstructor; [apply (swap_moves _ j k); assumption|]. apply walk_1. rewrite <- Ez at 2. apply swap_moves; assumption.
Qed.

(** a configuration with zero magnetisation *)
Lemma zm_witness h : n = 2 * h -> In (repeat 1 h ++ repeat 0 h) (zm_configs n).
Proof.
  intros Hn. apply in_zm_configs. assert (O : ones (repeat 1 h ++ repeat 0 h) = h).
  { unfold ones. rewrite filter_app, app_length.
    assert (Ha : forall m, length (filter (fun x => x =? 1) (repeat 1 m)) = m) by (induction m as [|m IH]; [reflexivity|cbn; now rewrite IH]).
    assert (Hb : forall m, length (filter (fun x => x =? 1) (repeat 0 m)) = 0) by (induction m as [|m IH]; [reflexivity|cbn; exact IH]).
    rewrite Ha, Hb. lia. }
  rewrite app_length, !repeat_length. split; [lia|]. split; [|rewrite O, app_length, !repeat_length; lia].
  apply Forall_app. split; apply Forall_forall; intros x Hx; apply repeat_spec in Hx; lia.
Qed.

Lemma zm_regular net mu : 1 <= n -> zm_configs n <> [] -> regular (zm_configs n) net mu prop.
Proof.
  intros Hn Hne. right.
  assert (exists h, n = 2 * h /\ 1 <= h) as (h & Eh & Hh).
  { destruct (zm_configs n) as [|s l] eqn:E; [congruence|]. assert (Hs : In s (zm_configs n)) by (rewrite E; now left). apply in_zm_configs in Hs as (L & _ & O). exists (ones s). lia. }
  pose proof (zm_witness h Eh) as Hz. set (z := repeat 1 h ++ repeat 0 h) in *.
  assert (N1 : nth 0 z 0 = 1) by (unfold z; destruct h; [lia|reflexivity]).
  assert (N0 : forall p, h <= p -> nth p z 0 = 0) by (intros p Hp'; unfold z; rewrite app_nth2, repeat_length by (rewrite repeat_length; lia); apply nth_repeat).
  assert (W2 : walk prop 2 z z) by (apply (zm_closed z 0 h); try assumption; try lia; apply N0; lia).
  destruct (Nat.eq_dec h 1) as [E1|E1].
  - exists z, 0. split; [assumption|]. split; [assumption|]. cbn [Nat.mul Nat.add]. apply walk_1.
    pose proof (zeroMag_moves z 0 h 0 Hz ltac:(lia) ltac:(lia) N1 (N0 h (le_n h)) ltac:(lia)) as P. replace z with (moveK 0 0 h z) at 2; [exact P|]. clear -E1. subst z h. reflexivity.
  - exists z, 1. split; [assumption|]. split; [assumption|]. cbn [Nat.mul Nat.add]. apply (zm_triangle z 0 h (h + 1)); try assumption; try lia; apply N0; lia.
Qed.
End ZeroMag.
