(** Enumeration of the basis and probabilities. *)
From Coq Require Import ZArith List Reals Lra Lia Bool Arith Permutation.
From Verif Require Import Base Cplx Mpi_Model Mpi_Spec Mpi_Props BranchFree_Model Sampler_Spec Sampler2_Proofs Exact_Model Exact_Spec.
Import ListNotations.
Local Open Scope Z_scope.

(** ** digits *)
Fixpoint val (lDim : Z) (s : list nat) : Z := match s with [] => 0 | x :: r => Z.of_nat x + lDim * val lDim r end.
Lemma scan_length N lDim c : length (scan_digits N lDim c) = N.
Proof. revert c. induction N as [|N IH]; intros c; cbn; [reflexivity|]. now rewrite IH. Qed.
Lemma div_exact a b : 0 < b -> (a - a mod b) / b = a / b.
Proof. intros H. rewrite (Z.div_mod a b) at 1 by lia. replace (b * (a / b) + a mod b - a mod b) with (a / b * b) by ring. apply Z.div_mul. lia. Qed.
Lemma scan_val N lDim c : 0 < lDim -> 0 <= c < lDim ^ Z.of_nat N -> val lDim (scan_digits N lDim c) = c.
Proof.
  intros Hl. revert c. induction N as [|N IH]; intros c Hc; [cbn in *; lia|]. cbn [scan_digits val]. rewrite div_exact by assumption.
  pose proof (Z.mod_pos_bound c lDim Hl). rewrite Z2Nat.id by lia. rewrite Nat2Z.inj_succ, Z.pow_succ_r in Hc by lia. rewrite IH.
  - pose proof (Z.div_mod c lDim). lia.
  - split; [apply Z.div_pos; lia|apply Z.div_lt_upper_bound; lia].
Qed.
Lemma scan_bound N lDim c : 0 < lDim -> Forall (fun x => (x < Z.to_nat lDim)%nat) (scan_digits N lDim c).
Proof.
  intros Hl. revert c. induction N as [|N IH]; intros c; cbn [scan_digits]; constructor; [|apply IH]. pose proof (Z.mod_pos_bound c lDim Hl). lia.
Qed.
Lemma ldim2_scan N c : 0 <= c -> make_state_ldim2 N c = scan_digits N 2 c.
Proof.
  unfold make_state_ldim2. assert (G : forall start, 0 <= c -> map (fun i => if Z.land (Z.shiftr c (Z.of_nat i)) 1 =? 0 then O else 1%nat) (seq start N) = scan_digits N 2 (Z.shiftr c (Z.of_nat start))).
  { induction N as [|N IH]; intros start Hc; [reflexivity|]. cbn [seq map scan_digits]. rewrite (IH (S start) Hc). f_equal.
    - change 1 with (Z.ones 1). rewrite Z.land_ones by lia. change (2 ^ 1) with 2. pose proof (Z.mod_pos_bound (Z.shiftr c (Z.of_nat start)) 2 ltac:(lia)). destruct (Z.eqb_spec (Z.shiftr c (Z.of_nat start) mod 2) 0); lia.
    - f_equal. rewrite div_exact by lia. rewrite Nat2Z.inj_succ, <- Z.add_1_r, <- Z.shiftr_shiftr by lia. rewrite (Z.shiftr_div_pow2 _ 1) by lia. reflexivity. }
  intros Hc. rewrite (G O Hc). change (Z.of_nat 0) with 0. now rewrite Z.shiftr_0_r.
Qed.

Lemma basis_spec N lDim c : 0 < lDim -> 0 <= c < lDim ^ Z.of_nat N ->
  In (make_basis N lDim c) (all_configs (Z.to_nat lDim) N) /\ (c = val lDim (make_basis N lDim c) \/ lDim <> 2) /\ (lDim <> 2 -> c = val lDim (rev (make_basis N lDim c))).
Proof.
  intros Hl Hc. unfold make_basis. destruct (Z.eqb_spec lDim 2) as [->|Hn].
  - rewrite ldim2_scan by lia. split; [apply in_all_configs; split; [apply scan_length|apply scan_bound; lia]|]. split; [left; symmetry; now apply scan_val|congruence].
  - unfold make_state. split; [apply in_all_configs; split; [now rewrite rev_length, scan_length|apply Forall_rev, scan_bound; lia]|]. split; [now right|].
    intros _. rewrite rev_involutive. symmetry. now apply scan_val.
Qed.
Lemma basis_inj N lDim c c' : 0 < lDim -> 0 <= c < lDim ^ Z.of_nat N -> 0 <= c' < lDim ^ Z.of_nat N -> make_basis N lDim c = make_basis N lDim c' -> c = c'.
Proof.
  intros Hl Hc Hc' E. destruct (basis_spec N lDim c Hl Hc) as (_ & A & B). destruct (basis_spec N lDim c' Hl Hc') as (_ & A' & B').
  destruct (Z.eq_dec lDim 2) as [->|Hn]; [|rewrite B, B' by assumption; now rewrite E]. destruct A as [A|]; [|congruence]. destruct A' as [A'|]; [|congruence]. rewrite A, A'. now rewrite E.
Qed.
Lemma all_configs_length d n : length (all_configs d n) = (d ^ n)%nat.
Proof.
  induction n as [|n IH]; [reflexivity|]. cbn [all_configs Nat.pow]. 
  assert (G : forall l, length (flat_map (fun x => map (cons x) (all_configs d n)) l) = (length l * d ^ n)%nat).
  { induction l as [|x l IHl]; [reflexivity|]. cbn [flat_map length]. rewrite app_length, map_length. cbn [Nat.mul]. f_equal; [exact IH|exact IHl]. }
  now rewrite G, seq_length.
Qed.
Lemma zarange_app a n m : zarange a (n + m) = zarange a n ++ zarange (a + Z.of_nat n) m.
Proof.
  unfold zarange. rewrite seq_app, map_app. f_equal. cbn. revert n. induction m as [|m IH]; intros n; [reflexivity|]. cbn [seq map]. f_equal; [lia|].
  rewrite (IH (S n)). rewrite <- seq_shift, map_map. apply map_ext. intros i. lia.
Qed.
Lemma in_zarange a n x : In x (zarange a n) <-> a <= x < a + Z.of_nat n.
Proof.
  unfold zarange. rewrite in_map_iff. split; [intros (i & <- & Hi); apply in_seq in Hi; lia|]. intros H. exists (Z.to_nat (x - a)). split; [lia|apply in_seq; lia].
Qed.
Lemma NoDup_zarange a n : NoDup (zarange a n).
Proof. apply NoDup_map_inj; [intros x y; lia|apply seq_NoDup]. Qed.
Lemma zarange_length a n : length (zarange a n) = n. Proof. unfold zarange. now rewrite map_length, seq_length. Qed.

Lemma NoDup_map_on {A B} (f : A -> B) l : (forall x y, In x l -> In y l -> f x = f y -> x = y) -> NoDup l -> NoDup (map f l).
Proof.
  intros H. induction 1 as [|x l Hx Hn IH]; cbn; constructor.
  - intros Hin. apply in_map_iff in Hin as (y & E & Hy). apply H in E; [now subst|now right|now left].
  - apply IH. intros a b Ha Hb. apply H; now right.
Qed.
Lemma enumeration N lDim : 0 < lDim -> Permutation (map (make_basis N lDim) (zarange 0 (Z.to_nat (lDim ^ Z.of_nat N)))) (all_configs (Z.to_nat lDim) N).
Proof.
  intros Hl. assert (Hp : 0 < lDim ^ Z.of_nat N) by (apply Z.pow_pos_nonneg; lia). apply NoDup_Permutation_bis.
  - apply NoDup_map_on; [|apply NoDup_zarange]. intros x y Hx Hy. apply in_zarange in Hx, Hy. apply basis_inj; lia.
  - rewrite map_length, zarange_length, all_configs_length.
    assert (E : Z.of_nat (Z.to_nat lDim ^ N)%nat = lDim ^ Z.of_nat N) by (rewrite Nat2Z.inj_pow, Z2Nat.id; lia). lia.
  - intros s Hs. apply in_map_iff in Hs as (c & <- & Hc). apply in_zarange in Hc. apply basis_spec; lia.
Qed.

(** ** splitting over devices and ranks *)
Lemma firstn_zarange k a n : (k <= n)%nat -> firstn k (zarange a n) = zarange a k.
Proof. intros H. replace n with (k + (n - k))%nat by lia. rewrite zarange_app, firstn_app, zarange_length, Nat.sub_diag, firstn_O, app_nil_r. apply firstn_all2. rewrite zarange_length. lia. Qed.

Definition per (my dev : Z) : Z := (my + dev - 1) / dev.
Lemma per_spec my dev : 0 <= my -> 0 < dev -> my <= dev * per my dev < my + dev.
Proof.
  intros H1 H2. unfold per. pose proof (Z.div_mod (my + dev - 1) dev). pose proof (Z.mod_pos_bound (my + dev - 1) dev H2). lia.
Qed.
Lemma concat_blocks (f : Z -> config) p first k start : 0 <= p ->
  concat (map counted (combine (repeat p k) (map (map f) (map (fun d => zarange (first + Z.of_nat d * p) (Z.to_nat p)) (seq start k)))))
  = map f (zarange (first + Z.of_nat start * p) (k * Z.to_nat p)).
Proof.
  intros Hp. revert start. induction k as [|k IH]; intros start; [reflexivity|]. cbn [repeat seq map combine concat]. rewrite IH. unfold counted. cbn [fst snd].
  rewrite firstn_map, firstn_zarange by lia. rewrite <- map_app. f_equal. cbn [Nat.mul]. rewrite zarange_app. f_equal. f_equal. lia.
Qed.
(** counted states of one rank *)
Lemma rank_states (f : Z -> config) first my dev : 0 <= my -> 0 < dev ->
  concat (map counted (combine (numStatesPerDevice my dev) (map (map f) (intReps first my dev))))
  = map f (zarange first (Z.to_nat (Z.max ((dev - 1) * per my dev) my))).
Proof.
  intros Hm Hd. destruct (per_spec my dev Hm Hd) as [P1 P2]. unfold numStatesPerDevice, intReps. fold (per my dev). set (p := per my dev) in *.
  assert (Hp : 0 <= p) by nia. set (k := (Z.to_nat dev - 1)%nat). replace (Z.to_nat dev) with (k + 1)%nat by lia. rewrite seq_app, !map_app.
  assert (CA : forall {A B} (a a' : list A) (b b' : list B), length a = length b -> combine (a ++ a') (b ++ b') = combine a b ++ combine a' b').
  { intros A B a. induction a as [|x a IHa]; intros a' [|y b] b' E; cbn in *; try discriminate; [reflexivity|]. f_equal. apply IHa. lia. }
  rewrite CA by (rewrite repeat_length, !map_length, seq_length; reflexivity). rewrite map_app, concat_app, concat_blocks by assumption.
  cbn [seq map combine concat]. rewrite app_nil_r. unfold counted. cbn [fst snd]. rewrite firstn_map.
  rewrite firstn_zarange by (subst k; nia). rewrite <- map_app. f_equal. replace (first + Z.of_nat 0 * p) with first by lia.
  replace (Z.to_nat (Z.max ((dev - 1) * p) my)) with (k * Z.to_nat p + Z.to_nat (p + (my - dev * p)))%nat.
  - rewrite zarange_app. f_equal. f_equal. lia.
  - assert (Z.of_nat k = dev - 1) by lia. assert (Z.of_nat (k * Z.to_nat p) = (dev - 1) * p) by (rewrite Nat2Z.inj_mul, Z2Nat.id by lia; nia). lia.
Qed.

Definition my_states (n c r : Z) : Z := fst (distribute_sampling r c n None 1).
(** no device of the rank has a negative number of states *)
Definition fits (n c dev r : Z) : Prop := (dev - 1) * per (my_states n c r) dev <= my_states n c r.

Lemma ranks_states (f : Z -> config) n c dev : 0 <= n -> 0 < c -> 0 < dev ->
  (forall r, 0 <= r < c -> fits n c dev r) -> forall k, Z.of_nat k <= c ->
  concat (map (fun r => map f (zarange (first_sample_id (Z.of_nat r) c n) (Z.to_nat (my_states n c (Z.of_nat r))))) (seq 0 k))
  = map f (zarange 0 (Z.to_nat (first_sample_id (Z.of_nat k) c n))).
Proof.
  intros Hn Hc Hd Hf. pose proof (C02_ranges_tile n c Hn Hc) as (_ & T2 & T3). cbn [snd distribute_sampling] in T2, T3. unfold my_states.
  assert (F0 : forall k, Z.of_nat k <= c -> 0 <= first_sample_id (Z.of_nat k) c n).
  { intros k Hk. destruct k as [|k]; [cbn; unfold first_sample_id; destruct (0 <? n mod c) eqn:E; [lia|]; pose proof (Z.mod_pos_bound n c Hc); lia|].
    specialize (T3 (Z.of_nat k) ltac:(lia)). rewrite Nat2Z.inj_succ. unfold Z.succ. rewrite T3. specialize (T2 (Z.of_nat k) ltac:(lia)). cbn [fst distribute_sampling] in *. unfold samples_per_process in *. pose proof (Z.div_pos n c Hn Hc). destruct (Z.of_nat k <? n mod c); lia. }
  induction k as [|k IH]; intros Hk.
  - cbn [seq map concat]. replace (first_sample_id (Z.of_nat 0) c n) with 0; [reflexivity|]. unfold first_sample_id. cbn. destruct (Z.ltb_spec 0 (n mod c)); [reflexivity|]. pose proof (Z.mod_pos_bound n c Hc). lia.
  - rewrite seq_S, map_app, concat_app, IH by lia. cbn [map concat]. rewrite app_nil_r, <- map_app. f_equal. rewrite Nat2Z.inj_succ. unfold Z.succ. rewrite (T3 (Z.of_nat k)) by lia.
    specialize (F0 k ltac:(lia)). specialize (T2 (Z.of_nat k) ltac:(lia)). assert (0 <= fst (distribute_sampling (Z.of_nat k) c n None 1)) by (cbn; unfold samples_per_process; pose proof (Z.div_pos n c Hn Hc); destruct (Z.of_nat k <? n mod c); lia).
    rewrite Z2Nat.inj_add by assumption. rewrite zarange_app. f_equal. f_equal. now rewrite Z2Nat.id by assumption.
Qed.
Lemma first_last n c : 0 <= n -> 0 < c -> first_sample_id c c n = n.
Proof.
  intros Hn Hc. unfold first_sample_id. pose proof (Z.mod_pos_bound n c Hc). destruct (Z.ltb_spec c (n mod c)); [lia|]. pose proof (Z.div_mod n c). lia.
Qed.
Lemma my_nonneg n c r : 0 <= n -> 0 < c -> 0 <= my_states n c r.
Proof. intros Hn Hc. cbn. unfold my_states, samples_per_process. cbn. unfold samples_per_process. pose proof (Z.div_pos n c Hn Hc). destruct (r <? n mod c); lia. Qed.

Definition world (N : nat) (lDim c dev : Z) : list (list (Z * list config)) := map (fun r => get_basis (Z.of_nat r) c N lDim dev) (seq 0 (Z.to_nat c)).
Lemma world_counted N lDim c dev : 0 < lDim -> 0 < c -> 0 < dev -> let n := lDim ^ Z.of_nat N in
  all_counted (world N lDim c dev) = concat (map (fun r => map (make_basis N lDim) (zarange (first_sample_id (Z.of_nat r) c n) (Z.to_nat (Z.max ((dev - 1) * per (my_states n c (Z.of_nat r)) dev) (my_states n c (Z.of_nat r)))))) (seq 0 (Z.to_nat c))).
Proof.
  intros Hl Hc Hd n. assert (Hn : 0 <= n) by (apply Z.pow_nonneg; lia). unfold all_counted, world. induction (seq 0 (Z.to_nat c)) as [|r l IH]; [reflexivity|]. cbn [map concat].
  rewrite map_app, concat_app, IH. f_equal. unfold get_basis. fold n. cbn [distribute_sampling]. rewrite rank_states; [reflexivity| |assumption]. exact (my_nonneg n c (Z.of_nat r) Hn Hc).
Qed.
Theorem enumerates_iff N lDim c dev : 0 < lDim -> 0 < c -> 0 < dev ->
  (Permutation (all_counted (world N lDim c dev)) (all_configs (Z.to_nat lDim) N) <-> forall r, 0 <= r < c -> fits (lDim ^ Z.of_nat N) c dev r).
Proof.
  intros Hl Hc Hd. rewrite world_counted by assumption. set (n := lDim ^ Z.of_nat N). assert (Hn : 0 <= n) by (apply Z.pow_nonneg; lia).
  assert (G : (forall r, 0 <= r < c -> fits n c dev r) -> concat (map (fun r => map (make_basis N lDim) (zarange (first_sample_id (Z.of_nat r) c n) (Z.to_nat (my_states n c (Z.of_nat r))))) (seq 0 (Z.to_nat c))) = map (make_basis N lDim) (zarange 0 (Z.to_nat n))).
  { intros Hf. rewrite (ranks_states (make_basis N lDim) n c dev Hn Hc Hd Hf (Z.to_nat c)) by lia. rewrite Z2Nat.id by lia. now rewrite first_last. }
  split.
  - intros HP. apply Permutation_length in HP. rewrite all_configs_length in HP.
    assert (E : Z.of_nat (Z.to_nat lDim ^ N)%nat = n) by (rewrite Nat2Z.inj_pow, Z2Nat.id; lia).
    (* length of the rank lists *)
    assert (L : forall g, length (concat (map (fun r => map (make_basis N lDim) (zarange (first_sample_id (Z.of_nat r) c n) (g r))) (seq 0 (Z.to_nat c)))) = fold_right Nat.add O (map g (seq 0 (Z.to_nat c)))).
    { intros g. clear HP G. induction (seq 0 (Z.to_nat c)) as [|r l IH]; [reflexivity|]. cbn [map concat fold_right]. rewrite app_length, map_length, zarange_length. f_equal. exact IH. }
    rewrite L in HP. 
    assert (T : forall k, Z.of_nat k <= c -> Z.of_nat (fold_right Nat.add O (map (fun r => Z.to_nat (my_states n c (Z.of_nat r))) (seq 0 k))) = first_sample_id (Z.of_nat k) c n).
    { pose proof (C02_ranges_tile n c Hn Hc) as (_ & _ & T3). cbn [snd distribute_sampling] in T3. induction k as [|k IHk]; intros Hk.
      - cbn. unfold first_sample_id. destruct (Z.ltb_spec 0 (n mod c)); [reflexivity|]. pose proof (Z.mod_pos_bound n c Hc). lia.
      - rewrite Nat2Z.inj_succ. unfold Z.succ. rewrite (T3 (Z.of_nat k)) by lia. rewrite <- IHk by lia. rewrite seq_S, map_app. cbn [map].
        assert (FA : forall a x, fold_right Nat.add O (a ++ [x]) = (fold_right Nat.add O a + x)%nat) by (intros a; induction a as [|y a IHa]; intros x; cbn; [lia|]; rewrite IHa; lia).
        rewrite FA, Nat2Z.inj_add. f_equal. cbn [plus]. rewrite Z2Nat.id by (apply my_nonneg; assumption). reflexivity. }
    specialize (T (Z.to_nat c) ltac:(lia)). rewrite Z2Nat.id, first_last in T by lia.
    assert (S : forall l, (forall r, In r l -> (Z.to_nat (my_states n c (Z.of_nat r)) <= Z.to_nat (Z.max ((dev - 1) * per (my_states n c (Z.of_nat r)) dev) (my_states n c (Z.of_nat r))))%nat)
        /\ (fold_right Nat.add O (map (fun r => Z.to_nat (my_states n c (Z.of_nat r))) l) <= fold_right Nat.add O (map (fun r => Z.to_nat (Z.max ((dev - 1) * per (my_states n c (Z.of_nat r)) dev) (my_states n c (Z.of_nat r)))) l))%nat
        /\ (fold_right Nat.add O (map (fun r => Z.to_nat (Z.max ((dev - 1) * per (my_states n c (Z.of_nat r)) dev) (my_states n c (Z.of_nat r)))) l) = fold_right Nat.add O (map (fun r => Z.to_nat (my_states n c (Z.of_nat r))) l) -> forall r, In r l -> fits n c dev (Z.of_nat r))).
    { induction l as [|r l (I1 & I2 & I3)]; cbn [map fold_right]; [split; [intros r []|split; [lia|intros _ r []]]|].
      assert (H0 : (Z.to_nat (my_states n c (Z.of_nat r)) <= Z.to_nat (Z.max ((dev - 1) * per (my_states n c (Z.of_nat r)) dev) (my_states n c (Z.of_nat r))))%nat) by lia.
      split; [intros r' [<-|H]; auto|]. split; [lia|]. intros E' r' [<-|H]; [|apply I3; [lia|assumption]]. unfold fits. pose proof (my_nonneg n c (Z.of_nat r) Hn Hc). lia. }
    intros r Hr. destruct (S (seq 0 (Z.to_nat c))) as (_ & _ & S3). specialize (S3 ltac:(lia) (Z.to_nat r)). rewrite Z2Nat.id in S3 by lia. apply S3. apply in_seq. lia.
  - intros Hf. rewrite <- (enumeration N lDim Hl). fold n. rewrite <- (G Hf).
    rewrite (map_ext_in _ (fun r => map (make_basis N lDim) (zarange (first_sample_id (Z.of_nat r) c n) (Z.to_nat (my_states n c (Z.of_nat r)))))); [reflexivity|].
    intros r Hr. apply in_seq in Hr. f_equal. f_equal. specialize (Hf (Z.of_nat r) ltac:(lia)). unfold fits in Hf. f_equal. lia.
Qed.
(** enough states per rank *)
Lemma fits_many n c dev r : 0 <= n -> 0 < c -> 0 < dev -> (dev - 1) * (dev - 1) <= my_states n c r -> fits n c dev r.
Proof.
  intros Hn Hc Hd H. unfold fits. pose proof (my_nonneg n c r Hn Hc). destruct (per_spec (my_states n c r) dev) as [P1 P2]; [assumption|assumption|]. nia.
Qed.

(** ** probabilities *)
Lemma mask_spec {A} (zero : A) n l : mask zero n l = firstn (Z.to_nat n) l ++ repeat zero (length l - Z.to_nat n).
Proof.
  unfold mask. assert (G : forall (start : nat) m, (Z.of_nat start + Z.of_nat m = n \/ m = O /\ n <= Z.of_nat start) ->
     map (fun ix => if Z.of_nat (fst ix) <? n then snd ix else zero) (combine (seq start (length l)) l) = firstn m l ++ repeat zero (length l - m)).
  { induction l as [|x l IH]; intros start m Hm; [cbn; now rewrite firstn_nil|]. cbn [length seq combine map fst snd]. destruct m as [|m].
    - rewrite (IH (S start) O) by lia. destruct (Z.ltb_spec (Z.of_nat start) n); [lia|]. cbn. now rewrite Nat.sub_0_r.
    - rewrite (IH (S start) m) by lia. destruct (Z.ltb_spec (Z.of_nat start) n); [|lia]. reflexivity. }
  apply G. lia.
Qed.

Local Open Scope R_scope.
Lemma compute_spec lpf ln0 nx : lpf <> 0 ->
  compute_probabilities lpf ln0 (fst nx) (snd nx)
  = map (fun l => born_weight lpf l * exp (- ln0 / lpf)) (counted nx) ++ repeat 0 (length (snd nx) - Z.to_nat (fst nx)).
Proof.
  intros Hl. unfold compute_probabilities. rewrite mask_spec, map_length, firstn_map. f_equal. unfold counted. apply map_ext. intros l. unfold born_weight. rewrite <- exp_plus. f_equal. field. assumption.
Qed.
Lemma rsum_zeros n : rsum (repeat 0 n) = 0.
Proof. induction n as [|n IH]; [reflexivity|]. cbn [repeat]. rewrite rsum_cons, IH. ring. Qed.
Lemma concat_map2 {A B} (f : A -> list B) (ll : list (list A)) : concat (concat (map (map f) ll)) = concat (map f (concat ll)).
Proof. now rewrite concat_map. Qed.
Lemma total_spec lpf ln0 data : lpf <> 0 ->
  rsum (concat (concat (map (map (fun d => compute_probabilities lpf ln0 (fst d) (snd d))) data)))
  = exp (- ln0 / lpf) * rsum (map (born_weight lpf) (all_counted data)).
Proof.
  intros Hl. rewrite concat_map2. unfold all_counted. induction (concat data) as [|d l IH]; cbn [map concat]; [rewrite !rsum_nil; ring|].
  rewrite map_app, !rsum_app, IH, compute_spec by assumption. rewrite rsum_app, rsum_zeros, rsum_scal_r. ring.
Qed.
Lemma exact_spec lpf ln0 data : lpf <> 0 -> all_counted data <> [] ->
  let Zn := rsum (map (born_weight lpf) (all_counted data)) in
  (0 < Zn)%R /\ exact_sample lpf ln0 data = (map (map (born_probs lpf Zn)) data, lpf * ln Zn)%R.
Proof.
  intros Hl Hne Zn. assert (HZ : 0 < Zn) by (apply rsum_map_pos; [assumption|intros; apply exp_pos]). split; [assumption|]. unfold exact_sample. cbv zeta. rewrite total_spec by assumption. fold Zn. pose proof (exp_pos (- ln0 / lpf)) as He. f_equal.
  - rewrite map_map. apply map_ext. intros ds. rewrite map_map. apply map_ext. intros d. rewrite compute_spec by assumption. unfold born_probs. rewrite map_app, map_map. f_equal.
    + apply map_ext. intros l. field. split; lra.
    + generalize (length (snd d) - Z.to_nat (fst d))%nat. intros n. induction n as [|n IH]; [reflexivity|]. cbn [repeat map]. rewrite IH. f_equal. unfold Rdiv. ring.
  - rewrite ln_mult by assumption. rewrite ln_exp. field. assumption.
Qed.
