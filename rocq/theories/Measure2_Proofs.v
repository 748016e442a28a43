(** POVM observables *)
From Coq Require Import String List Arith Reals Lra Lia Permutation.
From Verif Require Import Base Cplx Mpi_Model Mpi_Spec Mpi_Proofs Measure_Model Measure_Spec Measure_Proofs.
Import ListNotations.
Local Open Scope R_scope.

Section Shapes.
Variable f : list nat -> R.

Lemma on_samples_shape states p : same_shape states p -> same_shape (on_samples f states) p.
Proof.
  induction 1 as [|d w states p [Hne H] _ IH]; [constructor|]. cbn [on_samples map]. constructor; [|exact IH].
  split; [destruct d; [contradiction|discriminate]|].
  clear Hne IH. induction H as [|x y d w Hxy _ IH]; constructor; [now rewrite map_length|exact IH].
Qed.

Lemma concat_on_samples states : concat (concat (on_samples f states)) = map (fun s => RtoC (f s)) (concat (concat states)).
Proof.
  unfold on_samples. now rewrite !concat_map.
Qed.

Lemma combine_map_r {A B D} (g : B -> D) (a : list A) (b : list B) : combine a (map g b) = map (fun xy => (fst xy, g (snd xy))) (combine a b).
Proof. revert b. induction a as [|x a IH]; intros [|y b]; cbn; try reflexivity. now rewrite IH. Qed.

Lemma pairs_on_samples states p : pairs (on_samples f states) p = map (fun pv => (fst pv, RtoC (snd pv))) (weighted f states p).
Proof.
  unfold pairs, weighted. rewrite concat_on_samples, combine_map_r, map_map. apply map_ext. now intros [w s].
Qed.

Lemma wmean_real xs : wmean (map (fun pv => (fst pv, RtoC (snd pv))) xs) = RtoC (mean_of xs).
Proof.
  unfold wmean, mean_of. rewrite <- csum_RtoC, !map_map. apply csum_ext. intros [w v] _. cbn.
  Cunf. apply C_eq; cbn; lra.
Qed.
Lemma wvar_real xs : wvar (map (fun pv => (fst pv, RtoC (snd pv))) xs) = var_of xs.
Proof.
  unfold wvar, var_of. rewrite wmean_real, map_map. f_equal. apply map_ext. intros [w v]. cbn [fst snd].
  Cunf. cbn. lra.
Qed.
End Shapes.

(** ** rolling an array *)
Lemma rsum_perm a b : Permutation a b -> rsum a = rsum b.
Proof. apply big_perm; intros; lra. Qed.

Definition rotl {A} (k : nat) (x : list A) : list A := skipn k x ++ firstn k x.
Lemma rotl_perm {A} k (x : list A) : Permutation (rotl k x) x.
Proof. unfold rotl. rewrite <- (firstn_skipn k x) at 3. apply Permutation_app_comm. Qed.
Lemma rotl_length {A} k (x : list A) : length (rotl k x) = length x.
Proof. apply Permutation_length, rotl_perm. Qed.
Lemma combine_rotl {A B} k (x : list A) (y : list B) : length x = length y -> combine (rotl k x) (rotl k y) = rotl k (combine x y).
Proof.
  intros H. unfold rotl. rewrite combine_app.
  - f_equal; [|now rewrite combine_firstn].
    revert x y H. induction k as [|k IH]; intros [|a x] [|b y] H; try discriminate; cbn; try reflexivity. apply IH. now injection H.
  - rewrite !skipn_length. lia.
Qed.
Lemma rotl_rotl {A} k (x : list A) : (k <= length x)%nat -> rotl k (rotl (length x - k) x) = x.
Proof.
  intros H. unfold rotl.
  assert (length (skipn (length x - k) x) = k) as E by (rewrite skipn_length; lia).
  rewrite skipn_app, firstn_app, E, Nat.sub_diag. cbn [skipn firstn].
  rewrite app_nil_r. rewrite (skipn_all2 (skipn _ x)) by lia. rewrite (firstn_all2 (skipn _ x)) by lia. cbn.
  apply firstn_skipn.
Qed.
Lemma roll_rotl k x : roll k x = rotl (length x - k mod length x) x.
Proof. reflexivity. Qed.

Lemma nth_skipn_ {A} k (x : list A) j d : nth j (skipn k x) d = nth (k + j) x d.
Proof. revert x. induction k as [|k IH]; intros [|a x]; cbn; auto. destruct j; reflexivity. Qed.
Lemma nth_firstn_ {A} k (x : list A) j d : (j < k)%nat -> nth j (firstn k x) d = nth j x d.
Proof. revert x j. induction k as [|k IH]; intros [|a x] [|j] H; cbn; auto; try lia. apply IH. lia. Qed.
Lemma nth_rotl k (x : list R) j : (k <= length x)%nat -> (j < length x)%nat -> nth j (rotl k x) 0 = nth ((j + k) mod length x) x 0.
Proof.
  intros Hk Hj. unfold rotl.
  destruct (Nat.lt_ge_cases j (length x - k)) as [H|H].
  - rewrite app_nth1 by (rewrite skipn_length; lia). rewrite Nat.mod_small by lia.
    rewrite nth_skipn_. f_equal. lia.
  - rewrite app_nth2 by (rewrite skipn_length; lia). rewrite skipn_length.
    assert ((j + k) mod length x = j - (length x - k))%nat as ->.
    { replace (j + k)%nat with ((j - (length x - k)) + 1 * length x)%nat by lia.
      rewrite Nat.mod_add by lia. apply Nat.mod_small. lia. }
    apply nth_firstn_. lia.
Qed.

Lemma rsum_combine_comm (a b : list R) : length a = length b ->
  rsum (map (fun ab => fst ab * snd ab) (combine a b)) = rsum (map (fun ab => fst ab * snd ab) (combine b a)).
Proof.
  revert b. induction a as [|x a IH]; intros [|y b] H; try discriminate; [reflexivity|]. cbn in H. cbn [combine map fst snd].
  unfold rsum in *. cbn [big fold_right]. unfold big in IH. rewrite (IH b) by lia. lra.
Qed.

Lemma rsum_combine_nth (a b : list R) : length a = length b ->
  rsum (map (fun ab => fst ab * snd ab) (combine a b)) = rsum (map (fun j => nth j a 0 * nth j b 0) (seq 0 (length a))).
Proof.
  revert b. induction a as [|x a IH]; intros [|y b] H; try discriminate; [reflexivity|]. cbn [combine map length seq fst snd nth].
  cbn in H. rewrite <- seq_shift, map_map. cbn [nth]. unfold rsum in *. cbn [big fold_right]. f_equal. apply IH. lia.
Qed.

Lemma corr_sum k x : x <> [] ->
  rsum (correlate k x) = rsum (map (fun j => nth j x 0 * nth ((j + k) mod length x) x 0) (seq 0 (length x))).
Proof.
  intros Hx. assert (0 < length x)%nat as Hl by (destruct x; [contradiction|cbn; lia]).
  pose proof (Nat.mod_upper_bound k (length x) ltac:(lia)) as Hk. set (k' := (k mod length x)%nat) in *.
  unfold correlate. rewrite roll_rotl. fold k'.
  rewrite <- (rsum_perm _ _ (Permutation_map (fun ab => fst ab * snd ab) (rotl_perm k' (combine x (rotl (length x - k') x))))).
  rewrite <- combine_rotl by now rewrite rotl_length.
  rewrite rotl_rotl by lia. rewrite rsum_combine_comm by apply rotl_length.
  rewrite rsum_combine_nth by (symmetry; apply rotl_length).
  f_equal. apply map_ext_in. intros j Hj. apply in_seq in Hj. rewrite nth_rotl by lia.
  unfold k'. now rewrite Nat.add_mod_idemp_r by lia.
Qed.

Lemma sample_mean_site obs s : sample_mean obs s = site_mean obs s.
Proof. unfold sample_mean, spin_average, site_values, site_mean. now rewrite map_length. Qed.

Lemma roll_length k x : length (roll k x) = length x.
Proof. rewrite roll_rotl. apply rotl_length. Qed.

Lemma sample_corr_site stride d obs s : s <> [] -> sample_corr stride d obs s = site_corr (d * stride) obs s.
Proof.
  intros Hs. unfold sample_corr, spin_average, site_values, site_corr.
  rewrite corr_sum by (destruct s; [contradiction|discriminate]).
  f_equal; [|f_equal].
  - f_equal. rewrite map_length. apply map_ext_in. intros j Hj. apply in_seq in Hj.
    assert (length s <> 0)%nat by lia.
    rewrite !(nth_indep (map obs s) 0 (obs O)) by (rewrite map_length; try apply Nat.mod_upper_bound; lia).
    now rewrite !map_nth.
  - unfold correlate. rewrite map_length, combine_length, roll_length, Nat.min_id. now rewrite map_length.
Qed.

Section Povm.
Variable oneD : bool.
Variable L : nat.
Variable states : list (list (list (list nat))).
Variable p : list (list (list R)).
Variable numSamples : option nat.
Hypothesis Hshape : same_shape states p.
Hypothesis Hone : Forall (fun d => length d = 1%nat) states.
Hypothesis Hsites : Forall (fun s => s <> []) (concat (concat states)).

Lemma mean_at rank f g : (rank < length p)%nat -> (forall s, s <> [] -> f s = g s) ->
  at_rank rank (global_mean (on_samples f states) p) = Ok (RtoC (mean_of (weighted g states p)))
  /\ at_rank rank (global_variance (on_samples f states) p) = Ok (RtoC (var_of (weighted g states p))).
Proof.
  intros Hr Hfg. pose proof (on_samples_shape f _ _ Hshape) as Hs.
  assert (rank < length (on_samples f states))%nat as Hr'.
  { unfold on_samples. rewrite map_length. now rewrite (Forall2_length _ _ _ Hshape). }
  rewrite (global_mean_ok _ _ Hs), (global_variance_one_device _ _ Hs).
  - rewrite !at_rank_const by assumption. rewrite pairs_on_samples, wmean_real, wvar_real.
    assert (weighted f states p = weighted g states p) as ->; [|split; reflexivity].
    unfold weighted. apply map_ext_in. intros [w s] Hin. apply in_combine_r in Hin.
    rewrite Forall_forall in Hsites. cbn. now rewrite (Hfg s (Hsites s Hin)).
  - unfold on_samples. apply Forall_map. eapply Forall_impl; [|exact Hone]. intros d Hd. cbn. now rewrite map_length.
Qed.

Definition m_of (obs : nat -> R) : R := mean_of (weighted (site_mean obs) states p).
Definition v_of (obs : nat -> R) : R := var_of (weighted (site_mean obs) states p).
Definition over_n (x : R) : R := match numSamples with Some n => x / sqrt (INR n) | None => 0 end.
Definition c_entry (obs : nat -> R) (d : nat) : povm_entry :=
  let xs := weighted (site_corr (d * (if oneD then 1 else L)) obs) states p in
  (mean_of xs - m_of obs ^ 2, var_of xs, over_n (v_of obs)).

Lemma povm_corrs_ok rank name obs keys : (rank < length p)%nat ->
  povm_corrs oneD L states p numSamples rank name obs (m_of obs) (v_of obs) keys
  = Ok (map (fun d => (corr_name name d, c_entry obs d)) keys).
Proof.
  intros Hr. induction keys as [|d keys IH]; [reflexivity|]. cbn [povm_corrs map].
  unfold povm_corr.
  destruct (mean_at rank (sample_corr (if oneD then 1 else L) d obs) (site_corr (d * (if oneD then 1 else L)) obs) Hr) as [E1 E2].
  { intros s Hs. now apply sample_corr_site. }
  rewrite E1, E2. cbn [bind]. rewrite IH. cbn [bind]. unfold c_entry. cbn [RtoC Re fst].
  unfold over_sqrt_n, over_n. repeat f_equal. ring.
Qed.

Lemma measure_povm_ok rank observables : (rank < length p)%nat ->
  measure_povm oneD L states p numSamples rank observables
  = Ok (flat_map (fun no : string * (nat -> R) =>
      (fst no, (m_of (snd no), v_of (snd no), over_n (v_of (snd no))))
      :: map (fun d => (corr_name (fst no) d, c_entry (snd no) d)) (seq 0 L)) observables).
Proof.
  intros Hr. induction observables as [|[name obs] observables IH]; [reflexivity|].
  cbn [measure_povm flat_map fst snd].
  assert (device_check oneD states = Ok tt) as ->.
  { unfold device_check. destruct oneD; [reflexivity|].
    replace (forallb _ states) with true; [reflexivity|]. symmetry. apply forallb_forall. intros d Hd.
    rewrite Forall_forall in Hone. apply Nat.eqb_eq, Hone, Hd. }
  cbn [bind].
  destruct (mean_at rank (sample_mean obs) (site_mean obs) Hr) as [E1 E2]; [intros; apply sample_mean_site|].
  rewrite E1, E2. cbn [bind RtoC Re fst]. fold (m_of obs) (v_of obs).
  rewrite povm_corrs_ok by assumption. cbn [bind]. rewrite IH. reflexivity.
Qed.
End Povm.
