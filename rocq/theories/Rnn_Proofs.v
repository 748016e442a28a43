(** Proofs about the autoregressive networks: one step and the one-dimensional network. *)
From Coq Require Import ZArith List Reals Bool Arith Lia Lra.
From Verif Require Import Base Cplx BranchFree_Model Dist Stats_Model Sampler_Model Sampler_Spec Rnn_Model Rnn_Spec.
From Verif Require Import Sym_Proofs Vqs_Proofs.
Import ListNotations.
Local Open Scope R_scope.

Lemma csum_single (n x : nat) (f : nat -> C) : (x < n)%nat -> (forall k, k <> x -> f k = C0) -> csum (map f (seq 0 n)) = f x.
Proof.
  intros Hx H0. replace n with (x + S (n - x - 1))%nat by lia. rewrite seq_app, map_app, csum_app. cbn [seq map Nat.add]. rewrite csum_cons.
  assert (A : csum (map f (seq 0 x)) = C0).
  { refine (eq_trans _ (csum_zero (seq 0 x))). apply csum_ext. intros k Hk. apply in_seq in Hk. apply H0. lia. }
  assert (B : csum (map f (seq (S x) (n - x - 1))) = C0).
  { refine (eq_trans _ (csum_zero (seq (S x) (n - x - 1)))). apply csum_ext. intros k Hk. apply in_seq in Hk. apply H0. lia. }
  rewrite A, B. ring.
Qed.
Lemma rsum_single (n x : nat) (f : nat -> R) : (x < n)%nat -> (forall k, k <> x -> f k = 0) -> rsum (map f (seq 0 n)) = f x.
Proof.
  intros Hx H0. replace n with (x + S (n - x - 1))%nat by lia. rewrite seq_app, map_app, rsum_app. cbn [seq map Nat.add]. rewrite rsum_cons.
  assert (A : rsum (map f (seq 0 x)) = 0).
  { refine (eq_trans _ (rsum_zero (seq 0 x))). apply rsum_ext. intros k Hk. apply in_seq in Hk. apply H0. lia. }
  assert (B : rsum (map f (seq (S x) (n - x - 1))) = 0).
  { refine (eq_trans _ (rsum_zero (seq (S x) (n - x - 1)))). apply rsum_ext. intros k Hk. apply in_seq in Hk. apply H0. lia. }
  rewrite A, B. ring.
Qed.

Lemma select_one_hot d x (z : list C) : length z = d -> (x < d)%nat -> select z (one_hot d x) = nth x z C0.
Proof.
  intros HL Hx. unfold select, one_hot.
  assert (Hz : z = map (fun k => nth k z C0) (seq 0 d)) by (rewrite <- HL; symmetry; apply map_nth_seq).
  rewrite Hz at 1. rewrite map2_map_l, map2_map_r, map2_same. rewrite (csum_single d x).
  - rewrite Nat.eqb_refl. rewrite RtoC_1. ring.
  - exact Hx.
  - intros k Hk. apply Nat.eqb_neq in Hk. rewrite Hk, RtoC_0. ring.
Qed.

(** the step log-probabilities *)
Lemma step_length d lpf (ro rp : bool) (co : list C) : (1 <= d)%nat -> length co = ((d - 1) * (if ro then 1 else 2))%nat ->
  length (log_coeffs_to_log_probs d lpf ro rp co) = d.
Proof.
  intros Hd HL. unfold log_coeffs_to_log_probs, log_softmax. rewrite map2_length.
  - rewrite !map_length. cbn [length]. rewrite firstn_length_le; [lia|]. destruct ro; lia.
  - rewrite !map_length. cbn [length]. rewrite firstn_length_le by (destruct ro; lia).
    destruct ro, rp; cbn [negb andb]; rewrite ?repeat_length; try lia. rewrite map_length. cbn [length]. rewrite skipn_length. lia.
Qed.
Lemma amp_sum (a : list C) : a <> [] -> Forall (fun z => Im z = 0) a -> csum (map Cexp a) = RtoC (rsum (map (fun z => exp (Re z)) a)) /\ 0 < rsum (map (fun z => exp (Re z)) a).
Proof.
  intros Hn HF. split.
  - rewrite <- csum_RtoC, map_map. apply csum_ext. intros z Hz. rewrite Forall_forall in HF. specialize (HF z Hz).
    destruct z as [u v]. unfold Im in HF. cbn in HF. subst v. apply (Cexp_RtoC u).
  - apply rsum_map_pos; [exact Hn|]. intros. apply exp_pos.
Qed.
Lemma step_re d lpf (ro rp : bool) (co : list C) k : (1 <= d)%nat -> length co = ((d - 1) * (if ro then 1 else 2))%nat -> Forall (fun z => Im z = 0) co ->
  lpf <> 0 -> (k < d)%nat ->
  let a := C0 :: firstn (d - 1) co in
  exp (Re (nth k (log_coeffs_to_log_probs d lpf ro rp co) C0) / lpf) = exp (Re (nth k a C0)) / rsum (map (fun z => exp (Re z)) a).
Proof.
  intros Hd HL HF Hl Hk a.
  assert (La : length a = d) by (unfold a; cbn [length]; rewrite firstn_length_le; [lia|destruct ro; lia]).
  assert (Fa : Forall (fun z => Im z = 0) a).
  { unfold a. constructor; [reflexivity|]. rewrite Forall_forall in *. intros z Hz. apply HF. rewrite <- (firstn_skipn (d - 1) co). apply in_or_app. now left. }
  assert (Na : a <> []) by (unfold a; discriminate).
  destruct (amp_sum a Na Fa) as [Hs Hp]. set (S0 := rsum (map (fun z => exp (Re z)) a)) in *.
  unfold log_coeffs_to_log_probs. fold a.
  set (ph := if negb ro && rp then _ else _).
  assert (Lp : length ph = d).
  { unfold ph. destruct ro, rp; cbn [negb andb]; rewrite ?repeat_length; try lia. rewrite map_length. cbn [length]. rewrite skipn_length. lia. }
  assert (Rp : Re (nth k ph C0) = 0).
  { unfold ph. destruct (negb ro && rp); [|rewrite nth_repeat; reflexivity].
    set (l := C0 :: skipn (d - 1) co). assert (Fl : Forall (fun z => Im z = 0) l).
    { unfold l. constructor; [reflexivity|]. rewrite Forall_forall in *. intros z Hz. apply HF. rewrite <- (firstn_skipn (d - 1) co). apply in_or_app. now right. }
    destruct (Nat.lt_ge_cases k (length l)) as [G|G].
    - rewrite (nth_indep _ C0 (Ci * C0)%C) by now rewrite map_length. rewrite map_nth. rewrite Forall_forall in Fl. specialize (Fl _ (nth_In l C0 G)).
      destruct (nth k l C0) as [u v]. unfold Im in Fl. cbn in Fl. subst v. unfold Re, Cmul, Ci. cbn. ring.
    - rewrite nth_overflow by now rewrite map_length. reflexivity. }
  rewrite (nth_map2 _ _ _ _ C0 C0) by (unfold log_softmax; rewrite !map_length; lia).
  unfold log_softmax. rewrite map_map.
  rewrite (nth_indep _ C0 ((fun x => Cscal lpf (x - Clog (csum (map Cexp a)))%C) C0)) by (rewrite map_length; lia).
  rewrite (map_nth (fun x => Cscal lpf (x - Clog (csum (map Cexp a)))%C)). rewrite Hs.
  replace (Re (Cscal lpf (nth k a C0 - Clog (RtoC S0)) + nth k ph C0)%C / lpf) with (Re (nth k a C0) - ln S0).
  - unfold Rminus. rewrite exp_plus, exp_Ropp, exp_ln by assumption. reflexivity.
  - replace (Re (Cscal lpf (nth k a C0 - Clog (RtoC S0)) + nth k ph C0)%C) with (lpf * (Re (nth k a C0) - Re (Clog (RtoC S0))) + Re (nth k ph C0)).
    + rewrite Rp. change (Re (Clog (RtoC S0))) with (ln (Cabs (RtoC S0))). rewrite Cabs_RtoC, Rabs_right by lra. field. exact Hl.
    + unfold Re, Cscal, Csub, Cadd, Copp. cbn [fst snd]. ring.
Qed.
Lemma step_sum d lpf (ro rp : bool) (co : list C) : (1 <= d)%nat -> length co = ((d - 1) * (if ro then 1 else 2))%nat -> Forall (fun z => Im z = 0) co -> lpf <> 0 ->
  rsum (map (fun k => exp (Re (nth k (log_coeffs_to_log_probs d lpf ro rp co) C0) / lpf)) (seq 0 d)) = 1.
Proof.
  intros Hd HL HF Hl. set (a := C0 :: firstn (d - 1) co).
  assert (La : length a = d) by (unfold a; cbn [length]; rewrite firstn_length_le; [lia|destruct ro; lia]).
  assert (P : 0 < rsum (map (fun z => exp (Re z)) a)) by (apply rsum_map_pos; [discriminate|intros; apply exp_pos]).
  transitivity (rsum (map (fun k => exp (Re (nth k a C0)) * / rsum (map (fun z => exp (Re z)) a)) (seq 0 d))).
  - apply rsum_ext. intros k Hk. apply in_seq in Hk. apply (step_re d lpf ro rp co k); auto; lia.
  - rewrite rsum_scal_r.
    assert (X : map (fun k => exp (Re (nth k a C0))) (seq 0 d) = map (fun z => exp (Re z)) a).
    { transitivity (map (fun z => exp (Re z)) (map (fun i => nth i a C0) (seq 0 (length a)))); [rewrite map_map, La; reflexivity|now rewrite map_nth_seq]. }
    rewrite X. field. lra.
Qed.

Lemma E_categorical (l : list R) f :
  E (categorical l) f = rsum (map (fun k => exp (nth k l 0) / rsum (map exp l) * f k) (seq 0 (length l))).
Proof. unfold E, categorical. rewrite map_map. reflexivity. Qed.
Lemma E_step d lpf (ro rp : bool) (co : list C) f : (1 <= d)%nat -> length co = ((d - 1) * (if ro then 1 else 2))%nat -> Forall (fun z => Im z = 0) co -> lpf <> 0 ->
  let z := log_coeffs_to_log_probs d lpf ro rp co in
  E (categorical (map (fun z => Re z / lpf) z)) f = rsum (map (fun k => exp (Re (nth k z C0) / lpf) * f k) (seq 0 d)).
Proof.
  intros Hd HL HF Hl z. pose proof (step_length d lpf ro rp co Hd HL) as Lz. fold z in Lz.
  assert (D : rsum (map exp (map (fun z => Re z / lpf) z)) = 1).
  { rewrite map_map. rewrite <- (step_sum d lpf ro rp co Hd HL HF Hl). fold z.
    transitivity (rsum (map (fun w => exp (Re w / lpf)) (map (fun i => nth i z C0) (seq 0 (length z))))); [now rewrite map_nth_seq|]. now rewrite map_map, Lz. }
  rewrite E_categorical, D, map_length, Lz. apply rsum_ext. intros k Hk. apply in_seq in Hk.
  rewrite (nth_indep _ 0 ((fun z => Re z / lpf) C0)) by (rewrite map_length; lia). rewrite (map_nth (fun z => Re z / lpf)). field.
Qed.
Lemma outcome_categorical l k : outcome (categorical l) k <-> (k < length l)%nat.
Proof. unfold outcome, categorical. rewrite map_map. cbn [snd]. rewrite map_id, in_seq. lia. Qed.

Section One.
  Context {St Out : Type} (rnnCell : St -> list R -> St * Out) (outputDense : Out -> list C)
          (d : nat) (lpf : R) (ro rp : bool).
  Hypothesis Hd : (1 <= d)%nat.
  Hypothesis Hl : lpf <> 0.
  Hypothesis HR : real_layer ((d - 1) * (if ro then 1 else 2)) outputDense.

  Lemma Pr_scan s : forall cp, Forall (fun x => x < d)%nat s ->
    E (scan_sample rnnCell outputDense d lpf ro rp (length s) cp) (fun t => if config_eq_dec t s then 1 else 0)
    = exp (Re (csum (scan_rnn rnnCell outputDense d lpf ro rp cp (map (one_hot d) s))) / lpf).
  Proof.
    induction s as [|x s IH]; intros cp HF; cbn [length scan_sample map scan_rnn].
    - rewrite E_ret, csum_nil. destruct (config_eq_dec [] []); [|congruence]. unfold Re, C0. cbn. replace (0 / lpf) with 0 by (field; exact Hl). now rewrite exp_0.
    - inversion HF as [|? ? Hx HF']; subst. rewrite E_bind. unfold rnn_cell_sample, rnn_cell. destruct (rnnCell (fst cp) (snd cp)) as [nc out] eqn:EC.
      destruct (HR out) as [HL HI]. rewrite E_bind, E_step by assumption.
      rewrite (rsum_single d x); [|exact Hx|].
      + rewrite E_ret, E_bind. cbn [fst snd]. rewrite csum_cons, select_one_hot; [|now apply step_length|exact Hx].
        rewrite (E_ext _ _ (fun t => if config_eq_dec t s then 1 else 0)).
        * rewrite IH by assumption. rewrite <- exp_plus. f_equal. unfold Re, Cadd. cbn [fst]. field. exact Hl.
        * intros t _. rewrite E_ret. destruct (config_eq_dec (x :: t) (x :: s)), (config_eq_dec t s); congruence.
      + intros k Hk. rewrite E_ret, E_bind. cbn [snd].
        rewrite (E_ext _ _ (fun _ => 0)); [rewrite E_const; ring|]. intros t _. rewrite E_ret. destruct (config_eq_dec (k :: t) (x :: s)); congruence.
  Qed.
  Lemma mass_scan n : forall cp, mass (scan_sample rnnCell outputDense d lpf ro rp n cp) = 1.
  Proof.
    induction n as [|n IH]; intros cp; cbn [scan_sample]; [apply mass_ret|].
    rewrite mass_bind.
    - unfold rnn_cell_sample. destruct (rnnCell (fst cp) (snd cp)) as [nc out]. destruct (HR out) as [HL HI]. rewrite mass_bind by (intros; apply mass_ret).
      rewrite mass_E, E_step by assumption. refine (eq_trans _ (step_sum d lpf ro rp (outputDense out) Hd HL HI Hl)). apply rsum_ext. intros; ring.
    - intros r _. rewrite mass_bind; [apply IH|]. intros; apply mass_ret.
  Qed.
  Lemma outcome_scan n : forall cp s, outcome (scan_sample rnnCell outputDense d lpf ro rp n cp) s -> length s = n /\ Forall (fun x => x < d)%nat s.
  Proof.
    induction n as [|n IH]; intros cp s; cbn [scan_sample].
    - rewrite outcome_ret. intros ->. split; [reflexivity|constructor].
    - rewrite outcome_bind. intros (r & Hr & H). apply outcome_bind in H as (t & Ht & H). apply outcome_ret in H. subst s.
      destruct (IH _ _ Ht) as [H1 H2]. split; [cbn; lia|]. constructor; [|exact H2].
      unfold rnn_cell_sample in Hr. destruct (rnnCell (fst cp) (snd cp)) as [nc out]. destruct (HR out) as [HL HI].
      apply outcome_bind in Hr as (k & Hk & Hr). apply outcome_ret in Hr. subst r. cbn [snd]. apply outcome_categorical in Hk.
      rewrite map_length, step_length in Hk by assumption. exact Hk.
  Qed.
End One.

(** independent samples *)
Lemma mapD_Pr {A B} (dec : forall s t : B, {s = t} + {s <> t}) (m : dist B) (l : list A) ts : length ts = length l ->
  PrBatch dec (mapD (fun _ => m) l) ts = big 1 Rmult (map (fun t => E m (fun s => if dec s t then 1 else 0)) ts).
Proof.
  unfold PrBatch. revert ts. induction l as [|a l IH]; intros [|t ts]; cbn [length]; try discriminate; intros HL; cbn [mapD map].
  - rewrite E_ret. destruct (list_eq_dec dec [] []); [reflexivity|congruence].
  - rewrite E_bind. change (big 1 Rmult (?x :: ?r)) with (x * big 1 Rmult r). rewrite <- (IH ts) by lia.
    transitivity (E m (fun s => E (mapD (fun _ => m) l) (fun ss => if list_eq_dec dec ss ts then 1 else 0) * (if dec s t then 1 else 0))).
    + apply E_ext. intros b _. rewrite E_bind. destruct (dec b t) as [->|N].
      * rewrite Rmult_1_r. apply E_ext. intros r _. rewrite E_ret. destruct (list_eq_dec dec (t :: r) (t :: ts)), (list_eq_dec dec r ts); congruence.
      * rewrite Rmult_0_r. rewrite (E_ext _ _ (fun _ => 0)); [rewrite E_const; ring|]. intros r _. rewrite E_ret. destruct (list_eq_dec dec (b :: r) (t :: ts)); congruence.
    + rewrite E_scal. ring.
Qed.
