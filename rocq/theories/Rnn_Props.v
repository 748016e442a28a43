(** Theorems about the autoregressive networks. *)
From Coq Require Import ZArith String List Reals Bool Arith Lia Lra.
From Verif Require Import Base Cplx BranchFree_Model Dist Stats_Model Sampler_Model Sampler_Spec Rnn_Model Rnn_Spec.
From Verif Require Import Sampler2_Proofs Sym_Proofs Sym_Props Vqs_Proofs Rnn_Proofs Rnn2_Proofs.
Import ListNotations.
Local Open Scope R_scope.

(** ** C45: the one-dimensional network *)
(** Missing for the full statement: complex parameters, see C45_complex_refuted. *)
Theorem C45_normalised_partial {St Out} (rnnCell : St -> list R -> St * Out) outputDense zero_carry L d lpf (ro rp : bool) :
  (1 <= d)%nat -> lpf <> 0 -> real_layer ((d - 1) * (if ro then 1 else 2)) outputDense ->
  let psi := rnn1d_call rnnCell outputDense zero_carry d lpf ro rp in
  rsum (map (fun s => exp (Re (psi s) / lpf)) (all_configs d L)) = 1
  /\ forall s, In s (all_configs d L) ->
       Pr (rnn1d_generate rnnCell outputDense zero_carry L d lpf ro rp) s = exp (Re (psi s) / lpf).
Proof.
  intros Hd Hl HR psi.
  assert (P : forall s, In s (all_configs d L) -> Pr (rnn1d_generate rnnCell outputDense zero_carry L d lpf ro rp) s = exp (Re (psi s) / lpf)).
  { intros s Hs. apply in_all_configs in Hs as [HL HF]. subst L. unfold Pr, rnn1d_generate, psi, rnn1d_call. now apply Pr_scan. }
  split; [|exact P]. transitivity (rsum (map (Pr (rnn1d_generate rnnCell outputDense zero_carry L d lpf ro rp)) (all_configs d L))).
  - apply rsum_ext. intros s Hs. symmetry. now apply P.
  - rewrite sum_Pr; [now apply mass_scan|apply NoDup_all_configs|]. intros s Hs. apply in_all_configs. now apply (outcome_scan rnnCell outputDense d lpf ro rp Hd HR L (zero_carry, zeros d)).
Qed.
Print Assumptions C45_normalised_partial.

(** a batch consists of independent samples *)
Theorem C45_batch_partial {St Out} (rnnCell : St -> list R -> St * Out) outputDense zero_carry L d lpf (ro rp : bool) n :
  (1 <= d)%nat -> lpf <> 0 -> real_layer ((d - 1) * (if ro then 1 else 2)) outputDense ->
  forall ss, length ss = n -> Forall (fun s => In s (all_configs d L)) ss ->
  PrBatch config_eq_dec (rnn1d_sample rnnCell outputDense zero_carry L d lpf ro rp n) ss
  = big 1 Rmult (map (fun s => exp (Re (rnn1d_call rnnCell outputDense zero_carry d lpf ro rp s) / lpf)) ss).
Proof.
  intros Hd Hl HR ss HL HF. unfold rnn1d_sample. rewrite mapD_Pr by now rewrite seq_length.
  apply (f_equal (big 1 Rmult)). apply map_ext_in. intros s Hs. rewrite Forall_forall in HF.
  apply (proj2 (C45_normalised_partial rnnCell outputDense zero_carry L d lpf ro rp Hd Hl HR)), HF, Hs.
Qed.
Print Assumptions C45_batch_partial.

(** a cell that counts the ones seen so far and an output layer depending on it *)
Example ex_cell (c : R) (x : list R) : R * R := (c + nth 1 x 0, c + nth 1 x 0).
Example ex_dense (o : R) : list C := [RtoC o; RtoC (2 * o + 1)].
Example C45_example : real_layer ((2 - 1) * 2) ex_dense /\ In [1; 0; 1]%nat (all_configs 2 3)
  /\ exp (Re (rnn1d_call ex_cell ex_dense 1 2 (1 / 2) false true [1%nat]) / (1 / 2)) = exp 1 / (1 + exp 1).
Proof.
  assert (H : real_layer ((2 - 1) * 2) ex_dense) by (intros o; split; [reflexivity|repeat constructor]).
  split; [exact H|]. split; [apply in_all_configs; split; [reflexivity|repeat constructor; lia]|].
  unfold rnn1d_call, rnn1d_probs. cbn [map scan_rnn]. unfold rnn_cell, ex_cell. cbn [fst snd zeros repeat nth]. rewrite csum_cons, csum_nil.
  rewrite select_one_hot; [|apply step_length; [lia|reflexivity]|lia]. rewrite CaddC, Cadd0l.
  rewrite step_re; [|lia|reflexivity|repeat constructor|lra|lia]. unfold ex_dense. cbn [Nat.sub firstn nth map]. rewrite !rsum_cons, rsum_nil.
  unfold Re, RtoC, C0. cbn [fst]. rewrite !Rplus_0_r, exp_0. reflexivity.
Qed.

(** complex parameters: the amplitudes are not normalised and the samples follow another law;
    witness: weights zero, biases (i pi / 2, 0) *)
Lemma cpx_step k : (k < 2)%nat -> Re (nth k (log_coeffs_to_log_probs 2 (1 / 2) false false [(0, PI / 2); C0]) C0) = - (1 / 2) * ln (sqrt 2).
Proof.
  intros Hk. unfold log_coeffs_to_log_probs, log_softmax. cbn [Nat.sub firstn negb andb map repeat].
  replace (csum [Cexp C0; Cexp (0, PI / 2)]) with ((1, 1) : C).
  - rewrite !map2_cons. replace (Clog (1, 1)) with ((ln (sqrt 2), Im (Clog (1, 1))) : C).
    + generalize (Im (Clog (1, 1))). intros w. destruct k as [|[|k]]; [| |lia]; cbn [nth]; unfold Re, Cadd, Cscal, Csub, Cadd, Copp, C0; cbn [fst snd]; ring.
    + apply C_eq; [|reflexivity]. unfold Clog. cbn [fst]. unfold Cabs, Cnorm2. cbn [fst snd]. do 2 f_equal. ring.
  - rewrite !csum_cons, csum_nil, Cexp_C0. unfold Cexp, C1, C0, Cadd. cbn [fst snd]. rewrite exp_0, cos_PI2, sin_PI2. apply C_eq; cbn [fst snd]; ring.
Qed.
Lemma exp_half_ln x : 0 < x -> exp (- (1 / 2) * ln x / (1 / 2)) = / x.
Proof. intros H. replace (- (1 / 2) * ln x / (1 / 2)) with (- ln x) by field. now rewrite exp_Ropp, exp_ln. Qed.
Lemma cpx_prob : E (categorical (map (fun z => Re z / (1 / 2)) (log_coeffs_to_log_probs 2 (1 / 2) false false [(0, PI / 2); C0]))) (fun k => if (k =? 0)%nat then 1 else 0) = 1 / 2.
Proof.
  assert (L : length (log_coeffs_to_log_probs 2 (1 / 2) false false [(0, PI / 2); C0]) = 2%nat) by reflexivity.
  pose proof (cpx_step 0 ltac:(lia)) as H0. pose proof (cpx_step 1 ltac:(lia)) as H1.
  destruct (log_coeffs_to_log_probs 2 (1 / 2) false false [(0, PI / 2); C0]) as [|a [|b [|? ?]]]; try discriminate.
  cbn [nth] in H0, H1. rewrite E_categorical. cbn [map length seq nth Nat.eqb]. rewrite H0, H1, !exp_half_ln by (apply sqrt_lt_R0; lra).
  rewrite !rsum_cons, rsum_nil. assert (0 < sqrt 2) by (apply sqrt_lt_R0; lra). field. lra.
Qed.
Lemma sqrt2_facts : 1 < sqrt 2 < 2.
Proof.
  split.
  - rewrite <- sqrt_1 at 1. apply sqrt_lt_1; lra.
  - pose proof (sqrt_sqrt 2 ltac:(lra)). assert (0 < sqrt 2) by (apply sqrt_lt_R0; lra). nra.
Qed.
Theorem C45_complex_refuted : exists (outputDense : unit -> list C),
  (forall o, length (outputDense o) = ((2 - 1) * 2)%nat)
  /\ let psi := rnn1d_call (fun (c : unit) (_ : list R) => (c, tt)) outputDense tt 2 (1 / 2) false false in
     rsum (map (fun s => exp (Re (psi s) / (1 / 2))) (all_configs 2 1)) <> 1
     /\ Pr (rnn1d_generate (fun (c : unit) (_ : list R) => (c, tt)) outputDense tt 1 2 (1 / 2) false false) [0%nat]
        <> exp (Re (psi [0%nat]) / (1 / 2)).
Proof.
  exists (fun _ => [(0, PI / 2); C0]). split; [reflexivity|]. intros psi.
  assert (V : forall x, (x < 2)%nat -> exp (Re (psi [x]) / (1 / 2)) = / sqrt 2).
  { intros x Hx. unfold psi, rnn1d_call, rnn1d_probs. cbn [map scan_rnn]. unfold rnn_cell. rewrite csum_cons, csum_nil, CaddC, Cadd0l.
    rewrite select_one_hot; [|reflexivity|exact Hx]. rewrite cpx_step by exact Hx. apply exp_half_ln. apply sqrt_lt_R0; lra. }
  pose proof sqrt2_facts as Q. pose proof (sqrt_sqrt 2 ltac:(lra)) as QQ.
  assert (W : / sqrt 2 = sqrt 2 / 2) by (apply (Rmult_eq_reg_r (sqrt 2)); [|lra]; rewrite Rinv_l by lra; lra).
  split.
  - change (all_configs 2 1) with [[0%nat]; [1%nat]]. cbn [map]. rewrite !rsum_cons, rsum_nil, !V by lia. lra.
  - rewrite V by lia. unfold Pr, rnn1d_generate. cbn [scan_sample]. rewrite E_bind. unfold rnn_cell_sample. rewrite E_bind.
    rewrite (E_ext _ _ (fun k => if (k =? 0)%nat then 1 else 0)); [rewrite cpx_prob; lra|].
    intros k _. rewrite E_ret, E_bind, E_ret, E_ret. cbn [snd]. destruct k as [|k]; cbn [Nat.eqb]; [destruct (config_eq_dec [0%nat] [0%nat]); congruence|destruct (config_eq_dec [S k] [0%nat]); congruence].
Qed.
Print Assumptions C45_complex_refuted.

(** autoregressive: the factor of site i depends on the sites 0..i only *)
Theorem C45_causal {St Out} (rnnCell : St -> list R -> St * Out) outputDense zero_carry d lpf (ro rp : bool) s s' i :
  length s = length s' -> (forall j, (j <= i)%nat -> nth j s 0%nat = nth j s' 0%nat) ->
  nth i (rnn1d_probs rnnCell outputDense zero_carry d lpf ro rp s) C0 = nth i (rnn1d_probs rnnCell outputDense zero_carry d lpf ro rp s') C0.
Proof.
  unfold rnn1d_probs. generalize (zero_carry, zeros d). revert s s'. induction i as [|i IH]; intros [|x s] [|x' s'] cp HL H; try discriminate; try reflexivity; cbn [map scan_rnn].
  - pose proof (H 0%nat ltac:(lia)) as E. cbn [nth] in E. subst x'. destruct (rnn_cell rnnCell outputDense d lpf ro rp cp (one_hot d x)). reflexivity.
  - pose proof (H 0%nat ltac:(lia)) as E. cbn [nth] in E. subst x'. destruct (rnn_cell rnnCell outputDense d lpf ro rp cp (one_hot d x)) as [cp' q]. cbn [nth]. apply IH; [cbn in HL; lia|].
    intros j Hj. exact (H (S j) ltac:(lia)).
Qed.
Print Assumptions C45_causal.
Example C45_causal_example : length [1; 0; 1]%nat = length [1; 0; 0]%nat /\ (forall j, (j <= 1)%nat -> nth j [1; 0; 1]%nat 0%nat = nth j [1; 0; 0]%nat 0%nat).
Proof. split; [reflexivity|]. intros [|[|j]] H; [reflexivity|reflexivity|lia]. Qed.

(** ** C46: the two-dimensional network *)
(** Missing for the full statement: complex parameters, see C46_complex_refuted. *)
Theorem C46_normalised_partial {St Out} (rnnCell : St -> St -> list R -> list R -> St * Out) outputDense d0 zero_carry L d lpf (ro rp : bool) :
  (1 <= d)%nat -> lpf <> 0 -> real_layer ((d - 1) * (if ro then 1 else 2)) outputDense -> length zero_carry = L ->
  let psi := rnn2d_call rnnCell outputDense d0 zero_carry L d lpf ro rp in
  rsum (map (fun s => exp (Re (psi s) / lpf)) (square_configs d L)) = 1
  /\ forall s, In s (square_configs d L) ->
       PrRows (rnn2d_generate rnnCell outputDense d0 zero_carry L d lpf ro rp) s = exp (Re (psi s) / lpf).
Proof.
  intros Hd Hl HR HZ psi.
  assert (P : forall s, In s (square_configs d L) -> PrRows (rnn2d_generate rnnCell outputDense d0 zero_carry L d lpf ro rp) s = exp (Re (psi s) / lpf)).
  { intros s Hs. apply in_tuples in Hs as [HL HF]. unfold PrRows, rnn2d_generate, psi, rnn2d_call. apply (Pr_scan_V rnnCell outputDense d0 zero_carry d lpf ro rp Hd Hl HR L).
    - rewrite Forall_forall in *. intros l Hin. apply in_all_configs. now apply HF.
    - unfold direction. now rewrite map_length, seq_length.
    - exact HZ.
    - cbn [snd]. now rewrite repeat_length. }
  split; [|exact P]. transitivity (rsum (map (PrRows (rnn2d_generate rnnCell outputDense d0 zero_carry L d lpf ro rp)) (square_configs d L))).
  - apply rsum_ext. intros s Hs. symmetry. now apply P.
  - rewrite sum_PrRows; [now apply mass_scan_V| |].
    + apply NoDup_tuples, NoDup_all_configs.
    + intros s Hs. unfold rnn2d_generate in Hs. apply (outcome_scan_V rnnCell outputDense d0 zero_carry d lpf ro rp Hd HR L) in Hs; [|exact HZ|cbn [snd]; now rewrite repeat_length].
      destruct Hs as [H1 H2]. apply in_tuples. split; [rewrite H1; unfold direction; now rewrite map_length, seq_length|].
      rewrite Forall_forall in *. intros l Hin. apply in_all_configs. now apply H2.
Qed.
Print Assumptions C46_normalised_partial.

Theorem C46_batch_partial {St Out} (rnnCell : St -> St -> list R -> list R -> St * Out) outputDense d0 zero_carry L d lpf (ro rp : bool) n :
  (1 <= d)%nat -> lpf <> 0 -> real_layer ((d - 1) * (if ro then 1 else 2)) outputDense -> length zero_carry = L ->
  forall ss, length ss = n -> Forall (fun s => In s (square_configs d L)) ss ->
  PrBatch rows_eq_dec (rnn2d_sample rnnCell outputDense d0 zero_carry L d lpf ro rp n) ss
  = big 1 Rmult (map (fun s => exp (Re (rnn2d_call rnnCell outputDense d0 zero_carry L d lpf ro rp s) / lpf)) ss).
Proof.
  intros Hd Hl HR HZ ss HL HF. unfold rnn2d_sample. rewrite mapD_Pr by now rewrite seq_length.
  apply (f_equal (big 1 Rmult)). apply map_ext_in. intros s Hs. rewrite Forall_forall in HF.
  apply (proj2 (C46_normalised_partial rnnCell outputDense d0 zero_carry L d lpf ro rp Hd Hl HR HZ)), HF, Hs.
Qed.
Print Assumptions C46_batch_partial.

(** the zig-zag path: a cell that adds up the left neighbours sees the row (0,1) from the right *)
Example ex_cell2 (h v : R) (xl xu : list R) : R * R := (h + nth 1 xl 0, h + nth 1 xl 0).
Example C46_example : real_layer ((2 - 1) * 2) ex_dense /\ In [[1; 0]; [0; 1]]%nat (square_configs 2 2)
  /\ (let carries b := fst (fst (rnn_cell_V ex_cell2 ex_dense 0 [0; 0] 2 (1 / 2) false true ([0; 0], [zeros 2; zeros 2]) (map (one_hot 2) [0; 1]%nat, b))) in
      carries 1%Z = [0; 0] /\ carries (-1)%Z = [1; 0])
  /\ direction 3 = [1; -1; 1]%Z.
Proof.
  split; [intros o; split; [reflexivity|repeat constructor]|]. split; [|split; [|reflexivity]].
  - apply in_tuples. split; [reflexivity|]. repeat constructor; apply in_all_configs; (split; [reflexivity|repeat constructor; lia]).
  - cbv zeta. unfold rnn_cell_V, reverse_line. cbn [map seq one_hot Z.eqb Pos.eqb rev app fst snd removelast combine scan_H rnn_cell_H ex_cell2 zeros repeat nth Nat.eqb zero_carry0].
    unfold one_hot, zero_carry0. cbn [map seq Nat.eqb nth]. unfold nth. cbn. split; repeat (apply f_equal2; [try ring|]); reflexivity.
Qed.

Theorem C46_complex_refuted : exists (outputDense : unit -> list C),
  (forall o, length (outputDense o) = ((2 - 1) * 2)%nat)
  /\ let psi := rnn2d_call (fun (c _ : unit) (_ _ : list R) => (c, tt)) outputDense tt [tt] 1 2 (1 / 2) false false in
     rsum (map (fun s => exp (Re (psi s) / (1 / 2))) (square_configs 2 1)) <> 1
     /\ PrRows (rnn2d_generate (fun (c _ : unit) (_ _ : list R) => (c, tt)) outputDense tt [tt] 1 2 (1 / 2) false false) [[0%nat]]
        <> exp (Re (psi [[0%nat]]) / (1 / 2)).
Proof.
  exists (fun _ => [(0, PI / 2); C0]). split; [reflexivity|]. intros psi.
  assert (V : forall x, (x < 2)%nat -> exp (Re (psi [[x]]) / (1 / 2)) = / sqrt 2).
  { intros x Hx. unfold psi, rnn2d_call, rnn2d_probs, direction. cbn [map seq Nat.even combine scan_V]. unfold rnn_cell_V, reverse_line. cbn [Z.eqb Pos.eqb fst snd removelast combine repeat scan_H]. unfold rnn_cell_H. cbn [fst snd map].
    rewrite map2_cons. change (map2 select [] []) with (@nil C). cbn [List.concat app]. rewrite csum_cons, csum_nil, CaddC, Cadd0l.
    rewrite select_one_hot; [|reflexivity|exact Hx]. rewrite cpx_step by exact Hx. apply exp_half_ln. apply sqrt_lt_R0; lra. }
  pose proof sqrt2_facts as Q. pose proof (sqrt_sqrt 2 ltac:(lra)) as QQ.
  assert (W : / sqrt 2 = sqrt 2 / 2) by (apply (Rmult_eq_reg_r (sqrt 2)); [|lra]; rewrite Rinv_l by lra; lra).
  split.
  - change (square_configs 2 1) with [[[0%nat]]; [[1%nat]]]. cbn [map]. rewrite !rsum_cons, rsum_nil, !V by lia. lra.
  - rewrite V by lia. unfold PrRows, rnn2d_generate, direction. cbn [map seq Nat.even scan_V_sample]. rewrite E_bind. unfold rnn_cell_V_sample, reverse_line. cbn [Z.eqb Pos.eqb fst snd repeat combine scan_H_sample]. rewrite E_bind, E_bind.
    unfold rnn_cell_H_sample. rewrite E_bind.
    rewrite (E_ext _ _ (fun k => if (k =? 0)%nat then 1 else 0)); [rewrite cpx_prob; lra|].
    intros k _. rewrite E_ret, E_bind, E_ret, E_ret, E_ret, E_bind, E_ret, E_ret. cbn [map fst snd].
    destruct k as [|k]; cbn [Nat.eqb]; match goal with |- context [rows_eq_dec ?a ?b] => destruct (rows_eq_dec a b) as [e|n] end; try reflexivity; exfalso; [now apply n|discriminate e].
Qed.
Print Assumptions C46_complex_refuted.

(** autoregressive along the zig-zag path: the factor of site (r, c) depends on the rows above and on
    the sites of row r visited so far *)
Theorem C46_causal {St Out} (rnnCell : St -> St -> list R -> list R -> St * Out) outputDense d0 zero_carry L d lpf (ro rp : bool) s s' r c :
  length zero_carry = L -> length s = L -> length s' = L -> Forall (fun l => length l = L) s -> Forall (fun l => length l = L) s' ->
  (r < L)%nat -> (c < L)%nat -> (forall r', (r' < r)%nat -> nth r' s [] = nth r' s' []) ->
  (forall c', visited r c c' -> nth c' (nth r s []) 0%nat = nth c' (nth r s' []) 0%nat) ->
  nth c (nth r (rnn2d_probs rnnCell outputDense d0 zero_carry L d lpf ro rp s) []) C0
  = nth c (nth r (rnn2d_probs rnnCell outputDense d0 zero_carry L d lpf ro rp s') []) C0.
Proof.
  intros HZ H1 H2 F1 F2 Hr Hc HA HV. unfold rnn2d_probs. apply (scan_V_causal rnnCell outputDense d0 zero_carry d lpf ro rp L); try assumption.
  - congruence.
  - unfold direction. rewrite map_length, seq_length. exact H1.
  - congruence.
  - cbn [snd]. apply repeat_length.
  - unfold direction. rewrite nth_map_seq by exact Hr. intros c' H. apply HV. unfold visited. destruct (Nat.even r); exact H.
Qed.
Print Assumptions C46_causal.
Example C46_causal_example : visited 1 1 2 /\ ~ visited 1 1 0 /\ visited 2 1 0 /\ (forall c', visited 1 1 c' -> nth c' [0; 1; 1]%nat 0%nat = nth c' [1; 1; 1]%nat 0%nat).
Proof. unfold visited. cbn. split; [lia|]. split; [lia|]. split; [lia|]. intros [|[|[|c']]] H; try reflexivity. lia. Qed.

(** the cells offered by name: the two-dimensional network cannot be built with GRU cells *)
Theorem C46_gru_refuted : (exists depth hidden, (1 <= depth)%nat /\ setup_cells_2d "GRU" depth hidden = Err TypeError)
  /\ forall depth hidden,
     is_ok (setup_cells_2d "RNN" depth hidden) = true /\ is_ok (setup_cells_2d "LSTM" depth hidden) = true
     /\ forall name, In name ["RNN"; "LSTM"; "GRU"]%string -> is_ok (setup_cells_1d name depth hidden) = true.
Proof.
  assert (K : forall n c f, is_ok (construct c f) = true -> is_ok (construct_n n c f) = true).
  { intros n c f H. induction n as [|n IH]; [reflexivity|]. cbn [construct_n]. destruct (construct c f); [|discriminate]. cbn. destruct (construct_n n c f); [reflexivity|discriminate]. }
  split; [exists 1%nat, 10%nat; split; [lia|reflexivity]|].
  intros depth hidden. unfold setup_cells_2d, setup_cells_1d. split; [now apply K|]. split; [now apply K|].
  intros name [<-|[<-|[<-|[]]]]; now apply K.
Qed.
Print Assumptions C46_gru_refuted.
