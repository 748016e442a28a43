(** Property C80. *)
From Coq Require Import ZArith String List Reals Bool Arith Lia Lra.
From Verif Require Import Base Cplx BranchFree_Model Dist Stats_Model Sampler_Model Sampler_Spec Rnn_Model Rnn_Spec Rnn_Proofs Rnn2_Proofs Rnn_Props Sampler2_Proofs.
From Verif Require Import Wrap_Spec Net_Model Net_Spec Net_Proofs Net_Props Rnet_Model Rnet_Spec Rnet_Proofs.
Import ListNotations.
Local Open Scope R_scope.

(** ** auxiliary: the networks as total functions *)
Section Aux.
Variables (f : R -> R) (pin : dense_params) (cps : nat -> cparams) (pout : dense_params) (name : string) (depth h L d : nat) (lpf : R) (ro : bool).
Hypothesis (Hd : (1 <= d)%nat) (Hl : lpf <> 0).
Notation outp := (fun o => map RtoC (dense true pout o)).
Lemma total_1d : net_shapes d h (output_features d ro) pin cps pout -> In name ["RNN"; "LSTM"; "GRU"]%string ->
  exists (cell : list carry -> list R -> list carry * list R) zc,
  (forall x, net1d_call f pin cps pout name depth h d lpf ro x = Ok (rnn1d_call cell outp zc d lpf ro true x))
  /\ (ro = true -> forall x, Im (rnn1d_call cell outp zc d lpf ro true x) = 0)
  /\ (forall g, E (net1d_generate f pin cps pout name depth h L d lpf ro) g = E (rnn1d_generate cell outp zc L d lpf ro true) (fun s => g (Ok s)))
  /\ (forall o, outcome (net1d_generate f pin cps pout name depth h L d lpf ro) o -> exists s, o = Ok s /\ outcome (rnn1d_generate cell outp zc L d lpf ro true) s).
Proof using Hd Hl.
  intros (S1 & S2 & S3 & S4) Hn. destruct (setup_1d name depth h Hn) as (k & o & E1 & E2).
  pose proof (inv_zero depth h k) as I0. pose proof (zeros_length d) as Z0. pose proof (conj S3 S4) as HO.
  exists (tcell1 f pin cps depth k o), (zero_carry_1d name depth h). unfold net1d_call, net1d_generate, rnn1d_call, rnn1d_probs, rnn1d_generate. rewrite E1. cbn [bind]. rewrite E2. split; [|split; [|split]].
  - intros x. rewrite (scan1_ok f pin cps pout depth h d lpf ro); try assumption; [reflexivity|apply one_hots].
  - intros Hro x. now apply (scan1_im f pin cps pout depth h d lpf ro).
  - intros g. now apply (sample1_E f pin cps pout depth h d lpf ro).
  - intros r. now apply (sample1_outcome f pin cps pout depth h d lpf ro).
Qed.
Lemma total_2d : (1 <= L)%nat -> net_shapes (d + d) h (output_features d ro) pin cps pout -> In name ["RNN"; "LSTM"]%string ->
  exists (cell : list carry -> list carry -> list R -> list R -> list carry * list R) zc, List.length zc = L /\
  (forall x, net2d_call f pin cps pout name depth h L d lpf ro x = Ok (rnn2d_call cell outp [] zc L d lpf ro true x))
  /\ (ro = true -> forall x, Im (rnn2d_call cell outp [] zc L d lpf ro true x) = 0)
  /\ (forall g, E (net2d_generate f pin cps pout name depth h L d lpf ro) g = E (rnn2d_generate cell outp [] zc L d lpf ro true) (fun s => g (Ok s)))
  /\ (forall o, outcome (net2d_generate f pin cps pout name depth h L d lpf ro) o -> exists s, o = Ok s /\ outcome (rnn2d_generate cell outp [] zc L d lpf ro true) s).
Proof using Hd Hl.
  intros HL (S1 & S2 & S3 & S4) Hn. destruct (setup_2d name depth h Hn) as (k & o & E1 & E2 & _).
  pose proof (inv_zero depth h k) as I0. pose proof (conj S3 S4) as HO.
  exists (tcell2 f pin cps depth k o), (zero_carry_2d name L depth h). split; [apply repeat_length|].
  unfold net2d_call, net2d_generate, rnn2d_call, rnn2d_probs, rnn2d_generate. rewrite E1. cbn [bind]. unfold zero_carry_2d. rewrite E2.
  assert (ZC : inv depth h (rows_of k) (nth 0 (repeat (repeat (repeat (repeat 0 h) (rows_of k)) depth) L) [])) by (destruct L; [lia|exact I0]).
  assert (CS : Forall (inv depth h (rows_of k)) (repeat (repeat (repeat (repeat 0 h) (rows_of k)) depth) L)) by (rewrite Forall_forall; intros c Hc; apply repeat_spec in Hc; subst c; exact I0).
  assert (PS : Forall (fun v => List.length v = d) (repeat (zeros d) L)) by (rewrite Forall_forall; intros c Hc; apply repeat_spec in Hc; subst c; apply zeros_length).
  split; [|split; [|split]].
  - intros x. rewrite (scanV_ok f pin cps pout depth h d lpf ro); try assumption; [reflexivity|].
    rewrite Forall_forall. intros [l b] Hlb. apply in_combine_l, in_map_iff in Hlb as (r & <- & _). cbn [fst]. apply one_hots.
  - intros Hro x. now apply (scanV_im f pin cps pout depth h d lpf ro).
  - intros g. now apply (sampleV_E f pin cps pout depth h d lpf ro).
  - intros r. now apply (sampleV_outcome f pin cps pout depth h d lpf ro).
Qed.
End Aux.

(** ** C80 *)
(** One dimension: every named cell, depth, hidden size and activation function.
    Parameters are real; complex ones are the subject of C45_complex_refuted. *)
Theorem C80_wave_function_1d f pin cps pout name depth h L d lpf (ro : bool) :
  (1 <= d)%nat -> lpf <> 0 -> net_shapes d h (output_features d ro) pin cps pout -> In name ["RNN"; "LSTM"; "GRU"]%string ->
  normalised (all_configs d L) lpf (net1d_call f pin cps pout name depth h d lpf ro)
  /\ samples_follow config_eq_dec (all_configs d L) lpf (net1d_generate f pin cps pout name depth h L d lpf ro) (net1d_call f pin cps pout name depth h d lpf ro).
Proof.
  intros Hd Hl HS Hn. destruct (total_1d f pin cps pout name depth h L d lpf ro Hd Hl HS Hn) as (cell & zc & E1 & _ & E2 & E3).
  pose proof (out_real pout h d ro (proj2 (proj2 HS))) as HR.
  destruct (C45_normalised_partial cell (fun o => map RtoC (dense true pout o)) zc L d lpf ro true Hd Hl HR) as [N P].
  split; [eexists; split; [intros s _; apply E1|exact N]|]. split.
  - intros o Ho. apply E3 in Ho as (s & -> & Hs). exists s. split; [reflexivity|]. apply in_all_configs. now apply (outcome_scan cell _ d lpf ro true Hd HR L) in Hs.
  - intros s Hs. eexists. split; [apply E1|]. rewrite E2. now apply P.
Qed.
Print Assumptions C80_wave_function_1d.
(** Two dimensions: "RNN" and "LSTM"; missing: "GRU", see C80_gru_2d_refuted. *)
Theorem C80_wave_function_2d_partial f pin cps pout name depth h L d lpf (ro : bool) :
  (1 <= d)%nat -> (1 <= L)%nat -> lpf <> 0 -> net_shapes (d + d) h (output_features d ro) pin cps pout -> In name ["RNN"; "LSTM"]%string ->
  normalised (square_configs d L) lpf (net2d_call f pin cps pout name depth h L d lpf ro)
  /\ samples_follow rows_eq_dec (square_configs d L) lpf (net2d_generate f pin cps pout name depth h L d lpf ro) (net2d_call f pin cps pout name depth h L d lpf ro).
Proof.
  intros Hd HL Hl HS Hn. destruct (total_2d f pin cps pout name depth h L d lpf ro Hd Hl HL HS Hn) as (cell & zc & Z & E1 & _ & E2 & E3).
  pose proof (out_real pout h d ro (proj2 (proj2 HS))) as HR.
  destruct (C46_normalised_partial cell (fun o => map RtoC (dense true pout o)) [] zc L d lpf ro true Hd Hl HR Z) as [N P].
  split; [eexists; split; [intros s _; apply E1|exact N]|]. split.
  - intros o Ho. apply E3 in Ho as (s & -> & Hs). exists s. split; [reflexivity|].
    unfold rnn2d_generate in Hs. apply (outcome_scan_V cell _ [] zc d lpf ro true Hd HR L) in Hs; [|exact Z|cbn [snd]; now rewrite repeat_length].
    destruct Hs as [H1 H2]. apply in_tuples. split; [rewrite H1; unfold direction; now rewrite map_length, seq_length|]. rewrite Forall_forall in *. intros l Hin. apply in_all_configs. now apply H2.
  - intros s Hs. eexists. split; [apply E1|]. rewrite E2. now apply P.
Qed.
Print Assumptions C80_wave_function_2d_partial.
(** GRU cells in two dimensions: no network with at least one layer can be evaluated *)
Theorem C80_gru_2d_refuted f pin cps pout depth h L d lpf ro x : (1 <= depth)%nat -> net2d_call f pin cps pout "GRU" depth h L d lpf ro x = Err TypeError.
Proof. intros H. unfold net2d_call. destruct depth as [|n]; [lia|]. reflexivity. Qed.
Print Assumptions C80_gru_2d_refuted.
(** names that are not known *)
Theorem C80_unknown_name f pin cps pout name depth h L d lpf ro x y : ~ In name ["RNN"; "LSTM"; "GRU"]%string ->
  net1d_call f pin cps pout name depth h d lpf ro x = Err AttributeError /\ net2d_call f pin cps pout name depth h L d lpf ro y = Err AttributeError.
Proof.
  intros H. unfold net1d_call, net2d_call, setup_cells_1d, setup_cells_2d.
  assert (A : (name =? "RNN")%string = false) by (apply String.eqb_neq; intros ->; apply H; now left).
  assert (B : (name =? "LSTM")%string = false) by (apply String.eqb_neq; intros ->; apply H; right; now left).
  assert (G : (name =? "GRU")%string = false) by (apply String.eqb_neq; intros ->; apply H; right; right; now left).
  rewrite A, B, G. split; reflexivity.
Qed.
Print Assumptions C80_unknown_name.
(** realValuedOutput: the logarithmic amplitude has no imaginary part, so that psi is real and positive *)
Theorem C80_real_output f pin cps pout name depth h L d lpf :
  (1 <= d)%nat -> (1 <= L)%nat -> lpf <> 0 ->
  (net_shapes d h (output_features d true) pin cps pout -> In name ["RNN"; "LSTM"; "GRU"]%string ->
     real_valued (all_configs d L) (net1d_call f pin cps pout name depth h d lpf true))
  /\ (net_shapes (d + d) h (output_features d true) pin cps pout -> In name ["RNN"; "LSTM"]%string ->
     forall s, exists x, net2d_call f pin cps pout name depth h L d lpf true s = Ok (RtoC x)).
Proof.
  intros Hd HL Hl. split.
  - intros HS Hn s _. destruct (total_1d f pin cps pout name depth h L d lpf true Hd Hl HS Hn) as (cell & zc & E1 & E0 & _). rewrite E1. specialize (E0 eq_refl s). eexists. f_equal. apply C_eq; [reflexivity|exact E0].
  - intros HS Hn s. destruct (total_2d f pin cps pout name depth h L d lpf true Hd Hl HL HS Hn) as (cell & zc & _ & E1 & E0 & _). rewrite E1. specialize (E0 eq_refl s). eexists. f_equal. apply C_eq; [reflexivity|exact E0].
Qed.
Print Assumptions C80_real_output.
(** parameters of every kind: two hidden units, three layers, LSTM *)
Definition ex_lstm (ab : list R * list R) (x : list R) : (list R * list R) * list R := ((vec_add (fst ab) x, snd ab), vec_add (snd ab) x).
Definition ex_cp (j : nat) : cparams := mk_cp (mk_dp [[1; 2]; [0; INR j]] [1; 1]) (mk_dp [[1; 0]; [3; 1]] []) (fun c x => ([x], c)) ex_lstm.
Definition ex_in1 : dense_params := mk_dp [[1; 2]; [0; 1]] [].
Definition ex_in2 : dense_params := mk_dp [[1; 2; 0; 0]; [0; 1; 5; 1]] [].
Definition ex_out : dense_params := mk_dp [[1; 1]; [2; 0]] [0; 3].
Example C80_nonvacuous : net_shapes 2 2 (output_features 2 false) ex_in1 ex_cp ex_out /\ net_shapes (2 + 2) 2 (output_features 2 false) ex_in2 ex_cp ex_out
  /\ normalised (all_configs 2 3) (1 / 2) (net1d_call (fun x => x) ex_in1 ex_cp ex_out "LSTM" 3 2 2 (1 / 2) false)
  /\ normalised (square_configs 2 2) (1 / 2) (net2d_call (fun x => x) ex_in2 ex_cp ex_out "LSTM" 3 2 2 2 (1 / 2) false).
Proof.
  assert (K : forall m n p, List.length (dp_kernel p) = n -> Forall (fun r => List.length r = m) (dp_kernel p) -> kernel_shape m n p).
  { intros m n p H1 H2. split; [exact H1|]. now rewrite Forall_forall in H2. }
  assert (CP : forall j, cell_shapes 2 (ex_cp j)).
  { intros j. split; [apply K; [reflexivity|repeat constructor]|]. split; [reflexivity|]. split; [apply K; [reflexivity|repeat constructor]|]. split.
    - intros c x Hc Hx. split; [|exact Hc]. split; [reflexivity|]. intros v [<-|[]]. exact Hx.
    - intros a b x Ha Hb Hx. cbn [ex_cp cp_lstm ex_lstm fst snd]. split; [now apply vec_add_length|]. split; [exact Hb|now apply vec_add_length]. }
  assert (S1 : net_shapes 2 2 (output_features 2 false) ex_in1 ex_cp ex_out) by (split; [apply K; [reflexivity|repeat constructor]|split; [exact CP|split; [apply K; [reflexivity|repeat constructor]|reflexivity]]]).
  assert (S2 : net_shapes (2 + 2) 2 (output_features 2 false) ex_in2 ex_cp ex_out) by (split; [apply K; [reflexivity|repeat constructor]|split; [exact CP|split; [apply K; [reflexivity|repeat constructor]|reflexivity]]]).
  split; [exact S1|]. split; [exact S2|]. split.
  - apply C80_wave_function_1d; [lia|lra|exact S1|right; now left].
  - apply C80_wave_function_2d_partial; [lia|lia|lra|exact S2|right; now left].
Qed.
