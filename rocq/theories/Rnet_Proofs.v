(** Proofs about the complete recurrent networks. *)
From Coq Require Import ZArith String List Reals Bool Arith Lia Lra.
From Verif Require Import Base Cplx BranchFree_Model Dist Stats_Model Sampler_Model Sampler_Spec Rnn_Model Rnn_Spec Rnn_Proofs Rnn2_Proofs.
From Verif Require Import Net_Model Net_Spec Net_Proofs Net_Props Rnet_Model Rnet_Spec.
Import ListNotations.
Local Open Scope R_scope.

Lemma construct_repeat n k o x : construct k o = Ok x -> construct_n n k o = Ok (repeat x n).
Proof. intros H. induction n as [|n IH]; cbn [construct_n repeat]; [reflexivity|]. rewrite H. cbn [bind]. rewrite IH. reflexivity. Qed.
Definition rows_of (k : cell_class) : nat := match k with CLSTM => 2 | _ => 1 end.
Lemma setup_1d name depth h : In name ["RNN"; "LSTM"; "GRU"]%string ->
  exists k o, setup_cells_1d name depth h = Ok (repeat (k, o) depth) /\ zero_carry_1d name depth h = repeat (repeat (repeat 0 h) (rows_of k)) depth.
Proof.
  intros [<-|[<-|[<-|[]]]].
  - exists CRNN, None. split; [|reflexivity]. unfold setup_cells_1d. cbn. now apply construct_repeat.
  - exists CLSTM, (Some h). split; [|reflexivity]. unfold setup_cells_1d. cbn. now apply construct_repeat.
  - exists CGRU, (Some h). split; [|reflexivity]. unfold setup_cells_1d. cbn. now apply construct_repeat.
Qed.
Lemma setup_2d name depth h : In name ["RNN"; "LSTM"]%string ->
  exists k o, setup_cells_2d name depth h = Ok (repeat (k, o) depth) /\ zero_carry_1d name depth h = repeat (repeat (repeat 0 h) (rows_of k)) depth /\ k <> CGRU.
Proof.
  intros [<-|[<-|[]]].
  - exists CRNN, None. split; [|split; [reflexivity|discriminate]]. unfold setup_cells_2d. cbn. now apply construct_repeat.
  - exists CLSTM, (Some h). split; [|split; [reflexivity|discriminate]]. unfold setup_cells_2d. cbn. now apply construct_repeat.
Qed.
Lemma modules_length f cps mk cls : List.length (modules f cps mk cls) = List.length cls.
Proof. unfold modules. rewrite map_length, combine_length, seq_length. lia. Qed.
Lemma modules_in f cps mk k o n c : In c (modules f cps mk (repeat (k, o) n)) -> exists j, c = mk f (cps j) k.
Proof.
  unfold modules. intros H. apply in_map_iff in H as ([j [k' o']] & <- & H). apply in_combine_r, repeat_spec in H. inversion H; subst. exists j. reflexivity.
Qed.
Lemma zeros_shape r h depth c : In c (repeat (repeat (repeat 0 h) r) depth) -> has_shape r h c.
Proof. intros H. apply repeat_spec in H. subst c. split; [apply repeat_length|]. intros v Hv. apply repeat_spec in Hv. subst v. apply repeat_length. Qed.
Lemma one_hot_length d x : List.length (one_hot d x) = d.
Proof. unfold one_hot. now rewrite map_length, seq_length. Qed.
Lemma zeros_length d : List.length (zeros d) = d. Proof. apply repeat_length. Qed.
Lemma Forall_reverse {A} (P : A -> Prop) l b : Forall P l -> Forall P (reverse_line l b).
Proof. unfold reverse_line. destruct (Z.eqb b 1); [auto|apply Forall_rev]. Qed.

(** real output: no imaginary part *)
Lemma Clog_pos x : 0 < x -> Im (Clog (RtoC x)) = 0.
Proof.
  intros H. unfold Clog, RtoC, Im. cbn [fst snd]. destruct (Rle_dec 0 0); [|lra]. unfold Cabs, Cnorm2. cbn [fst snd].
  replace (x * x + 0 * 0) with (x * x) by ring. rewrite sqrt_square by lra. replace (x / x) with 1 by (field; lra). apply acos_1.
Qed.
Lemma step_im d lpf (co : list C) rp k : (1 <= d)%nat -> List.length co = (d - 1)%nat -> Forall (fun z => Im z = 0) co ->
  Im (nth k (log_coeffs_to_log_probs d lpf true rp co) C0) = 0.
Proof.
  intros Hd HL HF. unfold log_coeffs_to_log_probs. cbn [negb andb]. rewrite firstn_all2 by lia.
  destruct (amp_sum (C0 :: co)) as [E P]; [discriminate|constructor; [reflexivity|exact HF]|].
  destruct (Nat.lt_ge_cases k d) as [Hk|Hk].
  2:{ rewrite nth_overflow; [reflexivity|]. unfold map2. rewrite map_length, combine_length, map_length, repeat_length. unfold log_softmax. rewrite map_length. cbn [List.length]. lia. }
  assert (F : Forall (fun z => Im z = 0) (map2 Cadd (map (Cscal lpf) (log_softmax (C0 :: co))) (repeat C0 d))).
  { rewrite Forall_forall. intros z Hz. unfold map2 in Hz. apply in_map_iff in Hz as ([a b] & <- & Hab). pose proof (in_combine_l _ _ _ _ Hab) as Ha. pose proof (in_combine_r _ _ _ _ Hab) as Hb.
    apply repeat_spec in Hb. subst b. apply in_map_iff in Ha as (y & <- & Hy). unfold log_softmax in Hy. rewrite E in Hy. apply in_map_iff in Hy as (w & <- & Hw).
    pose proof (Clog_pos _ P) as Q. set (lg := Clog _) in *.
    assert (Iw : Im w = 0) by (destruct Hw as [<-|Hw]; [reflexivity|rewrite Forall_forall in HF; now apply HF]).
    unfold Im, Cadd, Cscal, Csub, Copp, C0 in *. cbn [fst snd Cadd Copp] in *. rewrite Iw, Q. ring. }
  rewrite Forall_forall in F. apply F, nth_In. unfold map2. rewrite map_length, combine_length, map_length, repeat_length. unfold log_softmax. rewrite map_length. cbn [List.length]. lia.
Qed.
Lemma csum_im (l : list C) : Forall (fun z => Im z = 0) l -> Im (csum l) = 0.
Proof. induction 1 as [|z l Hz _ IH]; [reflexivity|]. rewrite csum_cons. unfold Im, Cadd in *. cbn [snd]. rewrite Hz, IH. ring. Qed.
Lemma select_im l x : Forall (fun z => Im z = 0) l -> Im (select l x) = 0.
Proof.
  intros H. apply csum_im. rewrite Forall_forall in *. intros z Hz. unfold map2 in Hz. apply in_map_iff in Hz as ([a r] & <- & Hab). apply in_combine_l in Hab. specialize (H a Hab).
  unfold Im, Cmul, RtoC in *. cbn [fst snd]. rewrite H. ring.
Qed.

Section P.
Variables (actFun : R -> R) (pin : dense_params) (cps : nat -> cparams) (pout : dense_params).
Variables (name : string) (depth h L d : nat) (lpf : R) (ro : bool).
Let feat := output_features d ro.
Notation outp := (fun o => map RtoC (dense true pout o)).
Definition inv (r : nat) (cs : list carry) : Prop := List.length cs = depth /\ forall c, In c cs -> has_shape r h c.

Hypothesis Hd : (1 <= d)%nat.
Hypothesis Hl : lpf <> 0.
Hypothesis Hout : kernel_shape h feat pout /\ List.length (dp_bias pout) = feat.
Hypothesis Hcells : forall j, cell_shapes h (cps j).

Lemma out_real : real_layer ((d - 1) * (if ro then 1 else 2)) outp.
Proof using Hout.
  intros o. destruct Hout as [K B]. split.
  - rewrite map_length, (dense_len_shape true h feat pout); [reflexivity|exact K|intros _; exact B].
  - rewrite Forall_forall. intros z Hz. apply in_map_iff in Hz as (x & <- & _). reflexivity.
Qed.
Lemma inv_zero k : inv (rows_of k) (repeat (repeat (repeat 0 h) (rows_of k)) depth).
Proof. split; [apply repeat_length|apply zeros_shape]. Qed.
Lemma rows_pos k : (0 < rows_of k)%nat. Proof. destruct k; cbn; lia. Qed.

(** one dimension *)
Section D1.
Hypothesis Hin : kernel_shape d h pin.
Variables (k : cell_class) (o : option nat).
Let cells := modules actFun cps module_1d (repeat (k, o) depth).
Lemma cell1_ok j c s : has_shape (rows_of k) h c -> List.length s = h ->
  exists c' y, call2 (module_1d actFun (cps j) k) c s = Ok (c', y) /\ has_shape (rows_of k) h c' /\ List.length y = h.
Proof using Hcells.
  clear cells. intros Hc Hs. destruct (Hcells j) as (K1 & K2 & K3 & G & M). destruct k; cbn [module_1d call2 rows_of] in *.
  - destruct (one_row h c Hc) as (v & -> & Lv). unfold rnn_cell_1d. cbn [hd].
    assert (LV : List.length (vec_add (map actFun (dense false (cp_H (cps j)) v)) s) = h).
    { apply vec_add_length; [|exact Hs]. rewrite map_length. apply (dense_len_shape false h h); [exact K1|discriminate]. }
    eexists _, _. split; [reflexivity|]. split; [|exact LV]. split; [reflexivity|]. intros u [<-|[]]. exact LV.
  - now apply lstm_pair.
  - now apply gru_1d_shape.
Qed.
Lemma stack1_ok cs x : inv (rows_of k) cs -> List.length x = d ->
  exists r, stack_1d actFun pin cells cs x = Ok r /\ inv (rows_of k) (fst r) /\ List.length (snd r) = h.
Proof using Hcells Hin Hout Hd Hl.
  intros [L1 S1] Hx.
  assert (L0 : List.length (map actFun (dense false pin x)) = h) by (rewrite map_length; apply (dense_len_shape false d h pin); [exact Hin|discriminate]).
  assert (Lc : List.length cells = depth) by (unfold cells; rewrite modules_length; apply repeat_length).
  destruct (relay_total (map call2 cells) cs (map actFun (dense false pin x)) (rows_of k) h (has_shape (rows_of k) h)) as (cs' & y & RR & LL & SS & Ly).
  - rewrite map_length. lia.
  - exact S1.
  - exact L0.
  - intros q c s Hk Hc Hs. apply in_map_iff in Hk as (k0 & <- & Hk0). apply modules_in in Hk0 as [j ->]. now apply cell1_ok.
  - exists (cs', y). cbn [fst snd]. split; [|split; [split; [lia|exact SS]|exact Ly]].
    apply C77_relay_1d; [lia|apply (shapes_same (rows_of k) h); [apply rows_pos|exact LL|exact S1|exact SS]|exact RR].
Qed.
Definition tcell1 (cs : list carry) (x : list R) : list carry * list R := match stack_1d actFun pin cells cs x with Ok r => r | Err _ => (cs, []) end.
Lemma step1_ok cs x : inv (rows_of k) cs -> List.length x = d ->
  step_1d actFun pin pout d lpf ro cells (cs, x) = Ok (fst (tcell1 cs x), log_coeffs_to_log_probs d lpf ro true (outp (snd (tcell1 cs x))))
  /\ inv (rows_of k) (fst (tcell1 cs x)).
Proof using Hcells Hin Hout Hd Hl.
  intros HI Hx. destruct (stack1_ok cs x HI Hx) as (r & E & Hr & _). unfold step_1d, tcell1. cbn [fst snd]. rewrite E. cbn [bind]. split; [reflexivity|exact Hr].
Qed.
Lemma scan1_ok xs : forall cs x, inv (rows_of k) cs -> List.length x = d -> Forall (fun v => List.length v = d) xs ->
  net1d_scan actFun pin pout d lpf ro cells (cs, x) xs = Ok (scan_rnn tcell1 outp d lpf ro true (cs, x) xs).
Proof using Hcells Hin Hout Hd Hl.
  induction xs as [|v xs IH]; intros cs x HI Hx HF; cbn [net1d_scan scan_rnn]; [reflexivity|]. apply Forall_cons_iff in HF as [Hv HF].
  destruct (step1_ok cs x HI Hx) as [E HI']. rewrite E. cbn [bind fst snd]. unfold rnn_cell. cbn [fst snd]. destruct (tcell1 cs x) as [nc out]. cbn [fst snd] in *.
  rewrite IH by assumption. reflexivity.
Qed.
Lemma sample1_E n : forall cs x g, inv (rows_of k) cs -> List.length x = d ->
  E (net1d_scan_sample actFun pin pout d lpf ro cells n (cs, x)) g = E (scan_sample tcell1 outp d lpf ro true n (cs, x)) (fun s => g (Ok s)).
Proof using Hcells Hin Hout Hd Hl.
  induction n as [|n IH]; intros cs x g HI Hx; cbn [net1d_scan_sample scan_sample]; [now rewrite !E_ret|].
  destruct (step1_ok cs x HI Hx) as [E HI']. rewrite E. unfold rnn_cell_sample. cbn [fst snd]. destruct (tcell1 cs x) as [nc out]. cbn [fst snd] in *.
  rewrite !E_bind. apply E_ext. intros a _. rewrite E_ret, !E_bind. cbn [fst snd]. rewrite IH by (try exact HI'; apply one_hot_length). apply E_ext. intros t _. rewrite !E_ret. reflexivity.
Qed.
Lemma sample1_outcome n : forall cs x r, inv (rows_of k) cs -> List.length x = d ->
  outcome (net1d_scan_sample actFun pin pout d lpf ro cells n (cs, x)) r -> exists s, r = Ok s /\ outcome (scan_sample tcell1 outp d lpf ro true n (cs, x)) s.
Proof using Hcells Hin Hout Hd Hl.
  induction n as [|n IH]; intros cs x r HI Hx; cbn [net1d_scan_sample scan_sample].
  - rewrite outcome_ret. intros ->. exists []. split; [reflexivity|now apply outcome_ret].
  - destruct (step1_ok cs x HI Hx) as [E HI']. rewrite E. cbn [fst snd]. intros H. apply outcome_bind in H as (a & Ha & H). apply outcome_bind in H as (t & Ht & H). apply outcome_ret in H.
    apply IH in Ht as (s & -> & Hs); [|exact HI'|apply one_hot_length]. exists (a :: s). split; [exact H|].
    apply outcome_bind. exists ((fst (tcell1 cs x), one_hot d a), a). split.
    + unfold rnn_cell_sample. cbn [fst snd]. destruct (tcell1 cs x) as [nc out]. cbn [fst snd] in *. apply outcome_bind. exists a. split; [exact Ha|now apply outcome_ret].
    + cbn [fst snd]. apply outcome_bind. exists s. split; [exact Hs|now apply outcome_ret].
Qed.
Lemma scan1_im cp xs : ro = true -> Im (csum (scan_rnn tcell1 outp d lpf ro true cp xs)) = 0.
Proof using Hcells Hin Hout Hd Hl.
  intros Hro. apply csum_im. revert cp. induction xs as [|v xs IH]; intros cp; cbn [scan_rnn]; [constructor|]. unfold rnn_cell. destruct (tcell1 (fst cp) (snd cp)) as [nc out]. constructor; [|apply IH].
  apply select_im. rewrite Forall_forall. intros z Hz. apply (In_nth _ _ C0) in Hz as (i & _ & <-). rewrite Hro. destruct (out_real out) as [A B]. rewrite Hro in A. apply step_im; [exact Hd|lia|exact B].
Qed.
End D1.

(** two dimensions *)
Section D2.
Hypothesis Hin : kernel_shape (d + d) h pin.
Variables (k : cell_class) (o : option nat).
Let cells := modules actFun cps module_2d (repeat (k, o) depth).
Lemma cell2_ok j cH cV s : has_shape (rows_of k) h cH -> has_shape (rows_of k) h cV -> List.length s = h ->
  exists c' y, call3 (module_2d actFun (cps j) k) cH cV s = Ok (c', y) /\ has_shape (rows_of k) h c' /\ List.length y = h.
Proof using Hcells.
  clear cells. intros Ha Hb Hs. destruct (Hcells j) as (K1 & K2 & K3 & G & M). destruct k; cbn [module_2d call3 rows_of] in *.
  - destruct (one_row h cH Ha) as (v & -> & Lv). destruct (one_row h cV Hb) as (w & -> & Lw). unfold rnn_cell_2d. cbn [hd].
    assert (LV : List.length (vec_add (map actFun (vec_add (dense false (cp_H (cps j)) v) (dense false (cp_V (cps j)) w))) s) = h).
    { apply vec_add_length; [|exact Hs]. rewrite map_length. apply vec_add_length; apply (dense_len_shape false h h); assumption || discriminate. }
    eexists _, _. split; [reflexivity|]. split; [|exact LV]. split; [reflexivity|]. intros u [<-|[]]. exact LV.
  - apply (lstm_pair h (cp_lstm (cps j)) (mix_carries (cp_H (cps j)) (cp_V (cps j)) cH cV) s M); [now apply mix_shape|exact Hs].
  - apply (gru_1d_shape h (cp_gru (cps j)) (mix_carries (cp_H (cps j)) (cp_V (cps j)) cH cV) s G); [now apply mix_shape|exact Hs].
Qed.
Lemma stack2_ok cH cV xH xV : inv (rows_of k) cH -> inv (rows_of k) cV -> List.length xH = d -> List.length xV = d ->
  exists r, stack_2d actFun pin cells cH cV xH xV = Ok r /\ inv (rows_of k) (fst r) /\ List.length (snd r) = h.
Proof using Hcells Hin Hout Hd Hl.
  intros [L1 S1] [L2 S2] Hx Hy.
  assert (L0 : List.length (map actFun (dense false pin (xH ++ xV))) = h) by (rewrite map_length; apply (dense_len_shape false (d + d) h pin); [exact Hin|discriminate]).
  assert (Lc : List.length cells = depth) by (unfold cells; rewrite modules_length; apply repeat_length).
  destruct (relay_total (map pair_call cells) (combine cH cV) (map actFun (dense false pin (xH ++ xV))) (rows_of k) h (fun c => has_shape (rows_of k) h (fst c) /\ has_shape (rows_of k) h (snd c))) as (cs' & y & RR & LL & SS & Ly).
  - rewrite map_length, combine_length. lia.
  - intros [a b] Hab. split; [apply S1; eapply in_combine_l; eassumption|apply S2; eapply in_combine_r; eassumption].
  - exact L0.
  - intros q [a b] s Hk [Hc1 Hc2] Hs. cbn [fst snd] in *. apply in_map_iff in Hk as (k0 & <- & Hk0). apply modules_in in Hk0 as [j ->]. unfold pair_call. cbn [fst snd]. now apply cell2_ok.
  - rewrite combine_length in LL. exists (cs', y). cbn [fst snd]. split; [|split; [split; [lia|exact SS]|exact Ly]].
    apply C77_relay_2d; [lia|lia|apply (shapes_same (rows_of k) h); [apply rows_pos|lia|exact S1|exact SS]|exact RR].
Qed.
Definition tcell2 (cH cV : list carry) (xH xV : list R) : list carry * list R := match stack_2d actFun pin cells cH cV xH xV with Ok r => r | Err _ => (cH, []) end.
Lemma step2_ok cH cV xH xV : inv (rows_of k) cH -> inv (rows_of k) cV -> List.length xH = d -> List.length xV = d ->
  step_2d actFun pin pout d lpf ro cells cH cV xH xV = Ok (fst (tcell2 cH cV xH xV), log_coeffs_to_log_probs d lpf ro true (outp (snd (tcell2 cH cV xH xV))))
  /\ inv (rows_of k) (fst (tcell2 cH cV xH xV)).
Proof using Hcells Hin Hout Hd Hl.
  intros H1 H2 Hx Hy. destruct (stack2_ok cH cV xH xV H1 H2 Hx Hy) as (r & E & Hr & _). unfold step_2d, tcell2. rewrite E. cbn [bind]. split; [reflexivity|exact Hr].
Qed.
Definition row_in (x : list carry * (list R * list R)) : Prop := inv (rows_of k) (fst x) /\ List.length (fst (snd x)) = d /\ List.length (snd (snd x)) = d.
Lemma scanH_ok xs : forall c, inv (rows_of k) c -> Forall row_in xs ->
  net2d_scan_H actFun pin pout d lpf ro cells c xs = Ok (scan_H tcell2 outp d lpf ro true c xs)
  /\ Forall (inv (rows_of k)) (map fst (scan_H tcell2 outp d lpf ro true c xs)).
Proof using Hcells Hin Hout Hd Hl.
  induction xs as [|x xs IH]; intros c HI HF; cbn [net2d_scan_H scan_H]; [split; [reflexivity|constructor]|]. apply Forall_cons_iff in HF as [(H1 & H2 & H3) HF'].
  destruct (step2_ok c (fst x) (fst (snd x)) (snd (snd x)) HI H1 H2 H3) as [E HI']. rewrite E. cbn [bind fst snd]. unfold rnn_cell_H. cbn [fst snd].
  destruct (tcell2 c (fst x) (fst (snd x)) (snd (snd x))) as [nc out]. cbn [fst snd] in *. destruct (IH nc HI' HF') as [E2 F2]. rewrite E2. cbn [bind]. split; [reflexivity|].
  cbn [map fst]. constructor; assumption.
Qed.
Variable zc : list (list carry).
Hypothesis Hzc : inv (rows_of k) (nth 0 zc []).
Lemma row_ins (cvs : list (list carry)) (ps ups : list (list R)) : Forall (inv (rows_of k)) cvs -> Forall (fun v => List.length v = d) ps -> Forall (fun v => List.length v = d) ups ->
  Forall row_in (combine cvs (combine ps ups)).
Proof.
  intros H1 H2 H3. rewrite Forall_forall in *. intros [a [b c]] Hx. pose proof (in_combine_l _ _ _ _ Hx) as Ha. apply in_combine_r in Hx. pose proof (in_combine_l _ _ _ _ Hx) as Hb. apply in_combine_r in Hx.
  split; [now apply H1|]. split; cbn [fst snd]; [now apply H2|now apply H3].
Qed.
Lemma Forall_removelast {A} (P : A -> Prop) l : Forall P l -> Forall P (removelast l).
Proof. induction 1 as [|a l Ha Hl' IH]; [constructor|]. destruct l; [constructor|]. rewrite removelast_cons2. constructor; assumption. Qed.
Lemma scanV_ok xs : forall cs prev, Forall (inv (rows_of k)) cs -> Forall (fun v => List.length v = d) prev -> Forall (fun lb => Forall (fun v => List.length v = d) (fst lb)) xs ->
  net2d_scan_V actFun pin pout d lpf ro cells (nth 0 zc []) (cs, prev) xs = Ok (scan_V tcell2 outp [] zc d lpf ro true (cs, prev) xs).
Proof using Hcells Hin Hout Hd Hl Hzc.
  induction xs as [|[line b] xs IH]; intros cs prev H1 H2 HF; cbn [net2d_scan_V scan_V]; [reflexivity|]. apply Forall_cons_iff in HF as [H3 HF']. cbn [fst] in H3.
  unfold rnn_cell_V, zero_carry0. cbn [fst snd].
  destruct (scanH_ok (combine (reverse_line cs b) (combine (removelast (zeros d :: reverse_line line b)) (reverse_line prev b))) (nth 0 zc []) Hzc) as [E F].
  { apply row_ins; [now apply Forall_reverse|apply Forall_removelast; constructor; [apply zeros_length|now apply Forall_reverse]|now apply Forall_reverse]. }
  rewrite E. cbn [bind]. rewrite IH; [reflexivity|now apply Forall_reverse|exact H3|exact HF'].
Qed.
Definition row_in' (x : list carry * list R) : Prop := inv (rows_of k) (fst x) /\ List.length (snd x) = d.
Lemma sampleH_E xs : forall c p g, inv (rows_of k) c -> List.length p = d -> Forall row_in' xs ->
  E (net2d_scan_H_sample actFun pin pout d lpf ro cells (c, p) xs) g = E (scan_H_sample tcell2 outp d lpf ro true (c, p) xs) (fun s => g (Ok s)).
Proof using Hcells Hin Hout Hd Hl.
  induction xs as [|x xs IH]; intros c p g HI Hp HF; cbn [net2d_scan_H_sample scan_H_sample]; [now rewrite !E_ret|]. apply Forall_cons_iff in HF as [(H1 & H2) HF'].
  destruct (step2_ok c (fst x) p (snd x) HI H1 Hp H2) as [E HI']. cbn [fst snd]. rewrite E. unfold rnn_cell_H_sample. cbn [fst snd]. destruct (tcell2 c (fst x) p (snd x)) as [nc out]. cbn [fst snd] in *.
  rewrite !E_bind. apply E_ext. intros a _. rewrite E_ret, !E_bind. cbn [fst snd]. rewrite IH by (try assumption; apply one_hot_length). apply E_ext. intros t _. rewrite !E_ret. reflexivity.
Qed.
Lemma sampleH_outcome xs : forall c p r, inv (rows_of k) c -> List.length p = d -> Forall row_in' xs ->
  outcome (net2d_scan_H_sample actFun pin pout d lpf ro cells (c, p) xs) r -> exists s, r = Ok s /\ outcome (scan_H_sample tcell2 outp d lpf ro true (c, p) xs) s.
Proof using Hcells Hin Hout Hd Hl.
  induction xs as [|x xs IH]; intros c p r HI Hp HF; cbn [net2d_scan_H_sample scan_H_sample].
  - rewrite outcome_ret. intros ->. exists []. split; [reflexivity|now apply outcome_ret].
  - apply Forall_cons_iff in HF as [(H1 & H2) HF']. destruct (step2_ok c (fst x) p (snd x) HI H1 Hp H2) as [E HI']. cbn [fst snd]. rewrite E. cbn [fst snd].
    intros H. apply outcome_bind in H as (a & Ha & H). apply outcome_bind in H as (t & Ht & H). apply outcome_ret in H.
    apply IH in Ht as (s & -> & Hs); [|exact HI'|apply one_hot_length|exact HF']. eexists. split; [exact H|].
    apply outcome_bind. exists ((fst (tcell2 c (fst x) p (snd x)), one_hot d a), (fst (tcell2 c (fst x) p (snd x)), a)). split.
    + unfold rnn_cell_H_sample. cbn [fst snd]. destruct (tcell2 c (fst x) p (snd x)) as [nc out]. cbn [fst snd] in *. apply outcome_bind. exists a. split; [exact Ha|now apply outcome_ret].
    + cbn [fst snd]. apply outcome_bind. exists s. split; [exact Hs|now apply outcome_ret].
Qed.
Lemma carries_inv xs : forall c p s, inv (rows_of k) c -> List.length p = d -> Forall row_in' xs -> outcome (scan_H_sample tcell2 outp d lpf ro true (c, p) xs) s -> Forall (inv (rows_of k)) (map fst s).
Proof using Hcells Hin Hout Hd Hl.
  induction xs as [|x xs IH]; intros c p s HI Hp HF; cbn [scan_H_sample].
  - rewrite outcome_ret. intros ->. constructor.
  - apply Forall_cons_iff in HF as [(H1 & H2) HF']. destruct (step2_ok c (fst x) p (snd x) HI H1 Hp H2) as [_ HI'].
    intros H. apply outcome_bind in H as (a & Ha & H). apply outcome_bind in H as (t & Ht & H). apply outcome_ret in H. subst s. unfold rnn_cell_H_sample in Ha. cbn [fst snd] in Ha.
    destruct (tcell2 c (fst x) p (snd x)) as [nc out]. cbn [fst snd] in *. apply outcome_bind in Ha as (v & Hv & Ha). apply outcome_ret in Ha. subst a. cbn [fst snd map] in *. constructor; [exact HI'|].
    apply (IH nc _ t HI') in Ht; [exact Ht|apply one_hot_length|exact HF'].
Qed.
Lemma row_ins' (cvs : list (list carry)) (ups : list (list R)) : Forall (inv (rows_of k)) cvs -> Forall (fun v => List.length v = d) ups -> Forall row_in' (combine cvs ups).
Proof.
  intros H1 H3. rewrite Forall_forall in *. intros [a b] Hx. pose proof (in_combine_l _ _ _ _ Hx) as Ha. apply in_combine_r in Hx. split; [now apply H1|now apply H3].
Qed.
Lemma one_hots l : Forall (fun v => List.length v = d) (map (one_hot d) l).
Proof. rewrite Forall_forall. intros v Hv. apply in_map_iff in Hv as (x & <- & _). apply one_hot_length. Qed.
Lemma sampleV_E bs : forall cs prev g, Forall (inv (rows_of k)) cs -> Forall (fun v => List.length v = d) prev ->
  E (net2d_scan_V_sample actFun pin pout d lpf ro cells (nth 0 zc []) (cs, prev) bs) g = E (scan_V_sample tcell2 outp [] zc d lpf ro true (cs, prev) bs) (fun s => g (Ok s)).
Proof using Hcells Hin Hout Hd Hl Hzc.
  induction bs as [|b bs IH]; intros cs prev g H1 H2; cbn [net2d_scan_V_sample scan_V_sample]; [now rewrite !E_ret|].
  assert (RI : Forall row_in' (combine (reverse_line cs b) (reverse_line prev b))) by (apply row_ins'; now apply Forall_reverse).
  unfold rnn_cell_V_sample, zero_carry0. cbn [fst snd]. rewrite !E_bind. rewrite sampleH_E by (assumption || apply zeros_length).
  apply E_ext. intros s Hs. rewrite E_ret, !E_bind. cbn [fst snd]. rewrite IH.
  - apply E_ext. intros t _. rewrite !E_ret. reflexivity.
  - apply Forall_reverse, (carries_inv _ _ _ _ Hzc (zeros_length d) RI Hs).
  - apply one_hots.
Qed.
Lemma sampleV_outcome bs : forall cs prev r, Forall (inv (rows_of k)) cs -> Forall (fun v => List.length v = d) prev ->
  outcome (net2d_scan_V_sample actFun pin pout d lpf ro cells (nth 0 zc []) (cs, prev) bs) r -> exists s, r = Ok s /\ outcome (scan_V_sample tcell2 outp [] zc d lpf ro true (cs, prev) bs) s.
Proof using Hcells Hin Hout Hd Hl Hzc.
  induction bs as [|b bs IH]; intros cs prev r H1 H2; cbn [net2d_scan_V_sample scan_V_sample].
  - rewrite outcome_ret. intros ->. exists []. split; [reflexivity|now apply outcome_ret].
  - assert (RI : Forall row_in' (combine (reverse_line cs b) (reverse_line prev b))) by (apply row_ins'; now apply Forall_reverse).
    cbn [fst snd]. intros H. apply outcome_bind in H as (o' & Ho & H). apply sampleH_outcome in Ho as (s & -> & Hs); [|exact Hzc|apply zeros_length|exact RI].
    apply outcome_bind in H as (t & Ht & H). apply outcome_ret in H.
    apply IH in Ht as (u & -> & Hu); [|apply Forall_reverse, (carries_inv _ _ _ _ Hzc (zeros_length d) RI Hs)|apply one_hots].
    eexists. split; [exact H|]. apply outcome_bind. exists ((reverse_line (map fst s) b, map (one_hot d) (reverse_line (map snd s) b)), reverse_line (map snd s) b). split.
    + unfold rnn_cell_V_sample, zero_carry0. cbn [fst snd]. apply outcome_bind. exists s. split; [exact Hs|now apply outcome_ret].
    + cbn [fst snd]. apply outcome_bind. exists u. split; [exact Hu|now apply outcome_ret].
Qed.
Lemma scanH_im xs : forall c, ro = true -> Forall (fun sc => Forall (fun z => Im z = 0) (snd sc)) (scan_H tcell2 outp d lpf ro true c xs).
Proof using Hcells Hin Hout Hd Hl.
  intros c Hro. revert c. induction xs as [|x xs IH]; intros c; cbn [scan_H]; [constructor|]. unfold rnn_cell_H. destruct (tcell2 c (fst x) (fst (snd x)) (snd (snd x))) as [nc out]. constructor; [|apply IH].
  cbn [snd]. rewrite Forall_forall. intros z Hz. apply (In_nth _ _ C0) in Hz as (i & _ & <-). rewrite Hro. destruct (out_real out) as [A B]. rewrite Hro in A. apply step_im; [exact Hd|lia|exact B].
Qed.
Lemma scanV_im cp xs : ro = true -> Im (csum (List.concat (scan_V tcell2 outp [] zc d lpf ro true cp xs))) = 0.
Proof using Hcells Hin Hout Hd Hl.
  intros Hro. revert cp. induction xs as [|[line b] xs IH]; intros cp; cbn [scan_V]; [reflexivity|]. unfold rnn_cell_V. cbn [List.concat]. rewrite csum_app. unfold Im, Cadd in *. cbn [snd]. rewrite IH.
  set (out := scan_H _ _ _ _ _ _ _ _).
  assert (Z : snd (csum (map2 select (reverse_line (map snd out) b) line)) = 0); [|rewrite Z; ring].
  apply csum_im. rewrite Forall_forall. intros z Hz. unfold map2 in Hz. apply in_map_iff in Hz as ([a v] & <- & Hav). apply select_im. apply in_combine_l in Hav.
  assert (F : Forall (Forall (fun z => Im z = 0)) (reverse_line (map snd out) b)).
  { apply Forall_reverse. rewrite Forall_map. apply scanH_im. exact Hro. }
  rewrite Forall_forall in F. now apply F.
Qed.
End D2.
End P.
