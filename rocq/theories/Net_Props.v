(** Properties C75 to C78. *)
From Coq Require Import String Ascii List Reals Lra Lia Arith Bool.
From Verif Require Import Base Cplx BranchFree_Model Stats_Model Net_Model Net_Spec Net_Proofs.
Import ListNotations.
Local Open Scope R_scope.

(** ** C75: feed-forward networks *)
Lemma ffn_value bias actFun ps out s width :
  actFun <> [] -> (List.length actFun <= List.length ps + 1)%nat ->
  well_shaped bias width (ps ++ [out]) -> width 0%nat = List.length s -> width (S (List.length ps)) = 1%nat ->
  ffn bias actFun ps out s
  = Ok (unit_value width (weight_at (ps ++ [out])) (bias_at bias (ps ++ [out])) (layer_function actFun) (spin s) (S (List.length ps)) 0).
Proof.
  intros HA HL HW H0 H1. destruct (activations_spec (List.length ps) actFun (fun x => x) HA HL) as (gs & E & Lg & Ng).
  unfold ffn. rewrite E. cbn [bind]. f_equal.
  assert (Lh : List.length (removelast gs) = List.length ps) by (rewrite removelast_len, Lg; lia).
  set (s0 := map (fun x => 2 * INR x - 1) s).
  assert (Ls : List.length s0 = width 0%nat) by (unfold s0; rewrite map_length; lia).
  destruct (hidden_spec bias ps (removelast gs) s0 width Lh (well_shaped_prefix _ _ _ _ HW) Ls) as [I1 I2].
  set (hid := ffn_hidden bias ps (removelast gs) s0) in *.
  destruct (HW (List.length ps)) as (W1 & W2 & W3); [rewrite app_length; cbn; lia|].
  rewrite app_nth2, Nat.sub_diag in W1, W2, W3 by lia. cbn [nth] in W1, W2, W3.
  assert (HB : bias_ok bias out) by (intros Hb; rewrite W1; now apply W3).
  assert (Ld : List.length (dense bias out hid) = 1%nat) by (rewrite dense_length by exact HB; lia).
  assert (D : dense bias out hid = [nth 0 (dense bias out hid) 0]).
  { destruct (dense bias out hid) as [|a [|b l]]; cbn in Ld; try lia. reflexivity. }
  rewrite D. cbn [map]. rewrite rsum_cons, rsum_nil, Rplus_0_r.
  rewrite last_nth', Lg. replace (List.length ps + 1 - 1)%nat with (List.length ps) by lia. rewrite Ng by lia.
  cbn [unit_value]. unfold layer_function at 1. f_equal.
  rewrite dense_nth; [|exact HB|lia|intros r Hr; rewrite I1; now apply W2]. rewrite I1. f_equal.
  - apply rsumn_ext'. intros j Hj. unfold weight_at at 1. rewrite app_nth2, Nat.sub_diag by lia. cbn [nth]. f_equal.
    rewrite I2 by exact Hj.
    rewrite (unit_fun_ext _ _ _ _ (layer_function actFun)).
    2:{ intros n Hn. rewrite removelast_nth by lia. apply Ng. lia. }
    rewrite (unit_params_ext _ _ _ (weight_at (ps ++ [out])) (bias_at bias (ps ++ [out]))).
    2:{ intros n Hn. unfold weight_at, bias_at. now rewrite app_nth1 by lia. }
    apply unit_ext; [|intros E0; rewrite E0 in Hj; exact Hj]. intros i Hi. unfold s0, spin.
    rewrite (nth_indep _ 0 (2 * INR 0 - 1)) by (rewrite map_length; lia). now rewrite (map_nth (fun x => 2 * INR x - 1)).
  - unfold bias_at. rewrite app_nth2, Nat.sub_diag by lia. reflexivity.
Qed.

(** layer l of the network is given by the l-th function, or by the last one if there are too few;
    missing: more functions than layers, refuted below *)
Theorem C75_ffn_partial bias actFun ps out s width :
  actFun <> [] -> (List.length actFun <= List.length ps + 1)%nat ->
  well_shaped bias width (ps ++ [out]) -> width 0%nat = List.length s -> width (S (List.length ps)) = 1%nat ->
  ffn bias actFun ps out s
  = Ok (unit_value width (weight_at (ps ++ [out])) (bias_at bias (ps ++ [out])) (layer_function actFun) (spin s) (S (List.length ps)) 0).
Proof. apply ffn_value. Qed.
Print Assumptions C75_ffn_partial.
(** two sites, one hidden layer with two units, one function given *)
Example C75_nonvacuous :
  ffn true [fun x => x * x] [mk_dp [[1; 2]; [0; 1]] [1; 0]] (mk_dp [[1; -1]] [3]) [1%nat; 0%nat]
  = Ok (let h1 := (1 * 1 + 2 * -1 + 1) * (1 * 1 + 2 * -1 + 1) in let h2 := (0 * 1 + 1 * -1 + 0) * (0 * 1 + 1 * -1 + 0) in
        (1 * h1 + -1 * h2 + 3) * (1 * h1 + -1 * h2 + 3))
  /\ well_shaped true (fun l => match l with 0 => 2 | 1 => 2 | _ => 1 end)%nat [mk_dp [[1; 2]; [0; 1]] [1; 0]; mk_dp [[1; -1]] [3]].
Proof.
  split.
  - rewrite (C75_ffn_partial true _ _ _ _ (fun l => match l with 0 => 2 | 1 => 2 | _ => 1 end)%nat).
    + f_equal. cbn [unit_value List.length app]. unfold weight_at, bias_at, layer_function, spin, rsumn. cbn. ring.
    + discriminate.
    + cbn. lia.
    + intros [|[|l]] Hl; cbn in Hl |- *; try lia; repeat split; auto; intros r Hr; repeat (destruct Hr as [<-|Hr]; [reflexivity|]); contradiction.
    + reflexivity.
    + reflexivity.
  - intros [|[|l]] Hl; cbn in Hl |- *; try lia; repeat split; auto; intros r Hr; repeat (destruct Hr as [<-|Hr]; [reflexivity|]); contradiction.
Qed.

(** no function at all is an error *)
Theorem C75_no_function bias ps out s : ffn bias [] ps out s = Err IndexError.
Proof. reflexivity. Qed.
Print Assumptions C75_no_function.
Example C75_no_function_nonvacuous : ffn true [] [mk_dp [[1; 2]] [1]] (mk_dp [[1]] [0]) [1%nat; 0%nat] = Err IndexError.
Proof. apply C75_no_function. Qed.

(** if more functions are given than there are layers, the output layer does not use its own *)
Theorem C75_extra_refuted : exists bias actFun ps out s width,
  actFun <> [] /\ well_shaped bias width (ps ++ [out]) /\ width 0%nat = List.length s /\ width (S (List.length ps)) = 1%nat /\
  ffn bias actFun ps out s
  <> Ok (unit_value width (weight_at (ps ++ [out])) (bias_at bias (ps ++ [out])) (layer_function actFun) (spin s) (S (List.length ps)) 0).
Proof.
  exists false, [(fun x => x); (fun x => x * x)], [], (mk_dp [[3]] []), [1%nat], (fun _ => 1%nat).
  split; [discriminate|]. split.
  { intros [|l] Hl; cbn in Hl |- *; [|lia]. repeat split; [|discriminate]. intros r [<-|[]]. reflexivity. }
  split; [reflexivity|]. split; [reflexivity|]. cbn. unfold weight_at, bias_at, layer_function, spin, rsumn. cbn. intros H. injection H as H. lra.
Qed.
Print Assumptions C75_extra_refuted.

(** without bias and with odd functions the output is odd in the spins; with an even function in the output
    layer it is invariant if all spins are turned over *)
Lemma turned_spin s j : (forall x, In x s -> x <= 1)%nat -> (j < List.length s)%nat -> spin (turned s) j = - spin s j.
Proof.
  intros H Hj. unfold spin, turned. rewrite (nth_indep _ 0%nat (1 - 0)%nat) by now rewrite map_length. rewrite (map_nth (fun x => 1 - x)%nat).
  assert (B : (nth j s 0 <= 1)%nat) by (apply H; now apply nth_In).
  rewrite minus_INR by exact B. change (INR 1) with 1. ring.
Qed.
Theorem C75_parity actFun ps out s width (even_out : bool) :
  actFun <> [] -> (List.length actFun <= List.length ps + 1)%nat ->
  well_shaped false width (ps ++ [out]) -> width 0%nat = List.length s -> width (S (List.length ps)) = 1%nat ->
  (forall x, In x s -> x <= 1)%nat ->
  (forall l, (l < List.length ps)%nat -> odd_fun (layer_function actFun l)) ->
  (if even_out then even_fun (layer_function actFun (List.length ps)) else odd_fun (layer_function actFun (List.length ps))) ->
  exists y, ffn false actFun ps out s = Ok y /\ ffn false actFun ps out (turned s) = Ok (if even_out then y else - y).
Proof.
  intros HA HL HW H0 H1 HS HO HE. eexists. split; [apply (ffn_value _ _ _ _ _ width); assumption|].
  rewrite (ffn_value _ _ _ _ _ width); try assumption; [|unfold turned; now rewrite map_length]. f_equal.
  change (bias_at false (ps ++ [out])) with (fun _ _ : nat => 0).
  rewrite (unit_ext _ _ _ _ _ (fun j => - spin s j)).
  2:{ intros j Hj. apply turned_spin; [exact HS|lia]. }
  2: discriminate.
  cbn [unit_value]. rewrite !Rplus_0_r.
  set (z := rsumn (width (List.length ps)) (fun j => weight_at (ps ++ [out]) (List.length ps) 0 j * unit_value width (weight_at (ps ++ [out])) (fun _ _ => 0) (layer_function actFun) (spin s) (List.length ps) j)).
  replace (rsumn _ _) with (- z).
  - destruct even_out; apply HE.
  - unfold z, rsumn. rewrite <- rsum_opp. apply rsum_ext. intros j _. rewrite unit_odd by exact HO. ring.
Qed.
Print Assumptions C75_parity.
Example C75_parity_nonvacuous :
  exists y, ffn false [(fun x => x * x * x); (fun x => x * x)] [mk_dp [[1; 2]; [0; 1]] []] (mk_dp [[1; -1]] []) [1%nat; 0%nat] = Ok y
    /\ ffn false [(fun x => x * x * x); (fun x => x * x)] [mk_dp [[1; 2]; [0; 1]] []] (mk_dp [[1; -1]] []) [0%nat; 1%nat] = Ok y.
Proof.
  apply (C75_parity _ _ _ [1%nat; 0%nat] (fun l => match l with 0 => 2 | 1 => 2 | _ => 1 end)%nat true).
  - discriminate.
  - cbn. lia.
  - intros [|[|l]] Hl; cbn in Hl |- *; try lia; repeat split; auto; try discriminate; intros r Hr; repeat (destruct Hr as [<-|Hr]; [reflexivity|]); contradiction.
  - reflexivity.
  - reflexivity.
  - intros x [<-|[<-|[]]]; lia.
  - intros [|l] Hl; cbn in Hl; [|lia]. intros x. cbn. ring.
  - intros x. cbn. ring.
Qed.

(** ** C76: arguments of flax layers *)
Lemma look_filter name l : ends_with_init name = true -> look name (filter (fun kv => ends_with_init (fst kv)) l) = look name l.
Proof.
  intros H. unfold look. induction l as [|[k f] l IH]; [reflexivity|]. cbn [filter fst]. destruct (ends_with_init k) eqn:E; cbn [find fst].
  - destruct (String.eqb name k); [reflexivity|exact IH].
  - destruct (String.eqb_spec name k) as [->|]; [congruence|exact IH].
Qed.
Lemma look_map name d l : look name (map (fun kv => (fst kv, mk_if (if_id (snd kv)) (Some d))) l) = option_map (fun f => mk_if (if_id f) (Some d)) (look name l).
Proof.
  unfold look. induction l as [|[k f] l IH]; [reflexivity|]. cbn [map find fst snd]. destruct (String.eqb name k); [reflexivity|exact IH].
Qed.
(** a layer built with these arguments has parameters of the requested type, in every release with
    a one-digit minor number or a positive major number; missing: 0.10 and later, see below *)
Theorem C76_dtype_partial v d kwargs name f : (major v > 0 \/ minor v <= 9)%nat ->
  ends_with_init name = true -> look name kwargs = Some f -> if_bound f = None ->
  forall new : bool, (new = true <-> new_interface v) -> made_with new (init_fn_args (version_string v) (Some d) kwargs) name = Ok (Some d).
Proof.
  intros HV HN HF HB new Hnew. pose proof (version_new v HV) as E. unfold init_fn_args, made_with.
  destruct (str_leb "0.4.0" (version_string v)) eqn:S; cbn [la_inits la_param_dtype].
  - assert (N : new = true) by (apply Hnew; now apply E). rewrite N, look_filter, HF, HB by exact HN. reflexivity.
  - assert (N : new = false). { destruct new; [|reflexivity]. exfalso. assert (false = true) by (apply E; now apply Hnew). discriminate. }
    rewrite N, look_map, look_filter, HF by exact HN. reflexivity.
Qed.
Print Assumptions C76_dtype_partial.
Example C76_nonvacuous : made_with true (init_fn_args (version_string (mk_rel 0 8 3)) (Some TReal) [("kernel_init", mk_if 7 None); ("bias_init", mk_if 3 None)]%string) "bias_init" = Ok (Some TReal)
  /\ made_with false (init_fn_args (version_string (mk_rel 0 3 6)) (Some TReal) [("kernel_init", mk_if 7 None); ("bias_init", mk_if 3 None)]%string) "kernel_init" = Ok (Some TReal).
Proof.
  split; [apply (C76_dtype_partial _ _ _ _ (mk_if 3 None))|apply (C76_dtype_partial _ _ _ _ (mk_if 7 None))]; try reflexivity; try (right; cbn; lia).
  - split; [intros _; right; cbn; lia|reflexivity].
  - split; [discriminate|]. intros [H|H]; cbn in H; lia.
Qed.
(** versions are compared as strings: every release 0.10 to 0.39 is taken for one before 0.4.0, and making
    parameters raises TypeError *)
Theorem C76_two_digits v d kwargs name f : (major v = 0 -> 10 <= minor v < 40 ->
  ends_with_init name = true -> look name kwargs = Some f ->
  made_with true (init_fn_args (version_string v) d kwargs) name = Err TypeError)%nat.
Proof.
  intros HM Hm HN HF. unfold init_fn_args. rewrite version_two_digits by assumption. unfold made_with. cbn [la_inits].
  rewrite look_map, look_filter, HF by exact HN. reflexivity.
Qed.
Print Assumptions C76_two_digits.
Theorem C76_dtype_refuted : exists v d kwargs name f, allowed v /\ new_interface v /\ ends_with_init name = true /\ look name kwargs = Some f /\ if_bound f = None /\
  made_with true (init_fn_args (version_string v) (Some d) kwargs) name <> Ok (Some d).
Proof.
  exists (mk_rel 0 10 0), TReal, [("kernel_init"%string, mk_if 7 None)], "kernel_init"%string, (mk_if 7 None).
  split; [right; cbn; lia|]. split; [right; cbn; lia|]. repeat split. rewrite (C76_two_digits _ _ _ _ (mk_if 7 None)); try reflexivity; [discriminate|cbn; lia].
Qed.
Print Assumptions C76_dtype_refuted.
(** only initialisation functions are passed on, all of them *)
Theorem C76_names ver d kwargs : map (fun kv => (fst kv, if_id (snd kv))) (la_inits (init_fn_args ver d kwargs))
  = map (fun kv => (fst kv, if_id (snd kv))) (filter (fun kv => ends_with_init (fst kv)) kwargs) /\ la_dtype (init_fn_args ver d kwargs) = d.
Proof. unfold init_fn_args. destruct (str_leb _ _); split; try reflexivity. cbn [la_inits]. rewrite map_map. reflexivity. Qed.
Print Assumptions C76_names.
Example C76_names_nonvacuous : ends_with_init "kernel_init" = true /\ ends_with_init "use_bias" = false /\ ends_with_init "ini" = false
  /\ map fst (la_inits (init_fn_args "0.8.1" (Some TReal) [("kernel_init", mk_if 1 None); ("use_bias", mk_if 2 None)]%string)) = ["kernel_init"%string].
Proof. repeat split. Qed.
Lemma substring_end p q : String.substring (String.length (p ++ q) - String.length q) (String.length q) (p ++ q) = q.
Proof.
  induction p as [|c p IH].
  - cbn [String.append]. rewrite Nat.sub_diag. induction q as [|c q IH]; [reflexivity|]. cbn [String.length String.substring]. f_equal. exact IH.
  - cbn [String.append String.length]. destruct (S (String.length (p ++ q)) - String.length q)%nat as [|n] eqn:E.
    + exfalso. clear IH. assert (String.length q <= String.length (p ++ q))%nat; [|lia]. clear E. induction p as [|d p IH]; cbn; lia.
    + cbn [String.substring]. replace n with (String.length (p ++ q) - String.length q)%nat by lia. exact IH.
Qed.
Lemma substring_split n m s : (String.length s <= n + m)%nat -> exists p, s = (p ++ String.substring n m s)%string.
Proof.
  revert n m. induction s as [|c s IH]; intros n m H.
  - exists ""%string. destruct n; [destruct m|]; reflexivity.
  - destruct n as [|n].
    + exists ""%string. cbn [String.append]. clear IH. revert m H. generalize (String c s) as t. clear. induction t as [|d t IH]; intros m H; [now destruct m|].
      cbn in H. destruct m as [|m]; [lia|]. cbn [String.substring]. f_equal. apply IH. lia.
    + cbn in H. destruct (IH n m ltac:(lia)) as [p E]. exists (String c p). cbn [String.substring String.append]. now rewrite <- E.
Qed.
Theorem C76_suffix k : ends_with_init k = true <-> exists p, k = (p ++ "init")%string.
Proof.
  unfold ends_with_init. rewrite String.eqb_eq. split.
  - intros H. destruct (substring_split (String.length k - 4) 4 k ltac:(lia)) as [p E]. exists p. now rewrite H in E.
  - intros [p ->]. apply (substring_end p "init").
Qed.
Print Assumptions C76_suffix.
(** random complex parameters: modulus below 1/sqrt((inputs + outputs) * receptive field) *)
Theorem C76_cplx_bound front m n u1 u2 : 0 <= u1 < 1 -> (0 < (m + n) * fold_left Nat.mul front 1)%nat ->
  exists z, cplx_variance_scaling (front ++ [m; n]) u1 u2 = Ok z /\ Cnorm2 z * INR ((m + n) * fold_left Nat.mul front 1%nat) < 1.
Proof.
  intros Hu HN. unfold cplx_variance_scaling. rewrite rev_app_distr. cbn [rev app]. rewrite rev_involutive, (Nat.add_comm n m).
  set (N := ((m + n) * fold_left Nat.mul front 1)%nat) in *. eexists. split; [reflexivity|].
  assert (P : 0 < INR N) by (apply lt_0_INR; exact HN). pose proof (sqrt_lt_R0 _ P) as Q. pose proof (sqrt_sqrt (INR N) (Rlt_le _ _ P)) as S.
  rewrite Cnorm2_mul, Cexp_norm2. unfold Re. cbn [fst]. rewrite ?Rplus_0_r, ?Rmult_0_r, exp_0, ?Rmult_1_r.
  replace (Cnorm2 (RtoC (1 / sqrt (INR N) * u1))) with (1 / sqrt (INR N) * u1 * (1 / sqrt (INR N) * u1)) by (unfold Cnorm2, RtoC; cbn; ring).
  replace (1 / sqrt (INR N) * u1 * (1 / sqrt (INR N) * u1) * INR N) with (u1 * u1) by (rewrite <- S at 3; field; lra). nra.
Qed.
Print Assumptions C76_cplx_bound.
Theorem C76_cplx_rank shape u1 u2 : (List.length shape < 2)%nat -> cplx_variance_scaling shape u1 u2 = Err IndexError.
Proof. destruct shape as [|a [|b l]]; cbn; intros H; [reflexivity|reflexivity|lia]. Qed.
Print Assumptions C76_cplx_rank.
Theorem C76_cplx_init_bound u1 u2 : 0 <= u1 < 1 -> 0 <= u2 < 1 -> 0 <= Re (cplx_init u1 u2) < 1 / 100 /\ 0 <= Im (cplx_init u1 u2) < 1 / 100.
Proof. unfold cplx_init, Re, Im. cbn. lra. Qed.
Print Assumptions C76_cplx_init_bound.
Example C76_cplx_nonvacuous : (0 < (3 + 5) * fold_left Nat.mul [2; 2] 1)%nat /\ 0 <= 1 / 2 < 1 /\ (List.length [4%nat] < 2)%nat.
Proof. cbn. repeat split; try lra; lia. Qed.

(** ** C77: recurrent stacks *)
(** the stack hands the output of each cell to the next, and stores the carry returned by cell j at place j *)
Theorem C77_relay_1d f p cells cs x cs' y : List.length cs = List.length cells -> Forall2 same_shape cs cs' ->
  (stack_1d f p cells cs x = Ok (cs', y) <-> relay (map call2 cells) cs (map f (dense false p x)) cs' y).
Proof.
  intros HL HS. unfold stack_1d. split.
  - intros H. apply (loop_1d_inv cells cs _ cs' y []) in H as (l & -> & R); [exact R|exact HL].
  - intros R. apply (loop_1d cells cs _ cs' y []); assumption.
Qed.
Print Assumptions C77_relay_1d.
Theorem C77_relay_2d f p cells cHs cVs xH xV cs' y : List.length cHs = List.length cells -> List.length cVs = List.length cells -> Forall2 same_shape cHs cs' ->
  (stack_2d f p cells cHs cVs xH xV = Ok (cs', y) <-> relay (map pair_call cells) (combine cHs cVs) (map f (dense false p (xH ++ xV))) cs' y).
Proof.
  intros HL HL2 HS. unfold stack_2d. split.
  - intros H. apply (loop_2d_inv cells cHs cVs _ cs' y []) in H as (l & -> & R); [exact R|exact HL|exact HL2].
  - intros R. apply (loop_2d cells cHs cVs _ cs' y []); [lia|assumption|assumption].
Qed.
Print Assumptions C77_relay_2d.

(** vanilla cells: state_j+1(i) = f(sum_k W_j(i,k) h_j(k)) + state_j(i), where state_0 is f of the transformed input *)
Theorem C77_vanilla_1d f pin ps cs x m h : kernel_shape m h pin -> List.length x = m -> List.length cs = List.length ps ->
  (forall p, In p ps -> kernel_shape h h p) -> (forall c, In c cs -> has_shape 1 h c) ->
  let field := fun j i => row_dot (nth j ps no_params) i (state_of cs j) in
  let x0 := fun i => f (row_dot pin i x) in
  exists cs' y, stack_1d f pin (map (fun p => Cell2 (fun c s => Ok (rnn_cell_1d f p c s))) ps) cs x = Ok (cs', y) /\
    List.length cs' = List.length cs /\ (forall c, In c cs' -> has_shape 1 h c) /\ List.length y = h /\
    (forall j i, (j < List.length ps)%nat -> (i < h)%nat -> nth i (state_of cs' j) 0 = stack_value f field x0 (S j) i) /\
    (forall i, (i < h)%nat -> nth i y 0 = stack_value f field x0 (List.length ps) i).
Proof.
  intros HP Hx HL HK HC field x0. set (s0 := map f (dense false pin x)).
  assert (L0 : List.length s0 = h) by (unfold s0; rewrite map_length; apply (dense_len_shape false m h pin); [exact HP|discriminate]).
  set (cells := map (fun p => Cell2 (fun c s => Ok (rnn_cell_1d f p c s))) ps).
  destruct (relay_value h f (map call2 cells) field cs s0) as (cs' & y & RR & LL & SS & Ly & V1 & V2).
  - unfold cells. rewrite !map_length. exact HL.
  - exact L0.
  - intros j k c s Hk Hc Hs. unfold cells in Hk. rewrite map_map in Hk. rewrite nth_error_map in Hk. destruct (nth_error ps j) as [p|] eqn:Ep; [|discriminate].
    cbn in Hk. inversion Hk; subst k. pose proof (nth_error_In _ _ Ep) as Ip. pose proof (nth_error_In _ _ Hc) as Ic. pose proof (HK p Ip) as Kp.
    destruct (one_row h c (HC c Ic)) as (v & Ev & Lv).
    assert (Ld : List.length (map f (dense false p v)) = h) by (rewrite map_length; apply (dense_len_shape false h h p); [exact Kp|discriminate]).
    exists (vec_add (map f (dense false p v)) s). rewrite Ev. cbn [call2]. unfold rnn_cell_1d. cbn [hd]. split; [reflexivity|]. split; [now apply vec_add_length|].
    intros i Hi. rewrite (vec_add_nth _ _ _ h) by assumption. rewrite nth_map0 by (rewrite map_length in Ld; lia). rewrite (dense_row p v h h) by assumption.
    unfold field, state_of. rewrite (nth_error_nth ps j no_params Ep), (nth_error_nth cs j [] Hc), Ev. reflexivity.
  - unfold cells in LL, V1, V2. rewrite !map_length in LL, V1, V2.
    exists cs', y. split.
    { apply C77_relay_1d; [unfold cells; now rewrite map_length|apply (shapes_same 1 h); [lia|lia|exact HC|exact SS]|exact RR]. }
    split; [lia|]. split; [exact SS|]. split; [exact Ly|].
    assert (X : forall j i, (i < h)%nat -> stack_value f field (fun i => nth i s0 0) j i = stack_value f field x0 j i).
    { induction j as [|j IH]; intros i Hi; cbn [stack_value]; [|now rewrite IH]. unfold s0, x0. rewrite nth_map0.
      - now rewrite (dense_row pin x m h).
      - rewrite (dense_len_shape false m h pin); [exact Hi|exact HP|discriminate]. }
    split; [intros j i Hj Hi; rewrite V1 by assumption; now apply X|intros i Hi; rewrite V2 by exact Hi; now apply X].
Qed.
Print Assumptions C77_vanilla_1d.
Theorem C77_vanilla_2d f pin pHs pVs cHs cVs xH xV m h : kernel_shape m h pin -> List.length (xH ++ xV) = m ->
  List.length cHs = List.length pHs -> List.length cVs = List.length pHs -> List.length pVs = List.length pHs ->
  (forall p, In p (pHs ++ pVs) -> kernel_shape h h p) -> (forall c, In c (cHs ++ cVs) -> has_shape 1 h c) ->
  let field := fun j i => row_dot (nth j pHs no_params) i (state_of cHs j) + row_dot (nth j pVs no_params) i (state_of cVs j) in
  let x0 := fun i => f (row_dot pin i (xH ++ xV)) in
  exists cs' y, stack_2d f pin (map (fun p => Cell3 (fun a b s => Ok (rnn_cell_2d f (fst p) (snd p) a b s))) (combine pHs pVs)) cHs cVs xH xV = Ok (cs', y) /\
    List.length cs' = List.length cHs /\ (forall c, In c cs' -> has_shape 1 h c) /\ List.length y = h /\
    (forall j i, (j < List.length pHs)%nat -> (i < h)%nat -> nth i (state_of cs' j) 0 = stack_value f field x0 (S j) i) /\
    (forall i, (i < h)%nat -> nth i y 0 = stack_value f field x0 (List.length pHs) i).
Proof.
  intros HP Hx HL HL2 HL3 HK HC field x0. set (s0 := map f (dense false pin (xH ++ xV))).
  assert (L0 : List.length s0 = h) by (unfold s0; rewrite map_length; apply (dense_len_shape false m h pin); [exact HP|discriminate]).
  set (cells := map (fun p => Cell3 (fun a b s => Ok (rnn_cell_2d f (fst p) (snd p) a b s))) (combine pHs pVs)).
  assert (Lc : List.length cells = List.length pHs) by (unfold cells; rewrite map_length, combine_length; lia).
  destruct (relay_value h f (map pair_call cells) field (combine cHs cVs) s0) as (cs' & y & RR & LL & SS & Ly & V1 & V2).
  - rewrite map_length, combine_length. lia.
  - exact L0.
  - intros j k c s Hk Hc Hs.
    assert (NC : forall (A B : Type) (a : list A) (b : list B) i x y, nth_error (combine a b) i = Some (x, y) -> nth_error a i = Some x /\ nth_error b i = Some y).
    { clear. intros A B a. induction a as [|u a IH]; intros [|w b] [|i] x y E; cbn in E; try discriminate; [now inversion E|now apply IH in E]. }
    unfold cells in Hk. rewrite map_map in Hk. rewrite nth_error_map in Hk. destruct (nth_error (combine pHs pVs) j) as [[pH pV]|] eqn:Ep; [|discriminate].
    destruct c as [cH cV]. apply NC in Hc as [HcH HcV]. apply NC in Ep as [EpH EpV]. cbn in Hk. inversion Hk; subst k.
    assert (KH : kernel_shape h h pH) by (apply HK, in_or_app; left; eapply nth_error_In; eassumption).
    assert (KV : kernel_shape h h pV) by (apply HK, in_or_app; right; eapply nth_error_In; eassumption).
    destruct (one_row h cH) as (v & Ev & Lv); [apply HC, in_or_app; left; eapply nth_error_In; eassumption|].
    destruct (one_row h cV) as (w & Ew & Lw); [apply HC, in_or_app; right; eapply nth_error_In; eassumption|].
    assert (LdH : List.length (dense false pH v) = h) by (apply (dense_len_shape false h h pH); [exact KH|discriminate]).
    assert (LdV : List.length (dense false pV w) = h) by (apply (dense_len_shape false h h pV); [exact KV|discriminate]).
    pose proof (vec_add_length _ _ h LdH LdV) as La.
    exists (vec_add (map f (vec_add (dense false pH v) (dense false pV w))) s). rewrite Ev, Ew. unfold pair_call. cbn [call3 fst snd]. unfold rnn_cell_2d. cbn [hd]. split; [reflexivity|].
    split; [apply vec_add_length; [now rewrite map_length|exact Hs]|].
    intros i Hi. rewrite (vec_add_nth _ _ _ h); [|now rewrite map_length|exact Hs|exact Hi]. rewrite nth_map0 by lia.
    rewrite (vec_add_nth _ _ _ h) by assumption. rewrite (dense_row pH v h h), (dense_row pV w h h) by assumption.
    unfold field, state_of. rewrite (nth_error_nth pHs j no_params EpH), (nth_error_nth pVs j no_params EpV), (nth_error_nth cHs j [] HcH), (nth_error_nth cVs j [] HcV), Ev, Ew. reflexivity.
  - rewrite map_length, Lc in LL, V1, V2.
    exists cs', y. split.
    { apply C77_relay_2d; [lia|lia|apply (shapes_same 1 h); [lia|lia|intros; apply HC, in_or_app; now left|exact SS]|exact RR]. }
    split; [lia|]. split; [exact SS|]. split; [exact Ly|].
    assert (X : forall j i, (i < h)%nat -> stack_value f field (fun i => nth i s0 0) j i = stack_value f field x0 j i).
    { induction j as [|j IH]; intros i Hi; cbn [stack_value]; [|now rewrite IH]. unfold s0, x0. rewrite nth_map0.
      - now rewrite (dense_row pin (xH ++ xV) m h).
      - rewrite (dense_len_shape false m h pin); [exact Hi|exact HP|discriminate]. }
    split; [intros j i Hj Hi; rewrite V1 by assumption; now apply X|intros i Hi; rewrite V2 by exact Hi; now apply X].
Qed.
Print Assumptions C77_vanilla_2d.
Example C77_vanilla_nonvacuous :
  kernel_shape 2 2 (mk_dp [[1; 2]; [0; 1]] []) /\ has_shape 1 2 [[5; 7]] /\
  stack_1d (fun x => 2 * x) (mk_dp [[1; 2]; [0; 1]] []) (map (fun p => Cell2 (fun c s => Ok (rnn_cell_1d (fun x => 2 * x) p c s))) [mk_dp [[1; 1]; [0; 1]] []; mk_dp [[1; 0]; [3; 1]] []])
    [[[5; 7]]; [[1; 0]]] [1; 0] = Ok ([[[26; 14]]; [[28; 20]]], [28; 20]).
Proof.
  split. { split; [reflexivity|]. intros r [<-|[<-|[]]]; reflexivity. }
  split. { split; [reflexivity|]. intros r [<-|[]]; reflexivity. }
  cbn. unfold set_carry, rows_cols, vec_add, dense, map2. cbn. repeat f_equal; ring.
Qed.

(** stacks of LSTM and GRU cells always succeed and keep the shapes, if the flax cells do *)
Definition gru_ok (h : nat) (gru : carry -> list R -> carry * carry) : Prop :=
  forall c x, has_shape 1 h c -> List.length x = h -> has_shape 1 h (fst (gru c x)) /\ has_shape 1 h (snd (gru c x)).
Definition lstm_ok (h : nat) (lstm : list R * list R -> list R -> (list R * list R) * list R) : Prop :=
  forall a b x, List.length a = h -> List.length b = h -> List.length x = h ->
    List.length (fst (fst (lstm (a, b) x))) = h /\ List.length (snd (fst (lstm (a, b) x))) = h /\ List.length (snd (lstm (a, b) x)) = h.
Lemma gru_1d_shape h gru c x : gru_ok h gru -> has_shape 1 h c -> List.length x = h ->
  exists c' y, Ok (gru_cell_1d gru c x) = Ok (c', y) /\ has_shape 1 h c' /\ List.length y = h.
Proof.
  intros G Hc Hx. destruct (G c x Hc Hx) as [G1 G2]. unfold gru_cell_1d. destruct (gru c x) as [c' r]. cbn [fst snd] in G1, G2. exists c', (hd [] r). split; [reflexivity|]. split; [exact G1|].
  destruct (one_row h r G2) as (v & -> & Lv). exact Lv.
Qed.
Lemma lstm_pair h lstm c x : lstm_ok h lstm -> has_shape 2 h c -> List.length x = h ->
  exists c' y, lstm_cell_1d lstm c x = Ok (c', y) /\ has_shape 2 h c' /\ List.length y = h.
Proof.
  intros G Hc Hx. destruct (two_rows h c Hc) as (v & w & -> & Lv & Lw). destruct (G v w x Lv Lw Hx) as (G1 & G2 & G3). unfold lstm_cell_1d.
  destruct (lstm (v, w) x) as [[a b] r]. cbn [fst snd] in G1, G2, G3. exists [a; b], r. split; [reflexivity|]. split; [|exact G3].
  split; [reflexivity|]. intros u [<-|[<-|[]]]; assumption.
Qed.
Theorem C77_defined_1d f pin cells cs x m h r : kernel_shape m h pin -> List.length x = m -> List.length cs = List.length cells ->
  (r = 1 \/ r = 2)%nat -> (forall c, In c cs -> has_shape r h c) ->
  (forall k, In k cells -> (r = 1%nat /\ exists gru, gru_ok h gru /\ k = Cell2 (fun c s => Ok (gru_cell_1d gru c s)))
                        \/ (r = 2%nat /\ exists lstm, lstm_ok h lstm /\ k = Cell2 (lstm_cell_1d lstm))) ->
  exists cs' y, stack_1d f pin cells cs x = Ok (cs', y) /\ List.length cs' = List.length cs /\ (forall c, In c cs' -> has_shape r h c) /\ List.length y = h.
Proof.
  intros HP Hx HL Hr HC HK.
  assert (L0 : List.length (map f (dense false pin x)) = h) by (rewrite map_length; apply (dense_len_shape false m h pin); [exact HP|discriminate]).
  destruct (relay_total (map call2 cells) cs (map f (dense false pin x)) r h (has_shape r h)) as (cs' & y & RR & LL & SS & Ly).
  - now rewrite map_length.
  - exact HC.
  - exact L0.
  - intros k c s Hk Hc Hs. apply in_map_iff in Hk as (k0 & <- & Hk0). destruct (HK k0 Hk0) as [(-> & gru & G & ->)|(-> & lstm & G & ->)]; cbn [call2].
    + now apply gru_1d_shape.
    + now apply lstm_pair.
  - exists cs', y. split; [|now repeat split; try apply SS].
    apply C77_relay_1d; [exact HL|apply (shapes_same r h); [lia|exact LL|exact HC|exact SS]|exact RR].
Qed.
Print Assumptions C77_defined_1d.
Theorem C77_defined_2d f pin cells cHs cVs xH xV m h r : kernel_shape m h pin -> List.length (xH ++ xV) = m -> List.length cHs = List.length cells -> List.length cVs = List.length cells ->
  (r = 1 \/ r = 2)%nat -> (forall c, In c (cHs ++ cVs) -> has_shape r h c) ->
  (forall k, In k cells -> exists pH pV, kernel_shape h h pH /\ List.length (dp_bias pH) = h /\ kernel_shape h h pV /\
     ((r = 1%nat /\ exists gru, gru_ok h gru /\ k = Cell3 (fun a b s => Ok (gru_cell_2d gru pH pV a b s)))
   \/ (r = 2%nat /\ exists lstm, lstm_ok h lstm /\ k = Cell3 (lstm_cell_2d lstm pH pV)))) ->
  exists cs' y, stack_2d f pin cells cHs cVs xH xV = Ok (cs', y) /\ List.length cs' = List.length cHs /\ (forall c, In c cs' -> has_shape r h c) /\ List.length y = h.
Proof.
  intros HP Hx HL HL2 Hr HC HK. set (x := xH ++ xV) in *.
  assert (L0 : List.length (map f (dense false pin x)) = h) by (rewrite map_length; apply (dense_len_shape false m h pin); [exact HP|discriminate]).
  destruct (relay_total (map pair_call cells) (combine cHs cVs) (map f (dense false pin x)) r h (fun c => has_shape r h (fst c) /\ has_shape r h (snd c))) as (cs' & y & RR & LL & SS & Ly).
  - rewrite map_length, combine_length. lia.
  - intros [a b] Hab. split; apply HC, in_or_app; [left; eapply in_combine_l; eassumption|right; eapply in_combine_r; eassumption].
  - exact L0.
  - intros k [a b] s Hk [Ha Hb] Hs. cbn [fst snd] in Ha, Hb. apply in_map_iff in Hk as (k0 & <- & Hk0). destruct (HK k0 Hk0) as (pH & pV & K1 & K2 & K3 & [(-> & gru & G & ->)|(-> & lstm & G & ->)]);
      unfold pair_call; cbn [call3 fst snd].
    + apply (gru_1d_shape h gru (mix_carries pH pV a b) s G); [now apply mix_shape|exact Hs].
    + apply (lstm_pair h lstm (mix_carries pH pV a b) s G); [now apply mix_shape|exact Hs].
  - rewrite combine_length, HL, HL2, Nat.min_id in LL. exists cs', y. split; [|split; [lia|now split]].
    apply C77_relay_2d; [exact HL|exact HL2|apply (shapes_same r h); [lia|lia|intros; apply HC, in_or_app; now left|exact SS]|exact RR].
Qed.
Print Assumptions C77_defined_2d.
Example C77_defined_nonvacuous : lstm_ok 2 (fun ab x => ((x, fst ab), snd ab)) /\ gru_ok 2 (fun c x => ([x], c)) /\ has_shape 2 2 [[1; 2]; [3; 4]].
Proof.
  split; [intros a b x Ha Hb Hx; now repeat split|]. split.
  - intros c x Hc Hx. split; [|exact Hc]. split; [reflexivity|]. intros v [<-|[]]. exact Hx.
  - split; [reflexivity|]. intros v [<-|[<-|[]]]; reflexivity.
Qed.

(** gated cells: the flax cell is applied to the carry; in two dimensions to the sum of both carries after
    dense layers, with entries sum_k WH(i,k) cH(k) + bH(i) + sum_k WV(i,k) cV(k) *)
Definition mixed_entry (pH pV : dense_params) (cH cV : carry) (q i : nat) : R :=
  row_dot pH i (nth q cH []) + nth i (dp_bias pH) 0 + row_dot pV i (nth q cV []).
Lemma mix_unique r h pH pV cH cV M : kernel_shape h h pH -> List.length (dp_bias pH) = h -> kernel_shape h h pV -> has_shape r h cH -> has_shape r h cV ->
  has_shape r h M -> (forall q i, (q < r)%nat -> (i < h)%nat -> nth i (nth q M []) 0 = mixed_entry pH pV cH cV q i) -> mix_carries pH pV cH cV = M.
Proof.
  intros KH BH KV HH HV HM HE. pose proof (mix_shape r h pH pV cH cV KH BH KV HH HV) as [L1 L2]. destruct HM as [M1 M2].
  apply (nth_ext _ _ [] []); [lia|]. intros q Hq. rewrite L1 in Hq.
  assert (Eq1 : nth q (mix_carries pH pV cH cV) [] = vec_add (dense true pH (nth q cH [])) (dense false pV (nth q cV []))).
  { unfold mix_carries. destruct HH as [HH1 HH2], HV as [HV1 HV2]. rewrite (map2_nth _ _ _ _ (dense true pH []) (dense false pV [])) by (rewrite map_length; lia).
    now rewrite !map_nth. }
  assert (A : List.length (nth q cH []) = h) by (apply HH, nth_In; destruct HH; lia).
  assert (B : List.length (nth q cV []) = h) by (apply HV, nth_In; destruct HV; lia).
  assert (LM : List.length (nth q M []) = h) by (apply M2, nth_In; lia).
  assert (LH : List.length (dense true pH (nth q cH [])) = h) by (apply (dense_len_shape true h h); [exact KH|intros _; exact BH]).
  assert (LV : List.length (dense false pV (nth q cV [])) = h) by (apply (dense_len_shape false h h); [exact KV|discriminate]).
  apply (nth_ext _ _ 0 0); [rewrite Eq1, LM; now apply vec_add_length|]. intros i Hi. rewrite Eq1 in Hi |- *. rewrite (vec_add_length _ _ h) in Hi by assumption.
  rewrite HE by assumption. rewrite (vec_add_nth _ _ _ h) by assumption. unfold mixed_entry. rewrite (dense_row pV _ h h) by assumption.
  f_equal. destruct KH as [K1 K2]. rewrite dense_nth; [unfold row_dot; now rewrite A|intros _; lia|lia|]. intros w Hw. rewrite A. now apply K2.
Qed.
Theorem C77_gated h pH pV x : (forall gru c, gru_cell_1d gru c x = (fst (gru c x), hd [] (snd (gru c x)))) /\
  (forall lstm a b, exists a' b' y, lstm (a, b) x = (a', b', y) /\ lstm_cell_1d lstm [a; b] x = Ok ([a'; b'], y)) /\
  (kernel_shape h h pH -> List.length (dp_bias pH) = h -> kernel_shape h h pV ->
   (forall gru cH cV M, has_shape 1 h cH -> has_shape 1 h cV -> has_shape 1 h M ->
      (forall q i, (q < 1)%nat -> (i < h)%nat -> nth i (nth q M []) 0 = mixed_entry pH pV cH cV q i) ->
      gru_cell_2d gru pH pV cH cV x = (fst (gru M x), hd [] (snd (gru M x)))) /\
   (forall lstm cH cV a b, has_shape 2 h cH -> has_shape 2 h cV -> has_shape 2 h [a; b] ->
      (forall q i, (q < 2)%nat -> (i < h)%nat -> nth i (nth q [a; b] []) 0 = mixed_entry pH pV cH cV q i) ->
      exists a' b' y, lstm (a, b) x = (a', b', y) /\ lstm_cell_2d lstm pH pV cH cV x = Ok ([a'; b'], y))).
Proof.
  split. { intros gru c. unfold gru_cell_1d. now destruct (gru c x). }
  split. { intros lstm a b. unfold lstm_cell_1d. destruct (lstm (a, b) x) as [[a' b'] y]. exists a', b', y. now split. }
  intros KH BH KV. split.
  - intros gru cH cV M SH SV SM HE. unfold gru_cell_2d. rewrite (mix_unique 1 h pH pV cH cV M) by assumption. now destruct (gru M x).
  - intros lstm cH cV a b SH SV SM HE. unfold lstm_cell_2d. rewrite (mix_unique 2 h pH pV cH cV [a; b]) by assumption.
    destruct (lstm (a, b) x) as [[a' b'] y]. exists a', b', y. now split.
Qed.
Print Assumptions C77_gated.
Example C77_gated_nonvacuous : kernel_shape 1 1 (mk_dp [[2]] [5]) /\ has_shape 1 1 [[3]] /\ mixed_entry (mk_dp [[2]] [5]) (mk_dp [[7]] []) [[3]] [[1]] 0 0 = 2 * 3 + 5 + 7 * 1.
Proof.
  split; [split; [reflexivity|intros r [<-|[]]; reflexivity]|]. split; [split; [reflexivity|intros r [<-|[]]; reflexivity]|].
  unfold mixed_entry, row_dot, rsumn. cbn. ring.
Qed.

(** a custom cell with the documented signature (carry, state) -> (new_carry, output) cannot be used in two dimensions *)
Theorem C77_custom_2d_refuted : exists f p (k : carry -> list R -> result (carry * list R)) cH cV xH xV,
  (forall c x, is_ok (k c x) = true) /\ is_ok (stack_2d f p [Cell2 k] [cH] [cV] xH xV) = false
  /\ forall ks cHs cVs, stack_2d f p (Cell2 k :: ks) (cH :: cHs) (cV :: cVs) xH xV = Err TypeError.
Proof.
  exists (fun x => x), (mk_dp [[1; 1]] []), (fun c x => Ok (c, x)), [[1]], [[2]], [1], [0]. repeat split.
Qed.
Print Assumptions C77_custom_2d_refuted.
(** if there are more cells than carries or more carries than cells, the rest is silently left out *)
Lemma loop_zip cs : forall cells j nc x, stack_loop_1d j cs cells nc x = stack_loop_1d j (firstn (List.length cells) cs) (firstn (List.length cs) cells) nc x.
Proof.
  induction cs as [|c cs IH]; intros [|k cells] j nc x; try reflexivity. cbn [List.length firstn stack_loop_1d].
  destruct (call2 k c x) as [[c' x']|]; [|reflexivity]. cbn [bind fst snd]. destruct (set_carry nc j c') as [l|]; [|reflexivity]. cbn [bind]. apply IH.
Qed.
Theorem C77_mismatch f p cells cs x : (List.length cs <= List.length cells)%nat ->
  stack_1d f p cells cs x = stack_1d f p (firstn (List.length cs) cells) cs x.
Proof. intros H. unfold stack_1d. rewrite loop_zip. now rewrite firstn_all2 by lia. Qed.
Print Assumptions C77_mismatch.
Example C77_mismatch_nonvacuous : (List.length [[[1]]] <= List.length [Cell2 (fun c x => Ok (c, x)); Cell2 (fun c x => Err KeyError)])%nat.
Proof. cbn. lia. Qed.

(** ** C78: initScale *)
Lemma by_scale_scales k : k_src k = ByInitScale -> (0 < k_in k + k_out k)%nat -> scales k.
Proof.
  intros E H x u1 u2 Hx. rewrite E. cbn [initial_entry]. eexists. split; [reflexivity|]. f_equal.
  assert (P : 0 < INR (k_in k + k_out k)) by (apply lt_0_INR; exact H).
  replace (3 * x / (INR (k_in k + k_out k) / 2)) with (x * (3 * 1 / (INR (k_in k + k_out k) / 2))) by (field; lra).
  rewrite sqrt_mult; [|exact Hx|apply Rlt_le, Rdiv_lt_0_compat; lra]. unfold Cscal, RtoC. cbn [fst snd]. apply C_eq; unfold Re, Im; cbn; ring.
Qed.
(** two dimensions, real parameters: all kernels are scaled; missing: complex parameters, refuted below *)
Theorem C78_scaled_2d_partial hiddenSize depth inputDim realOut k : (0 < hiddenSize)%nat ->
  In k (kernels_2d hiddenSize depth inputDim realOut true) -> scales k.
Proof.
  intros Hh [<-|H]; [apply by_scale_scales; cbn; [reflexivity|lia]|]. apply in_app_or in H as [H|[<-|[]]]; [|apply by_scale_scales; cbn; [reflexivity|lia]].
  apply in_concat in H as (l & Hl & Hk). apply repeat_spec in Hl. subst l. destruct Hk as [<-|[<-|[]]]; apply by_scale_scales; cbn; try reflexivity; lia.
Qed.
Print Assumptions C78_scaled_2d_partial.
(** one dimension, real parameters: all but the input layer *)
Theorem C78_scaled_1d_partial hiddenSize depth inputDim realOut k : (0 < hiddenSize)%nat ->
  In k (kernels_1d hiddenSize depth inputDim realOut true) -> k_name k <> "data_in_dense"%string -> scales k.
Proof.
  intros Hh [<-|H] HN; [now contradiction HN|]. apply in_app_or in H as [H|[<-|[]]].
  - apply repeat_spec in H. subst k. apply by_scale_scales; cbn; [reflexivity|lia].
  - apply by_scale_scales; cbn; [reflexivity|lia].
Qed.
Print Assumptions C78_scaled_1d_partial.
Example C78_nonvacuous : List.length (kernels_2d 10 2 2 false true) = 6%nat /\ List.length (kernels_1d 10 2 2 false true) = 4%nat
  /\ In (mk_k "outputDense" ByInitScale 10 2) (kernels_1d 10 2 2 false true).
Proof. repeat split. cbn. auto. Qed.
(** the input layer of the one-dimensional network does not depend on initScale, whatever the sizes *)
Theorem C78_input_1d_refuted : (forall hiddenSize depth inputDim realOut realParams, exists k, In k (kernels_1d hiddenSize depth inputDim realOut realParams) /\ k_name k = "data_in_dense"%string /\ not_scaled k)
  /\ exists k, In k (kernels_1d 10 1 2 false true) /\ ~ scales k.
Proof.
  split.
  - intros. eexists. split; [left; reflexivity|]. split; [reflexivity|]. intros x y u1 u2. reflexivity.
  - exists (mk_k "data_in_dense" (ByFixedScale (1 / 10)) 2 10). split; [left; reflexivity|]. intros H. destruct (H 0 1 0 ltac:(lra)) as (e & E1 & E2).
    unfold initial_entry in E1, E2. cbn [k_src k_in k_out] in E1, E2.
    pose proof (f_equal (fun r : result C => match r with Ok z => fst z | Err _ => 0 end) E2) as Z. unfold RtoC, Cscal in Z. cbn [fst] in Z. rewrite sqrt_0 in Z.
    replace (INR (2 + 10)) with 12 in Z by (cbn; ring).
    assert (0 < sqrt (3 * (1 / 10) / (12 / 2))) by (apply sqrt_lt_R0; lra). lra.
Qed.
Print Assumptions C78_input_1d_refuted.
(** with complex parameters no kernel depends on initScale *)
Theorem C78_complex_refuted : (forall hiddenSize depth inputDim realOut k, In k (kernels_1d hiddenSize depth inputDim realOut false ++ kernels_2d hiddenSize depth inputDim realOut false) -> not_scaled k)
  /\ exists k, In k (kernels_2d 10 1 2 false false) /\ ~ scales k.
Proof.
  split.
  - intros h d n o k H. apply in_app_or in H as [[<-|H]|[<-|H]]; try (intros x y u1 u2; reflexivity).
    + apply in_app_or in H as [H|[<-|[]]]; [apply repeat_spec in H; subst k|]; intros x y u1 u2; reflexivity.
    + apply in_app_or in H as [H|[<-|[]]]; [|intros x y u1 u2; reflexivity]. apply in_concat in H as (l & Hl & Hk). apply repeat_spec in Hl. subst l.
      destruct Hk as [<-|[<-|[]]]; intros x y u1 u2; reflexivity.
  - exists (mk_k "data_in_dense" ByCplx 4 10). split; [left; reflexivity|]. intros H. destruct (H 0 1 0 ltac:(lra)) as (e & E1 & E2).
    unfold initial_entry in E1, E2. cbn [k_src k_in k_out] in E1, E2. rewrite E1 in E2. injection E2 as E2. rewrite sqrt_0 in E2.
    unfold cplx_variance_scaling in E1. cbn [rev app fold_left] in E1. injection E1 as E1. rewrite E2 in E1. apply (f_equal Cnorm2) in E1.
    rewrite Cnorm2_mul, Cexp_norm2 in E1. unfold Re in E1. cbn [fst] in E1. rewrite ?Rplus_0_r, ?Rmult_0_r, exp_0, ?Rmult_1_r in E1.
    unfold Cnorm2, RtoC, Cscal in E1. cbn [fst snd] in E1.
    match type of E1 with context [sqrt ?a] => set (w := sqrt a) in E1; assert (P : 0 < w) by (apply sqrt_lt_R0; lra) end.
    assert (Q : 0 < 1 / w) by (apply Rdiv_lt_0_compat; lra). nra.
Qed.
Print Assumptions C78_complex_refuted.
