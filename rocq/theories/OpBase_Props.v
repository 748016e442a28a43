(** C15 (compaction), C16 (local estimators), C17 (operator objects). *)
From Coq Require Import ZArith List Reals Lra Lia Bool Arith.
From Verif Require Import Base Cplx Mpi_Model Stats_Model BranchFree_Model BranchFree_Spec OpBase_Model OpBase_Spec OpBase_Proofs.
Import ListNotations.

(** ** C15 *)

(** Dropping matrix elements does not change any sum over s', if every element is zero
    or larger than 1e-6; otherwise the sum changes by at most 1e-6 sum |f(s')|.
    Missing: exactness for elements that are small but not zero. *)
Theorem C15_compaction_partial els : concat els <> [] ->
  exists out, compact els = Ok out
  /\ Forall2 (Forall2 (fun e o => forall f,
       (clean e -> contract o f = contract e f)
       /\ contract o f = contract_large e f
       /\ (Cabs (contract e f - contract o f)%C <= / 1000000 * rsum (map (fun sm => Cabs (f (fst sm))) e))%R)) els out.
Proof.
  intros H. destruct (compact_ok els H) as (mx & E & Hmx). exists (map (map (compact1 mx)) els). split; [exact E|].
  assert (G : forall els', incl (concat els') (concat els) -> Forall2 (Forall2 (fun e o => forall f,
       (clean e -> contract o f = contract e f) /\ contract o f = contract_large e f
       /\ (Cabs (contract e f - contract o f)%C <= / 1000000 * rsum (map (fun sm => Cabs (f (fst sm))) e))%R)) els' (map (map (compact1 mx)) els')).
  { induction els' as [|l els' IH]; intros Hi; cbn [map]; constructor.
    - assert (Hl : incl l (concat els)) by (intros x Hx; apply Hi; cbn; apply in_or_app; now left). clear IH Hi.
      induction l as [|e l IHl]; cbn [map]; constructor; [|apply IHl; intros x Hx; apply Hl; now right]. intros f.
      assert (Ef : contract (compact1 mx e) f = contract_large e f) by (apply compact1_contract, Hmx, Hl; now left).
      split; [intros Hc; now rewrite Ef, contract_large_clean|]. split; [exact Ef|]. rewrite Ef. apply contract_large_error.
    - apply IH. intros x Hx. apply Hi. cbn. apply in_or_app. now right. }
  apply G, incl_refl.
Qed.
Print Assumptions C15_compaction_partial.

Lemma Cabs_RtoC_pos x : (0 <= x)%R -> Cabs (RtoC x) = x.
Proof. intros H. unfold Cabs, Cnorm2, RtoC, Re, Im. cbn [fst snd]. replace (x * x + 0 * 0)%R with (x * x)%R by ring. now apply sqrt_square. Qed.
Lemma Cabs_C1 : Cabs C1 = 1%R.
Proof. apply (Cabs_RtoC_pos 1). lra. Qed.

(** two samples with elements (0, 1) and (1, 0): the padding differs *)
Example C15_example :
  concat [[[([1], C0); ([0], C1)]; [([1], C1); ([0], C0)]]] <> []
  /\ clean [([1], C0); ([0], C1)] /\ clean [([1], C1); ([0], C0)].
Proof.
  split; [discriminate|]. split; intros s' m [E|[E|[]]]; inversion E; subst; try (left; reflexivity); right; rewrite Cabs_C1; lra.
Qed.

(** an element 1e-7 is lost *)
Theorem C15_compaction_refuted : exists e out f, compact [[e]] = Ok [[out]] /\ contract out f <> contract e f.
Proof.
  set (e := [([0], RtoC (/ 10000000))] : list (config * C)).
  destruct (C15_compaction_partial [[e]] ltac:(discriminate)) as (out & E & F).
  inversion F as [|? l ? r H1 H2]; subst. inversion H2; subst. inversion H1 as [|? o ? r' H3 H4]; subst. inversion H4; subst.
  exists e, o, (fun _ => C1). split; [exact E|]. destruct (H3 (fun _ => C1)) as (_ & -> & _).
  unfold contract_large, contract, e. cbn [map fst snd]. rewrite !csum_cons, !csum_nil. rewrite Cabs_RtoC_pos by lra.
  destruct (Rlt_dec (/ 1000000) (/ 10000000)) as [L|_]; [exfalso; lra|]. intros X. apply (f_equal Re) in X. revert X. Cunf. cbn. lra.
Qed.
Print Assumptions C15_compaction_refuted.

(** ** C16 *)

(** Batching does not change the result for a logarithmic state, nor if the samples
    divide evenly.  [lpo] are the passed log-amplitudes, if any.  Missing: a remainder for a
    non-logarithmic state, where it is false. *)
Theorem C16_batched_partial op psi nsites bs n (samples : list (list config)) (lpo : option (list (list C))) :
  samples <> [] -> 1 <= n -> 1 <= bs -> Forall (fun l => length l = n) samples ->
  (forall lps, lpo = Some lps -> Forall2 (fun a b => length a = length b) samples lps) ->
  st_log psi = true \/ n mod bs = 0 \/ n mod (n / (n / bs + 1)) = 0 ->
  exists o, get_O_loc op psi nsites bs samples lpo = Ok (Some o) /\ get_O_loc op psi nsites 0 samples lpo = Ok (Some o).
Proof.
  intros Hs Hn Hb HL Hlp Hcase. unfold get_O_loc.
  set (lps := match lpo with Some l => l | None => map (map (st_val psi)) samples end).
  assert (HF : Forall2 (fun a b => length a = length b) samples lps).
  { unfold lps. destruct lpo as [l|]; [now apply Hlp|]. clear. induction samples; cbn; constructor; [now rewrite map_length|assumption]. }
  destruct (zip_samples samples lps HF) as (Z & ES & EL).
  assert (HZ : Z <> []) by (intros ->; apply Hs; rewrite ES; reflexivity).
  assert (HLZ : Forall (fun l => length l = n) Z).
  { rewrite ES in HL. apply Forall_map in HL. eapply Forall_impl; [|exact HL]. cbn. intros l. now rewrite map_length. }
  destruct (Nat.ltb_spec 0 bs); [|lia]. cbn [Nat.ltb Nat.leb]. rewrite EL, ES.
  rewrite eval_batch_ok by (apply (concat_nonnil Z n); assumption). cbn [bind].
  pose proof (batched_ok op psi Z n HZ Hn HLZ nsites bs Hb) as B. pose proof (rebatch_ok n bs Hn Hb) as R.
  destruct (rebatch n bs) as [[b nb] rem] eqn:Er. rewrite B. eexists. split; [reflexivity|]. do 2 f_equal. symmetry.
  apply map_ext_in. intros l Hl. rewrite Forall_forall in HLZ. specialize (HLZ l Hl).
  assert (Ec : st_log psi = true \/ rem = 0).
  { destruct Hcase as [Hc|Hc]; [now left|right]. unfold rebatch in Er. destruct (Nat.ltb_spec 0 (n mod bs)); inversion Er; subst; lia. }
  destruct Ec as [Ec|Ec].
  - rewrite (map_ext _ _ (fun sy => est_log op psi false sy Ec)), <- map_app, firstn_skipn. reflexivity.
  - rewrite firstn_all2, skipn_all2 by lia. cbn. now rewrite app_nil_r.
Qed.
Print Assumptions C16_batched_partial.

(** two devices with five samples each, batch size 3: batches of 2, remainder 1 *)
Example C16_batched_example :
  let samples := [[[0]; [1]; [0]; [1]; [0]]; [[1]; [1]; [0]; [0]; [1]]] in
  samples <> [] /\ Forall (fun l : list config => length l = 5) samples /\ rebatch 5 3 = (2, 2, 1).
Proof. split; [discriminate|]. split; [repeat constructor|reflexivity]. Qed.

(** The value: sum_s' O psi(s')/psi(s), for correct log-amplitudes and elements that are
    zero or above 1e-6; batched or not.  Missing as above. *)
Theorem C16_value_partial op psi nsites bs n (samples : list (list config)) (lps : list (list C)) :
  samples <> [] -> 1 <= n -> Forall (fun l => length l = n) samples ->
  Forall2 (Forall2 (fun s y => Cexp y = amplitude psi s)) samples lps ->
  Forall (Forall (fun s => clean (op s))) samples ->
  (st_log psi = false -> forall s s' m, In (s', m) (op s) -> m <> C0 -> amplitude psi s' <> C0) ->
  bs = 0 \/ st_log psi = true \/ n mod bs = 0 \/ n mod (n / (n / bs + 1)) = 0 ->
  get_O_loc op psi nsites bs samples (Some lps)
  = Ok (Some (map (map (fun s => O_loc_spec (op s) (amplitude psi) s)) samples)).
Proof.
  intros Hs Hn HL Hy Hc Hz Hcase.
  assert (HF : Forall2 (fun a b => length a = length b) samples lps).
  { clear -Hy. induction Hy as [|a b ? ? H _ IH]; constructor; [|assumption]. clear -H. induction H; cbn; congruence. }
  assert (U : get_O_loc op psi nsites 0 samples (Some lps) = Ok (Some (map (map (fun s => O_loc_spec (op s) (amplitude psi) s)) samples))).
  { unfold get_O_loc. cbn [Nat.ltb Nat.leb]. destruct (zip_samples samples lps HF) as (Z & -> & ->).
    rewrite eval_batch_ok.
    2:{ apply (concat_nonnil Z n); [intros ->; now apply Hs|lia|]. apply Forall_map in HL. eapply Forall_impl; [|exact HL]. cbn. intros l. now rewrite map_length. }
    cbn [bind]. do 2 f_equal. clear -Hy Hc Hz. induction Z as [|z Z IH]; [reflexivity|]. cbn [map] in *. inversion Hy; inversion Hc; subst. f_equal; [|auto].
    clear IH. induction z as [|[s y] z IHz]; [reflexivity|]. cbn [map fst snd] in *.
    match goal with H : Forall2 _ (s :: _) _ |- _ => inversion H end. match goal with H : Forall _ (s :: _) |- _ => inversion H end. subst.
    f_equal; [|apply IHz; try assumption; constructor; assumption]. apply est_value; [assumption|assumption|]. intros; eapply Hz; eauto. }
  destruct (Nat.eq_dec bs 0) as [->|Hb]; [exact U|]. destruct Hcase as [->|Hcase]; [congruence|].
  destruct (C16_batched_partial op psi nsites bs n samples (Some lps) Hs Hn ltac:(lia) HL) as (o & E1 & E2); [intros l El; inversion El; subst; exact HF|exact Hcase|].
  rewrite E1, <- E2. exact U.
Qed.
Print Assumptions C16_value_partial.

(** a non-logarithmic state psi(0) = 2, psi(1) = 1 and the operator Sx *)
Definition ex_psi : state := mk_state false (fun s => match s with [0] => RtoC 2 | _ => C1 end).
Definition ex_op : config -> list (config * C) := fun s => match s with [0] => [([1], C1)] | _ => [([0], C1)] end.
Lemma RtoC_neq0 x : x <> 0%R -> RtoC x <> C0.
Proof. intros H E. apply H. exact (f_equal fst E). Qed.
Lemma C1_neq0' : C1 <> C0. Proof. exact (RtoC_neq0 1 R1_neq_R0). Qed.
Lemma ex_psi_neq0 s : amplitude ex_psi s <> C0.
Proof.
  unfold amplitude, ex_psi. cbn [st_log st_val]. destruct s as [|[|k] [|? ?]]; try exact C1_neq0'. apply RtoC_neq0. lra.
Qed.
Example C16_value_example :
  let samples := [[[0]; [1]]] in
  let lps := map (map (fun s => Clog (amplitude ex_psi s))) samples in
  Forall2 (Forall2 (fun s y => Cexp y = amplitude ex_psi s)) samples lps
  /\ Forall (Forall (fun s => clean (ex_op s))) samples
  /\ (forall s s' m, In (s', m) (ex_op s) -> m <> C0 -> amplitude ex_psi s' <> C0)
  /\ O_loc_spec (ex_op [1]) (amplitude ex_psi) [1] = RtoC 2.
Proof.
  cbv zeta. split; [|split; [|split]].
  - repeat constructor; apply Cexp_Clog, ex_psi_neq0.
  - constructor; [|constructor]. constructor; [|constructor; [|constructor]]; intros s' m [E|[]]; inversion E; subst; right; rewrite Cabs_C1; lra.
  - intros. apply ex_psi_neq0.
  - unfold O_loc_spec, amplitude. cbn [map ex_op ex_psi st_log st_val fst snd]. rewrite csum_cons, csum_nil. unfold RtoC, C1, C0, Cdiv, Cinv, Cmul, Cadd, Cnorm2, Re, Im; cbn [fst snd]; f_equal; field.
Qed.

(** With a remainder, a non-logarithmic state is not logged in the last batch: constant
    psi = 2, the identity, five samples in batches of 3. *)
Theorem C16_batched_refuted : exists op psi bs samples lps o o',
  (forall s, clean (op s)) /\ (forall s, amplitude psi s <> C0)
  /\ Forall2 (Forall2 (fun s y => Cexp y = amplitude psi s)) samples lps
  /\ get_O_loc op psi 1 bs samples (Some lps) = Ok (Some o) /\ get_O_loc op psi 1 0 samples (Some lps) = Ok (Some o')
  /\ o <> o'.
Proof.
  set (op := fun s : config => [(s, C1)]). set (psi := mk_state false (fun _ => RtoC 2)).
  set (Z := [repeat (([0] : config), Clog (RtoC 2)) 5]).
  assert (N2 : RtoC 2 <> C0) by (apply RtoC_neq0; lra).
  assert (HL : Forall (fun l => length l = 5) Z) by (repeat constructor).
  exists op, psi, 3, (map (map fst) Z), (map (map snd) Z).
  eexists. eexists. split; [intros s s' m [E|[]]; inversion E; subst; right; rewrite Cabs_C1; lra|].
  split; [intros; exact N2|]. split; [unfold Z; cbn; repeat constructor; now apply Cexp_Clog|].
  split; [unfold get_O_loc; cbn [Nat.ltb Nat.leb]; exact (batched_ok op psi Z 5 ltac:(discriminate) ltac:(lia) HL 1 3 ltac:(lia))|].
  split; [unfold get_O_loc; cbn [Nat.ltb Nat.leb]; rewrite eval_batch_ok by discriminate; reflexivity|].
  intros E. apply (f_equal (fun o => nth 4 (nth 0 o []) C0)) in E.
  change (est op psi false ([0], Clog (RtoC 2)) = est op psi true ([0], Clog (RtoC 2))) in E.
  unfold est in E. rewrite !contract_large_clean in E by (intros s' m [X|[]]; inversion X; subst; right; rewrite Cabs_C1; lra).
  unfold contract, op, psi in E. cbn [map fst snd st_log st_val andb negb] in E. rewrite !csum_cons, !csum_nil in E.
  assert (E2 : Cexp (RtoC 2 - Clog (RtoC 2))%C = C1).
  { replace (Clog (RtoC 2) - Clog (RtoC 2))%C with C0 in E by ring. rewrite Cexp_C0 in E.
    transitivity (C1 * Cexp (RtoC 2 - Clog (RtoC 2)) + C0)%C; [ring|]. rewrite E. ring. }
  assert (E3 : Cexp (RtoC 2) = RtoC 2).
  { transitivity (Cexp ((RtoC 2 - Clog (RtoC 2)) + Clog (RtoC 2))%C); [f_equal; ring|]. rewrite Cexp_add, E2, Cexp_Clog by assumption. ring. }
  rewrite Cexp_RtoC in E3. apply (f_equal fst) in E3. cbn in E3. pose proof (exp_ineq1 2 ltac:(lra)). lra.
Qed.
Print Assumptions C16_batched_refuted.

(** If no log-amplitudes are passed, those of a non-logarithmic state are not logged. *)
Theorem C16_default_refuted : exists op psi samples o,
  (forall s, clean (op s)) /\ (forall s, amplitude psi s <> C0)
  /\ get_O_loc op psi 1 0 samples None = Ok (Some o)
  /\ o <> map (map (fun s => O_loc_spec (op s) (amplitude psi) s)) samples.
Proof.
  set (op := fun s : config => [(s, C1)]). set (psi := mk_state false (fun _ => RtoC 2)).
  assert (N2 : RtoC 2 <> C0) by (apply RtoC_neq0; lra).
  exists op, psi, [[[0]]]. eexists. split; [intros s s' m [E|[]]; inversion E; subst; right; rewrite Cabs_C1; lra|]. split; [intros; exact N2|].
  split; [unfold get_O_loc; cbn [Nat.ltb Nat.leb]; exact (f_equal (fun r => do o <- r; Ok (Some o)) (eval_batch_ok op psi true [[([0], RtoC 2)]] ltac:(discriminate)))|].
  intros E. apply (f_equal (fun o => nth 0 (nth 0 o []) C0)) in E. cbn [map nth] in E.
  unfold est in E. rewrite contract_large_clean in E by (intros s' m [X|[]]; inversion X; subst; right; rewrite Cabs_C1; lra).
  unfold contract, O_loc_spec, op, psi, amplitude in E. cbn [map fst snd st_log st_val andb negb] in E. rewrite !csum_cons, !csum_nil in E.
  assert (E2 : Cexp (Clog (RtoC 2) - RtoC 2)%C = C1).
  { transitivity (C1 * Cexp (Clog (RtoC 2) - RtoC 2) + C0)%C; [ring|]. rewrite E. field. exact N2. }
  assert (E3 : RtoC 2 = Cexp (RtoC 2)).
  { rewrite <- (Cexp_Clog (RtoC 2) N2) at 1. transitivity (Cexp ((Clog (RtoC 2) - RtoC 2) + RtoC 2)%C); [f_equal; ring|]. rewrite Cexp_add, E2. ring. }
  rewrite Cexp_RtoC in E3. apply (f_equal fst) in E3. cbn in E3. pose proof (exp_ineq1 2 ltac:(lra)). lra.
Qed.
Print Assumptions C16_default_refuted.

(** The function of get_estimator_function has the same value for a logarithmic state. *)
Theorem C16_estimator op psi s : st_log psi = true ->
  op_estimator op (st_val psi) s = O_loc_spec (op s) (amplitude psi) s.
Proof.
  intros H. unfold op_estimator, O_loc_spec, amplitude. rewrite H. apply csum_ext. intros [s' m] _. cbn [fst snd]. f_equal.
  unfold Csub. rewrite Cexp_add, Cexp_opp. reflexivity.
Qed.
Print Assumptions C16_estimator.
Example C16_estimator_example : op_estimator ex_op (fun s => match s with [0] => RtoC 1 | _ => C0 end) [1] = RtoC (exp 1).
Proof. unfold op_estimator. cbn [ex_op map fst snd]. rewrite csum_cons, csum_nil. replace (RtoC 1 - C0)%C with (RtoC 1) by ring. rewrite Cexp_RtoC. ring. Qed.

(** ** C17 *)

(** Never stale: whatever was added, evaluated (with any numbers of arguments) and raised
    before, an evaluation that returns gives the elements of the sum of all strings
    added so far. *)
Theorem C17_never_stale {A} lDim d (h : list (event A)) args s els :
  fst (get_s_primes lDim d (run lDim d h) args s) = Ok els -> operator_elements lDim d (added h) args s = Ok els.
Proof.
  intros H. destruct (run_inv lDim d h new_op (proj1 (inv_new lDim))) as [I E]. cbn in E.
  apply eval_sound in H; [|exact I]. unfold run in H. rewrite E in H. exact H.
Qed.
Print Assumptions C17_never_stale.

(** It also raises exactly like a freshly built operator if no earlier evaluation raised.
    Missing: histories with an evaluation that raised, see below. *)
Theorem C17_fresh_partial {A} lDim d (h : list (event A)) args s :
  all_return lDim d new_op h ->
  fst (get_s_primes lDim d (run lDim d h) args s) = operator_elements lDim d (added h) args s.
Proof.
  intros H. pose proof (run_inv_ok lDim d h new_op (inv_new lDim) H) as I.
  destruct (run_inv lDim d h new_op (proj1 (inv_new lDim))) as [_ E]. cbn in E.
  unfold run. rewrite (eval_exact lDim d _ args s I). now rewrite E.
Qed.
Print Assumptions C17_fresh_partial.

Definition ex_pref : pfun bool := PUser (fun args => match args with [true] => Ok C1 | _ => Err ValueError end).
Definition ex_hist : list (event bool) := [Add [EFun ex_pref; EOp (Sx 0)]; Eval [true] [0]; Add [EOp (Sx 0)]; Eval [true] [1]].
Example C17_example : all_return 2 1 new_op ex_hist
  /\ exists els, operator_elements 2 1 (added ex_hist) [true] [0] = Ok els /\ length els = 2.
Proof. split; [repeat split; eexists; reflexivity|]. eexists. split; reflexivity. Qed.

(** A prefactor that raised once makes the next evaluation fail, although a fresh operator
    with the same strings evaluates. *)
Theorem C17_fresh_refuted : exists (h : list (event bool)) args s els,
  operator_elements 2 1 (added h) args s = Ok els
  /\ fst (get_s_primes 2 1 (run 2 1 h) args s) = Err TypeError.
Proof.
  exists [Add [EFun ex_pref; EOp (Sx 0)]; Eval [false] [0]], [true], [0]. eexists. split; reflexivity.
Qed.
Print Assumptions C17_fresh_refuted.
