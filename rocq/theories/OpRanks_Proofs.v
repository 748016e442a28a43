(** Proofs for operator objects on several ranks. *)
From Coq Require Import List Reals Lia Bool Arith Sorted.
From Verif Require Import Base Cplx Mpi_Model BranchFree_Model BranchFree_Spec OpBase_Model OpBase_Spec OpBase_Proofs
  BranchFree3_Proofs BranchFree_Props OpRanks_Model OpRanks_Spec.
Import ListNotations.

Lemma nth_error_number {X Y} (f : nat * X -> Y) (w : list X) a r :
  nth_error (map f (combine (seq a (length w)) w)) r = option_map (fun x => f (a + r, x)) (nth_error w r).
Proof.
  revert a r. induction w as [|x w IH]; intros a [|r]; cbn; try reflexivity.
  - now rewrite Nat.add_0_r.
  - rewrite IH. destruct (nth_error w r); cbn; [|reflexivity]. do 3 f_equal. lia.
Qed.

Lemma nth_of_nth_error {X} (l : list X) r d x : nth_error l r = Some x -> nth r l d = x.
Proof. revert r. induction l; destruct r; cbn; intros H; try discriminate; [congruence|auto]. Qed.

Lemma all_ok_inv {X} (xs : list (result X)) l : all_ok xs = Some l -> xs = map Ok l.
Proof.
  revert l. induction xs as [|[a|e] xs IH]; cbn; intros l H; [inversion H; reflexivity| |discriminate].
  destruct (all_ok xs); [|discriminate]. inversion H; subst. cbn. f_equal. auto.
Qed.
Lemma collective_inv {X Y} (f : list X -> Y) xs r v :
  nth r (collective f xs) (Err Blocked) = Ok v -> exists l, xs = map Ok l /\ v = f l /\ r < length xs.
Proof.
  intros H. unfold collective in H. destruct (all_ok xs) as [l|] eqn:E.
  - apply all_ok_inv in E. subst xs. exists l. destruct (Nat.lt_ge_cases r (length (map (@Ok X) l))) as [L|L].
    + split; [reflexivity|]. rewrite (nth_indep _ _ (Ok (f l))) in H by (now rewrite map_length).
      rewrite (map_nth (fun _ => Ok (f l)) _ (Err Blocked)) in H. inversion H. auto.
    + rewrite nth_overflow in H by (now rewrite map_length). discriminate.
  - destruct (Nat.lt_ge_cases r (length xs)) as [L|L].
    + pose proof (map_nth (fun x : result X => match x return result Y with Ok _ => Err Blocked | Err e => Err e end) xs (Err Blocked : result X) r) as N.
      cbv beta iota in N. assert (N' := eq_trans (eq_sym H) N). destruct (nth r xs (Err Blocked)); discriminate.
    + rewrite nth_overflow in H by (now rewrite map_length). discriminate.
Qed.

Section R.
Context {A : Type} (lDim d : nat).
Notation req := (result (list (nat * pfun A) * list C * option (compiled A))).

(** the prefactor list of compile *)
Lemma compile_pref_fst (ops : list (opstr A)) c : compile lDim ops = Ok c -> map fst (c_pref c) = with_prefactor ops.
Proof.
  unfold compile. destruct (existsb _ ops); [discriminate|]. destruct (mapM _ ops) as [rows|]; [|discriminate]. cbn [bind].
  intros H. inversion H; subst. cbn [c_pref]. unfold with_prefactor. clear H.
  assert (G : forall (all : list (opstr A)) a l, (forall k, k < length l -> nth (a + k) all [] = nth k l []) ->
    map fst (flat_map (fun os : nat * opstr A => match snd os with EFun p :: _ => [(fst os, p)] | _ => [] end) (combine (seq a (length l)) l))
    = filter (fun k => match nth k all [] with EFun _ :: _ => true | _ => false end) (seq a (length l))).
  { intros all a l. revert a. induction l as [|s l IH]; intros a Hn; [reflexivity|]. cbn [length seq combine flat_map filter].
    rewrite map_app. rewrite IH. 2:{ intros k Hk. specialize (Hn (S k)). cbn in Hn. rewrite <- Hn by lia. f_equal. lia. }
    pose proof (Hn 0) as H0. cbn in H0. rewrite Nat.add_0_r in H0. rewrite H0 by lia.
    destruct s as [|[p|o] s]; reflexivity. }
  apply (G ops 0 ops). reflexivity.
Qed.
Lemma sorted_seq a n : StronglySorted lt (seq a n).
Proof.
  revert a. induction n as [|n IH]; intros a; cbn; constructor; [apply IH|].
  apply Forall_forall. intros x Hx. apply in_seq in Hx. lia.
Qed.
Lemma sorted_filter (f : nat -> bool) l : StronglySorted lt l -> StronglySorted lt (filter f l).
Proof.
  induction 1 as [|a l Hl IH Ha]; cbn; [constructor|]. destruct (f a); [|exact IH]. constructor; [exact IH|].
  apply Forall_forall. intros x Hx. apply filter_In in Hx. rewrite Forall_forall in Ha. now apply Ha.
Qed.
Lemma compile_pref_ok (ops : list (opstr A)) c : compile lDim ops = Ok c ->
  StronglySorted lt (map fst (c_pref c)) /\ (forall i p, In (i, p) (c_pref c) -> i < length (map (fun _ => C1) ops)).
Proof.
  intros H. rewrite (compile_pref_fst _ _ H). split; [apply sorted_filter, sorted_seq|].
  intros i p Hi. apply (in_map fst) in Hi. rewrite (compile_pref_fst _ _ H) in Hi. apply filter_In in Hi as [Hi _].
  apply in_seq in Hi. rewrite map_length. cbn in Hi. lia.
Qed.

(** several ranks with the same request *)
Lemma arg_fun_all_nth (args : list A) (rqs : list req) r p i x v :
  nth_error rqs r = Some (Ok (p, i, x)) ->
  (forall k p' i' x', nth_error rqs k = Some (Ok (p', i', x')) -> p' = p /\ i' = i) ->
  nth r (arg_fun_all args rqs) (Err Blocked) = Ok v -> nth_error (arg_fun p i args (length rqs)) r = Some (Ok v).
Proof.
  intros Hr Hu Hv. assert (L : r < length rqs) by (apply nth_error_Some; congruence).
  unfold arg_fun_all in Hv.
  erewrite nth_of_nth_error in Hv by (rewrite nth_error_number, Hr; reflexivity). cbn [option_map snd fst plus] in Hv.
  unfold arg_fun. destruct (length p <? 50).
  - rewrite nth_error_map, (nth_error_nth' _ 0) by (rewrite seq_length; exact L). cbn. congruence.
  - apply collective_inv in Hv as (l & E & -> & _).
    assert (E' : map (arg_fun_rank p i args (length rqs)) (seq 0 (length rqs)) = map Ok l).
    { rewrite <- E. apply (nth_ext _ _ (Err Blocked) (Err Blocked)).
      - rewrite !map_length, combine_length, seq_length. lia.
      - intros k Hk. rewrite map_length, seq_length in Hk. symmetry.
        assert (Hl : nth_error (map (@Ok (list C)) l) k <> None).
        { apply nth_error_Some. rewrite <- E, map_length, combine_length, seq_length. lia. }
        rewrite <- E, nth_error_number in Hl. destruct (nth_error rqs k) as [rq|] eqn:Ek; [|now apply nth_error_None in Ek; lia].
        erewrite nth_of_nth_error by (rewrite nth_error_number, Ek; reflexivity). cbn [option_map snd fst plus].
        assert (Hm : nth_error (map (@Ok (list C)) l) k = Some (match rq with Err e => Err e | Ok (p0, i0, _) => arg_fun_rank p0 i0 args (length rqs) k end)).
        { rewrite <- E, nth_error_number, Ek. reflexivity. }
        rewrite nth_error_map in Hm. destruct (nth_error l k) as [y|]; [|discriminate]. cbn in Hm. inversion Hm as [Hy].
        destruct rq as [[[p0 i0] x0]|]; [|discriminate]. destruct (Hu _ _ _ _ Ek) as [-> ->].
        rewrite (nth_of_nth_error (map (arg_fun_rank p i args (length rqs)) (seq 0 (length rqs))) k (Err Blocked) (arg_fun_rank p i args (length rqs) k)); [congruence|]. rewrite nth_error_map, (nth_error_nth' _ 0) by (rewrite seq_length; exact Hk).
        rewrite seq_nth by exact Hk. reflexivity. }
    rewrite E'. unfold collective.
    assert (Ea : all_ok (map (@Ok (list C)) l) = Some l) by (clear; induction l; cbn; [|rewrite IHl]; reflexivity).
    rewrite Ea, nth_error_map, nth_error_map.
    assert (Ll : r < length l) by (rewrite <- (map_length (@Ok (list C))), <- E, map_length, combine_length, seq_length; lia).
    destruct (nth_error l r) eqn:El; [reflexivity|]. apply nth_error_None in El. lia.
Qed.

(** and conversely *)
Lemma arg_fun_all_same (args : list A) (rqs : list req) p i :
  Forall (fun rq => exists x, rq = Ok (p, i, x)) rqs -> arg_fun_all args rqs = arg_fun p i args (length rqs).
Proof.
  intros H. unfold arg_fun_all, arg_fun.
  assert (G : forall Y (f : nat * req -> Y) (g : nat -> Y) a, (forall k x, f (k, Ok (p, i, x)) = g k) ->
     map f (combine (seq a (length rqs)) rqs) = map g (seq a (length rqs))).
  { intros Y f g a Hf. revert a. induction H as [|rq rqs [x ->] _ IH]; intros a; [reflexivity|]. cbn. now rewrite Hf, IH. }
  rewrite (G _ (fun kr : nat * req => match snd kr with Ok (p, i, _) => arg_fun_rank p i args (length rqs) (fst kr) | Err e => Err e end)
             (arg_fun_rank p i args (length rqs)) 0) by reflexivity.
  destruct (Nat.ltb_spec (length p) 50) as [L|L].
  - rewrite (G _ _ (fun _ => arg_fun_serial p i args) 0); [reflexivity|]. intros k x. cbn [snd fst].
    destruct (Nat.ltb_spec (length p) 50); [reflexivity|lia].
  - rewrite (G _ _ (fun k => nth k (collective (fun l : list (list C) => concat l) (map (arg_fun_rank p i args (length rqs)) (seq 0 (length rqs)))) (Err Blocked)) 0).
    + set (l := collective _ _). assert (El : length l = length rqs).
      { unfold l, collective. destruct (all_ok _); now rewrite !map_length, seq_length. }
      rewrite <- El at 1. clear. induction l as [|y l IH] using rev_ind; [reflexivity|].
      rewrite app_length. cbn [length]. rewrite Nat.add_1_r, seq_S, map_app. cbn [map plus]. f_equal.
      * rewrite <- IH at 2. apply map_ext_in. intros k Hk. apply in_seq in Hk. apply app_nth1. lia.
      * rewrite app_nth2, Nat.sub_diag by lia. reflexivity.
    + intros k x. cbn [snd fst]. destruct (Nat.ltb_spec (length p) 50); [lia|reflexivity].
Qed.

(** one rank *)
Lemma request_inv (o : opobj A) args p i x : inv lDim o -> request lDim o args = Ok (p, i, x) ->
  exists c, compile lDim (ob_ops o) = Ok c /\ p = c_pref c /\ i = map (fun _ => C1) (ob_ops o).
Proof.
  intros [H1 _] H. unfold request in H. destruct (ob_compiled o) eqn:E; cbn [negb orb] in H.
  - destruct (match ob_argnum o with Some k => k =? length args | None => false end); cbn [negb] in H.
    + destruct (H1 eq_refl) as (c & Ec & Ea). rewrite Ea in H. inversion H; subst. eauto.
    + destruct (compile lDim (ob_ops o)) as [c|]; [|discriminate]. cbn [bind] in H. inversion H; subst. eauto.
  - destruct (compile lDim (ob_ops o)) as [c|]; [|discriminate]. cbn [bind] in H. inversion H; subst. eauto.
Qed.
Lemma finish_serial (o : opobj A) args p i x s : request lDim o args = Ok (p, i, x) ->
  finish d o args (request lDim o args) (arg_fun_serial p i args) s = get_s_primes lDim d o args s.
Proof.
  intros H. rewrite H. unfold request in H. unfold get_s_primes, finish.
  destruct (negb (ob_compiled o) || _).
  - destruct (compile lDim (ob_ops o)) as [c|]; [|discriminate]. cbn [bind] in H. inversion H; subst. reflexivity.
  - destruct (ob_argfun o) as [[p' i']|]; [|discriminate]. inversion H; subst. reflexivity.
Qed.
Lemma inv_finish (o : opobj A) args v s : inv lDim o -> inv lDim (snd (finish d o args (request lDim o args) v s)).
Proof.
  intros H. pose proof H as [H1 H2]. destruct (request lDim o args) as [[[p i] x]|e] eqn:E; [|exact H]. cbn [finish].
  destruct (request_inv _ _ _ _ _ H E) as (c & Ec & -> & ->).
  destruct x as [c'|].
  - assert (c' = c) as ->.
    { unfold request in E. destruct (negb (ob_compiled o) || _).
      - rewrite Ec in E. cbn [bind] in E. now inversion E.
      - destruct (ob_argfun o) as [[? ?]|]; inversion E. }
    destruct v; cbn [snd].
    + split; cbn; [intros _; exists c; auto|]. intros c' Hc. inversion Hc; subst. exists (ob_ops o), []. rewrite app_nil_r. auto.
    + split; cbn; [intros _; exists c; auto|exact H2].
  - destruct v; exact H.
Qed.
Lemma ops_finish (o : opobj A) args rq v s : ob_ops (snd (finish d o args rq v s)) = ob_ops o.
Proof. destruct rq as [[[p i] [c|]]|e]; cbn; [destruct v| destruct v|]; reflexivity. Qed.

(** all ranks *)
Definition winv (ops : list (opstr A)) (w : ranks A) : Prop :=
  Forall (fun x => match x with None => True | Some o => inv lDim o /\ ob_ops o = ops end) w.

Lemma gsr_nth (w : ranks A) args ss r :
  nth_error (get_s_primes_ranks lDim d w args ss) r
  = option_map (fun x => match x with
       | None => (Err Blocked, None)
       | Some o => let '(z, o') := finish d o args (request lDim o args)
                     (nth r (arg_fun_all args (map (fun x => match x with None => Err Blocked | Some o => request lDim o args end) w)) (Err Blocked)) (ss r) in
                   (z, match z with Err Blocked => None | _ => Some o' end)
       end) (nth_error w r).
Proof. unfold get_s_primes_ranks. rewrite nth_error_number. reflexivity. Qed.

Lemma gsr_length (w : ranks A) args ss : length (get_s_primes_ranks lDim d w args ss) = length w.
Proof. unfold get_s_primes_ranks. rewrite map_length, combine_length, seq_length. lia. Qed.

Lemma winv_step ops (w : ranks A) e : winv ops w ->
  winv (ops ++ radded [e]) (rstep lDim d w e).
Proof.
  intros H. unfold winv in *. destruct e as [s|args ss]; cbn [rstep radded flat_map app].
  - apply Forall_map. eapply Forall_impl; [|exact H]. intros [o|]; cbn; [|trivial]. intros [I <-]. split; [now apply inv_add|reflexivity].
  - rewrite app_nil_r. apply Forall_forall. intros x Hx. apply In_nth_error in Hx as [r Hr]. rewrite nth_error_map, gsr_nth in Hr.
    destruct (nth_error w r) as [[o|]|] eqn:Ew; cbn in Hr; try discriminate; [|inversion Hr; exact I].
    rewrite Forall_forall in H. destruct (H (Some o)) as [I E]; [eapply nth_error_In; eassumption|].
    match type of Hr with context [finish d o args _ ?v ?s] => pose proof (inv_finish o args v s I) as I'; pose proof (ops_finish o args (request lDim o args) v s) as E';
      destruct (finish d o args (request lDim o args) v s) as [z o'] eqn:Ef end.
    cbn in *. destruct z as [z|[]]; inversion Hr; auto; rewrite E'; auto.
Qed.
Lemma winv_run ops h (w : ranks A) : winv ops w -> winv (ops ++ radded h) (fold_left (rstep lDim d) h w).
Proof.
  revert ops w. induction h as [|e h IH]; intros ops w H; cbn [fold_left]; [now rewrite app_nil_r|].
  apply (winv_step _ _ e) in H. apply IH in H. rewrite <- app_assoc in H.
  replace (radded [e] ++ radded h) with (radded (e :: h)) in H; [exact H|]. unfold radded. cbn [flat_map]. now rewrite app_nil_r.
Qed.
Lemma winv_new m : winv [] (repeat (Some new_op) m).
Proof. apply Forall_forall. intros x Hx. apply repeat_spec in Hx. subst. split; [apply inv_new|reflexivity]. Qed.
Lemma run_length h (w : ranks A) : length (fold_left (rstep lDim d) h w) = length w.
Proof.
  revert w. induction h as [|e h IH]; intros w; [reflexivity|]. cbn [fold_left]. rewrite IH.
  destruct e; cbn [rstep]; rewrite map_length; [reflexivity|apply gsr_length].
Qed.

Lemma ranks_sound ops (w : ranks A) args ss r els x : winv ops w ->
  nth_error (get_s_primes_ranks lDim d w args ss) r = Some (Ok els, x) -> operator_elements lDim d ops args (ss r) = Ok els.
Proof.
  intros H Hr. rewrite gsr_nth in Hr. destruct (nth_error w r) as [[o|]|] eqn:Ew; cbn in Hr; try discriminate.
  assert (HF := H). unfold winv in HF. rewrite Forall_forall in HF.
  destruct (HF (Some o)) as [I E]; [eapply nth_error_In; eassumption|].
  set (rqs := map (fun x => match x with None => Err Blocked | Some o => request lDim o args end) w) in *.
  assert (Er : nth_error rqs r = Some (request lDim o args)) by (unfold rqs; rewrite nth_error_map, Ew; reflexivity).
  destruct (request lDim o args) as [[[p i] y]|e] eqn:Eq; [|discriminate].
  destruct (request_inv _ _ _ _ _ I Eq) as (c & Ec & Ep & Ei).
  destruct (nth r (arg_fun_all args rqs) (Err Blocked)) as [v|e] eqn:Ev.
  2:{ exfalso. destruct y; cbn in Hr; inversion Hr. }
  pose proof (arg_fun_all_nth args rqs r p i y v Er) as V.
  assert (S : arg_fun_serial p i args = Ok v).
  { destruct (compile_pref_ok _ _ Ec) as [Hs Hb]. subst p i.
    eapply C19_parallel_partial; [exact Hs|exact Hb| |apply V; [|exact Ev]].
    - assert (r < length rqs) by (apply nth_error_Some; congruence). lia.
    - intros k p' i' x' Hk. unfold rqs in Hk. rewrite nth_error_map in Hk. destruct (nth_error w k) as [[o'|]|] eqn:Ek; cbn in Hk; try discriminate.
      destruct (HF (Some o')) as [I' E']; [eapply nth_error_In; eassumption|]. inversion Hk as [Hk'].
      destruct (request_inv _ _ _ _ _ I' Hk') as (c' & Ec' & -> & ->). rewrite E', <- E in *. rewrite Ec in Ec'. inversion Ec'; subst. auto. }
  assert (G : fst (get_s_primes lDim d o args (ss r)) = Ok els).
  { rewrite <- (finish_serial o args p i y (ss r) Eq), S, Eq. destruct (finish d o args (Ok (p, i, y)) (Ok v) (ss r)) as [z o']. cbn. now inversion Hr. }
  apply eval_sound in G; [|exact I]. now rewrite E in G.
Qed.

(** no evaluation raised anywhere *)
Definition winv_ok (ops : list (opstr A)) (w : ranks A) : Prop :=
  Forall (fun x => exists o, x = Some o /\ inv_ok lDim o /\ ob_ops o = ops) w.
Lemma winv_ok_winv ops w : winv_ok ops w -> winv ops w.
Proof. apply Forall_impl. intros x (o & -> & I & E). split; [apply I|exact E]. Qed.

Lemma finish_ok_inv (o : opobj A) args v s : inv_ok lDim o ->
  (exists els, fst (finish d o args (request lDim o args) v s) = Ok els) -> inv_ok lDim (snd (finish d o args (request lDim o args) v s)).
Proof.
  intros [I H3] (els & E). split; [now apply inv_finish|].
  destruct (request lDim o args) as [[[p i] x]|e] eqn:Eq; [|discriminate]. cbn [finish] in *.
  destruct (request_inv _ _ _ _ _ I Eq) as (c & Ec & -> & ->).
  destruct x as [c'|].
  - assert (c' = c) as ->.
    { unfold request in Eq. destruct (negb (ob_compiled o) || _).
      - rewrite Ec in Eq. cbn [bind] in Eq. now inversion Eq.
      - destruct (ob_argfun o) as [[? ?]|]; inversion Eq. }
    destruct v; [|discriminate]. cbn. eauto.
  - destruct v; [|discriminate]. exact H3.
Qed.

Lemma winv_ok_run h : forall ops (w : ranks A), winv_ok ops w -> all_return_ranks lDim d w h ->
  winv_ok (ops ++ radded h) (fold_left (rstep lDim d) h w).
Proof.
  induction h as [|e h IH]; intros ops w H R; cbn [fold_left]; [now rewrite app_nil_r|]. destruct R as [Re Rh].
  replace (radded (e :: h)) with (radded [e] ++ radded h) by (unfold radded; cbn [flat_map]; now rewrite app_nil_r).
  rewrite app_assoc. apply IH; [|exact Rh]. clear IH Rh. unfold winv_ok in *. destruct e as [s|args ss]; cbn [rstep radded flat_map app].
  - apply Forall_map. eapply Forall_impl; [|exact H]. intros x (o & -> & I & <-). exists (add o s). split; [reflexivity|]. split; [|reflexivity].
    split; [apply inv_add, I|]. cbn. discriminate.
  - rewrite app_nil_r. apply Forall_forall. intros x Hx. apply In_nth_error in Hx as [r Hr]. rewrite nth_error_map in Hr.
    destruct (nth_error (get_s_primes_ranks lDim d w args ss) r) as [[z y]|] eqn:Eg; [|discriminate]. cbn in Hr. inversion Hr; subst.
    rewrite Forall_forall in Re. destruct (Re (z, x)) as (els & Ez); [eapply nth_error_In; eassumption|]. cbn in Ez. subst z.
    rewrite gsr_nth in Eg. destruct (nth_error w r) as [xo|] eqn:Ew; [|discriminate].
    rewrite Forall_forall in H. destruct (H xo) as (o & -> & I & E); [eapply nth_error_In; eassumption|]. cbn in Eg.
    match type of Eg with context [finish d o args _ ?v ?s] => pose proof (finish_ok_inv o args v s I) as I'; pose proof (ops_finish o args (request lDim o args) v s) as E';
      destruct (finish d o args (request lDim o args) v s) as [z o'] eqn:Ef end.
    cbn [fst snd] in *. inversion Eg; subst z. exists o'. split; [reflexivity|]. split; [apply I'; eauto|congruence].
Qed.
Lemma winv_ok_new m : winv_ok [] (repeat (Some new_op) m).
Proof. apply Forall_forall. intros x Hx. apply repeat_spec in Hx. subst. exists new_op. split; [reflexivity|]. split; [apply inv_new|reflexivity]. Qed.

Lemma store_all_calls (args : list A) off prefs res v : store_all off prefs args res = Ok v ->
  forall i p, In (i, p) prefs -> exists c, call p args = Ok c.
Proof.
  revert res. induction prefs as [|[i p] prefs IH]; intros res H j q Hj; [destruct Hj|]. cbn in H. destruct Hj as [Hj|Hj].
  - inversion Hj; subst. destruct (call q args); [eauto|discriminate].
  - destruct (call p args); [|discriminate]. cbn [bind] in H. destruct (set_nth res (i - off) a); [|discriminate]. cbn [bind] in H. eauto.
Qed.

Lemma nth_fst (l : list (nat * pfun A)) k : fst (nth k l (0, PConst C0)) = nth k (map fst l) 0.
Proof. now rewrite (map_nth fst l (0, PConst C0)). Qed.

Lemma request_ok (o : opobj A) args c : inv lDim o -> compile lDim (ob_ops o) = Ok c ->
  exists y, request lDim o args = Ok (c_pref c, map (fun _ => C1) (ob_ops o), y).
Proof.
  intros [H1 _] Ec. unfold request. destruct (ob_compiled o) eqn:E; cbn [negb orb].
  - destruct (H1 eq_refl) as (c' & Ec' & Ea). rewrite Ec in Ec'. inversion Ec'; subst c'.
    destruct (match ob_argnum o with Some k => k =? length args | None => false end); cbn [negb]; [rewrite Ea|rewrite Ec]; eexists; reflexivity.
  - rewrite Ec. eexists; reflexivity.
Qed.

Lemma ranks_complete ops (w : ranks A) args ss r els : winv_ok ops w -> shareable (length w) ops -> r < length w ->
  operator_elements lDim d ops args (ss r) = Ok els ->
  exists x, nth_error (get_s_primes_ranks lDim d w args ss) r = Some (Ok els, x).
Proof.
  intros H Hsh Hr He. rewrite gsr_nth. destruct (nth_error w r) as [xo|] eqn:Ew; [|apply nth_error_None in Ew; lia].
  assert (HF := H). unfold winv_ok in HF. rewrite Forall_forall in HF.
  destruct (HF xo) as (o & -> & I & E); [eapply nth_error_In; eassumption|]. cbn [option_map].
  set (rqs := map (fun x => match x with None => Err Blocked | Some o => request lDim o args end) w) in *.
  pose proof He as He'. unfold operator_elements in He'. destruct (compile lDim ops) as [c|] eqn:Ec; [|discriminate]. cbn [bind] in He'.
  destruct (arg_fun_serial (c_pref c) (map (fun _ => C1) ops) args) as [pref|] eqn:Es; [|discriminate]. cbn [bind] in He'.
  assert (Lr : length rqs = length w) by (unfold rqs; apply map_length).
  assert (Ea : arg_fun_all args rqs = arg_fun (c_pref c) (map (fun _ => C1) ops) args (length rqs)).
  { apply arg_fun_all_same. apply Forall_forall. intros rq Hin. unfold rqs in Hin. apply in_map_iff in Hin as (x & <- & Hx).
    destruct (HF x Hx) as (o' & Ex' & [I' _] & E'). subst x. rewrite <- E' in Ec |- *. now apply request_ok. }
  destruct (compile_pref_ok _ _ Ec) as [Hs Hb].
  destruct (C19_all_ranks_partial (c_pref c) args (map (fun _ => C1) ops) (length rqs) Hs Hb ltac:(lia)) with (rank := r) as (v & Ev).
  { intros i p Hi. eapply store_all_calls; [exact Es|exact Hi]. }
  { unfold shareable in Hsh. rewrite <- (compile_pref_fst _ _ Ec), map_length, <- Lr in Hsh. destruct Hsh as [L|L]; [now left|right].
    intros q k Hk. rewrite !nth_fst. now apply L. }
  { lia. }
  assert (Hm : 1 <= length rqs) by lia. destruct (C19_parallel_partial _ _ _ _ _ _ Hs Hb Hm Ev) as (Ev' & _). rewrite Es in Ev'. inversion Ev'; subst v.
  rewrite Ea, (nth_of_nth_error _ _ _ _ Ev).
  rewrite <- E in Ec. destruct (request_ok o args c (proj1 I) Ec) as (y & Ey). 
  pose proof (finish_serial o args _ _ _ (ss r) Ey) as F. rewrite E, Es in F. rewrite F.
  pose proof (eval_exact lDim d o args (ss r) I) as X. rewrite E, He in X.
  destruct (get_s_primes lDim d o args (ss r)) as [z o']. cbn in X. subst z. eauto.
Qed.

(** a rank that waits in allgather keeps waiting *)
Lemma dead_step (w : ranks A) e r : nth_error w r = Some None -> nth_error (rstep lDim d w e) r = Some None.
Proof.
  intros H. destruct e as [s|args ss]; cbn [rstep]; rewrite nth_error_map; [now rewrite H|]. rewrite gsr_nth, H. reflexivity.
Qed.
End R.
