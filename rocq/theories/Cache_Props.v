(** The sampler as an object: C92. *)
From Coq Require Import ZArith List Reals Bool Arith Lia Lra.
From Verif Require Import Base Cplx BranchFree_Model Stats_Model Mpi_Model Dist Sampler_Model Cache_Model Cache_Spec Cache_Proofs.
Import ListNotations.

(** which constructor calls succeed, and what the new object has *)
Theorem C92_constructor {Arg} net isGen prop (arg : Arg) chains N therm sw init mu lpf :
  match make_sampler net isGen prop arg chains N therm sw init mu lpf with
  | Ok s => (isGen = true \/ prop <> None) /\ (0 <= mu <= 2)%R /\ s_mu s = mu /\ s_lpf s = lpf /\ s_net s = net /\ s_numSamples s = N /\ s_therm s = therm /\ s_sweep s = sw
            /\ s_arg s = arg /\ (forall p, prop = Some p -> s_prop s = p) /\ s_states s = repeat init chains /\ get_last_number_of_samples s = Err AttributeError
  | Err RuntimeError => isGen = false /\ prop = None
  | Err ValueError => (isGen = true \/ prop <> None) /\ (mu < 0 \/ 2 < mu)%R
  | Err _ => False
  end.
Proof.
  unfold make_sampler. destruct isGen, prop as [p|]; cbn [negb andb]; try (split; [reflexivity|reflexivity]);
    destruct (Rlt_dec mu 0); [|destruct (Rlt_dec 2 mu)| |destruct (Rlt_dec 2 mu)| |destruct (Rlt_dec 2 mu)];
    try (split; [solve [left; reflexivity|right; discriminate]|lra]);
    (split; [solve [left; reflexivity|right; discriminate]|]; split; [lra|]; repeat (split; [reflexivity|]); split; [intros q [= <-] || intros q [=]; reflexivity|split; reflexivity]).
Qed.
Print Assumptions C92_constructor.

Section Life.
Context {Par Arg : Type}.
Variables (logPsi : nat -> Par -> config -> C) (proposer : nat -> Arg -> config -> dist config) (shape : Par -> nat) (argShape : Arg -> nat).
Notation sample := (sample logPsi proposer shape argShape).
Notation history := (history logPsi proposer shape argShape).

(** settings are those of before the call; the states are those of the chains, the number of samples that of this call *)
Definition only_advanced (s s' : sampler Arg) (c : carry) (glob : Z) : Prop :=
  s_net s' = s_net s /\ s_mu s' = s_mu s /\ s_lpf s' = s_lpf s /\ s_numSamples s' = s_numSamples s /\ s_therm s' = s_therm s /\ s_sweep s' = s_sweep s
  /\ s_prop s' = s_prop s /\ s_arg s' = s_arg s /\ s_numChains s' = s_numChains s /\ s_states s' = c_states c /\ get_last_number_of_samples s' = Ok glob.
(** a call of [sample] does what the current settings and parameters ask for *)
Definition as_asked (ps : nat -> Par) (P : option Par) (num : option Z) (k : Z) (s : sampler Arg) : Prop :=
  let Pu := params_used ps P s in
  exists next, (forall c, only_advanced s (next c) c (snd (counts s num k)))
    /\ sample ps P num k s = (r <~ current_draw logPsi proposer s Pu (per_chain s num k);;
         ret (next (fst r), (snd r, map (logPsi (s_net s) Pu) (snd r), map (current_weight logPsi s Pu (snd r)) (snd r)))).

(** in general, after any history: the chains are driven by the network of the first call with that number of samples and the exponent mu of
    the first call with that combination of settings; everything else is current *)
Theorem C92_first_use w os log s ps P num k : history w os log (s, ps) -> s_jitd (fst w) = [] -> s_traces (fst w) = [] ->
  let Pu := params_used ps P s in let n := per_chain s num k in
  let net := match find (fun e => k_n (fst (fst e)) =? n) log with Some e => snd e | None => s_net s end in
  let mu := match find (fun e => tkey_eqb (fst (fst e)) (key_of shape argShape s Pu n)) log with Some e => snd (fst e) | None => s_mu s end in
  exists next, (forall c, only_advanced s (next c) c (snd (counts s num k)))
    /\ sample ps P num k s = (r <~ get_samples (fun x => Re (logPsi net Pu x)) mu (proposer (s_prop s) (s_arg s)) n (s_therm s) (s_sweep s)
                                     (mc_init (fun x => Re (logPsi (s_net s) Pu x)) (s_mu s) (s_states s));;
         ret (next (fst r), (snd r, map (logPsi (s_net s) Pu) (snd r), map (current_weight logPsi s Pu (snd r)) (snd r)))).
Proof.
  intros H J T Pu n net mu. destruct (history_inv _ _ _ _ _ _ _ _ H J T) as [I1 I2]. cbn [fst] in I1, I2.
  exists (after s (key_of shape argShape s Pu n) (snd (counts s num k))). split; [intros c; repeat split|]. rewrite sample_unfold. fold Pu. fold n. rewrite I1, I2.
  unfold net, mu, first_net, first_mu.
  destruct (find (fun e => k_n (fst (fst e)) =? n) log); destruct (find (fun e => tkey_eqb (fst (fst e)) (key_of shape argShape s Pu n)) log); reflexivity.
Qed.

(** so sampling is as asked if previous calls with that number of samples and combination of settings had the present network and mu *)
Theorem C92_same_mu_partial w os log s ps P num k : history w os log (s, ps) -> s_jitd (fst w) = [] -> s_traces (fst w) = [] ->
  (forall key m q, In (key, m, q) log -> (k_n key = per_chain s num k -> q = s_net s)
     /\ (key = key_of shape argShape s (params_used ps P s) (per_chain s num k) -> m = s_mu s)) ->
  as_asked ps P num k s.
Proof.
  intros H J T HL. destruct (C92_first_use w os log s ps P num k H J T) as (next & N1 & N2). exists next. split; [exact N1|]. rewrite N2. unfold current_draw, sample_device.
  destruct (find (fun e => k_n (fst (fst e)) =? per_chain s num k) log) as [[[k1 m1] q1]|] eqn:F1; cbn [fst snd];
    [apply find_some in F1 as [F1 G1]; cbn [fst] in G1; apply Nat.eqb_eq in G1; rewrite (proj1 (HL _ _ _ F1) G1)|];
    (destruct (find (fun e => tkey_eqb (fst (fst e)) (key_of shape argShape s (params_used ps P s) (per_chain s num k))) log) as [[[k2 m2] q2]|] eqn:F2; cbn [fst snd];
     [apply find_some in F2 as [F2 G2]; cbn [fst] in G2; apply tkey_eqb_eq in G2; rewrite (proj2 (HL _ _ _ F2) G2)|]; reflexivity).
Qed.

(** in particular after any history of a new sampler in which nobody assigned to its mu and net: parameters, numbers of samples and sweeps, proposer
    and its argument, logProbFactor and states are never stale *)
Theorem C92_settings_partial net isGen prop arg chains N therm sw init mu lpf s0 ps0 os log s ps P num k :
  make_sampler net isGen prop arg chains N therm sw init mu lpf = Ok s0 -> history (s0, ps0) os log (s, ps) ->
  (forall o, In o os -> match o with SetMu _ | SetNet _ => False | _ => True end) -> as_asked ps P num k s.
Proof.
  intros M H K. assert (J : s_jitd s0 = [] /\ s_traces s0 = []).
  { unfold make_sampler in M. destruct (negb isGen && _); [discriminate|]. destruct (if Rlt_dec mu 0 then true else _); [discriminate|]. injection M as <-. split; reflexivity. }
  destruct J as [J T]. apply (C92_same_mu_partial _ _ _ _ _ _ _ _ H J T). destruct (history_keeps _ _ _ _ _ _ _ _ H) as (K1 & K2 & K3); [apply Forall_forall; exact K|]. cbn [fst] in K1, K2, K3.
  intros key m q Hin. rewrite Forall_forall in K3. destruct (K3 _ Hin) as [E1 E2]. cbn [fst snd] in E1, E2. rewrite K1, K2. split; intros _; assumption.
Qed.
End Life.
Print Assumptions C92_first_use.
Print Assumptions C92_same_mu_partial.
Print Assumptions C92_settings_partial.

(** ** one spin; psi = 1 for spin down and exp (- parameter) for spin up in network 0, exp (- 2 parameter) in network 1 *)
Definition spin_logPsi (q : nat) (P : R) (s : config) : C := match s with [1] => RtoC (- (INR (q + 1) * P)) | _ => C0 end.
Definition spin_flip (_ : nat) (_ : unit) (s : config) : dist config := ret (map (fun x => 1 - x) s).
Notation spin_sample := (sample spin_logPsi spin_flip (fun _ : R => 0) (fun _ : unit => 0)).
Notation spin_history := (history spin_logPsi spin_flip (fun _ : R => 0) (fun _ : unit => 0)).
Definition spin_s0 (mu : R) : sampler unit := mk_sampler 0 mu (1/2) 1 0 1 0 tt 1 [[0]] None [] [].
Lemma spin_made : make_sampler 0 false (Some 0) tt 1 1 0 1 [0] 2 (1/2) = Ok (spin_s0 2).
Proof. unfold make_sampler. cbn [negb andb]. destruct (Rlt_dec 2 0); [lra|]. destruct (Rlt_dec 2 2); [lra|]. reflexivity. Qed.
(** probability that the spin is flipped *)
Definition up (l : list config) : R := match l with [[1]] => 1%R | _ => 0%R end.
Lemma spin_draw re m re0 m0 : E (get_samples re m (spin_flip 0 tt) 1 0 1 (mc_init re0 m0 [[0]])) (fun r => up (snd r)) = Rmin 1 (exp (m * re [1] - m0 * re0 [0])).
Proof.
  cbv -[Rplus Rmult Rminus Rmin exp IZR INR Rinv Ropp]. ring.
Qed.

Definition spin_s (mu : R) (net : nat) (states : list config) : sampler unit :=
  mk_sampler net mu (1/2) 1 0 1 0 tt 1 states (Some 1%Z) [(1, 0)] [(mk_tkey 1 0 1 0 0 0 1, 2%R)].
Lemma spin_first ps : exists r states, outcome (spin_sample ps None (Some 1%Z) 1 (spin_s0 2)) (spin_s 2 0 states, r).
Proof.
  pose proof (spin_draw (fun x => Re (spin_logPsi 0 (ps 0) x)) 2 (fun x => Re (spin_logPsi 0 (ps 0) x)) 2) as D.
  rewrite sample_unfold. change (per_chain (spin_s0 2) (Some 1%Z) 1) with 1. change (params_used ps None (spin_s0 2)) with (ps 0).
  change (snd (counts (spin_s0 2) (Some 1%Z) 1)) with 1%Z. cbn [spin_s0 s_net s_mu s_prop s_arg s_therm s_sweep s_states].
  change (or_else (jit_net 1 _) 0) with 0. change (or_else (traced_mu _ _) _) with 2%R.
  match goal with |- context [dbind ?g _] => set (G := g) end.
  assert (D' : E G (fun r => up (snd r)) = Rmin 1 (exp (2 * Re (spin_logPsi 0 (ps 0) [1]) - 2 * Re (spin_logPsi 0 (ps 0) [0])))) by exact D.
  clearbody G. destruct G as [|[p r] l].
  - exfalso. unfold E in D'. cbn [map rsum] in D'. apply (Rlt_irrefl 0). rewrite D' at 2. apply Rmin_glb_lt; [lra|apply exp_pos].
  - exists (snd r, map (spin_logPsi 0 (ps 0)) (snd r), map (current_weight spin_logPsi (spin_s0 2) (ps 0) (snd r)) (snd r)), (c_states (fst r)).
    apply outcome_bind. exists r. split; [left; reflexivity|]. apply outcome_ret. reflexivity.
Qed.
(** one call, then two assignments *)
Lemma short_life {Par Arg} logPsi proposer shape argShape (s : sampler Arg) (ps : nat -> Par) P n k s1 r o1 o2 :
  outcome (sample logPsi proposer shape argShape ps P n k s) (s1, r) ->
  match o1 with Sample _ _ _ | SetParameters _ _ => False | _ => True end -> match o2 with Sample _ _ _ | SetParameters _ _ => False | _ => True end ->
  history logPsi proposer shape argShape (s, ps) [Sample P n k; o1; o2] [(key_of shape argShape s (params_used ps P s) (per_chain s n k), s_mu s, s_net s)] (assign o2 (assign o1 s1), ps).
Proof.
  intros F H1 H2. apply (history_set logPsi proposer shape argShape (s, ps) [Sample P n k; o1] _ (assign o1 s1, ps) o2);
    [|destruct o2; try contradiction; exact I|destruct o2; try contradiction; reflexivity].
  apply (history_set logPsi proposer shape argShape (s, ps) [Sample P n k] _ (s1, ps) o1); [|destruct o1; try contradiction; exact I|destruct o1; try contradiction; reflexivity].
  apply (history_sample logPsi proposer shape argShape (s, ps) [] [] (s, ps) P n k (s1, ps)); [apply history_new|]. exists r. split; [exact F|reflexivity].
Qed.

Notation spin_asked := (as_asked spin_logPsi spin_flip (fun _ : R => 0) (fun _ : unit => 0)).
(** what a further call does if it is as asked *)
Lemma spin_asked_up ps s : spin_asked ps None (Some 1%Z) 1%Z s -> s_states s = [[0]] -> s_therm s = 0 -> s_sweep s = 1 -> s_prop s = 0 -> s_arg s = tt -> s_numChains s = 1%Z ->
  E (spin_sample ps None (Some 1%Z) 1%Z s) (fun r => up (fst (fst (snd r)))) = Rmin 1 (exp (- (s_mu s * (INR (s_net s + 1) * ps (s_net s))))).
Proof.
  intros (next & _ & D) H1 H2 H3 H4 H5 H6. rewrite D. rewrite E_bind. unfold current_draw, sample_device. rewrite H1, H2, H3, H4, H5.
  assert (HP : per_chain s (Some 1%Z) 1%Z = 1) by (unfold per_chain, counts; rewrite H6; reflexivity). rewrite HP.
  erewrite E_ext; [rewrite spin_draw; f_equal; f_equal; unfold spin_logPsi, params_used, RtoC, C0; cbn [Re fst]; ring|].
  intros a _. rewrite E_ret. reflexivity.
Qed.

Lemma exp_below x : (x < 0)%R -> (exp x <= 1)%R. Proof. intros H. left. rewrite <- exp_0. now apply exp_increasing. Qed.
(** what a further call does after mu or net were assigned to: the chains follow the old ones *)
Lemma spin_stale_up ps s : ps (s_net s) = 1%R -> s_jitd s = [(1, 0)] -> s_traces s = [(mk_tkey 1 0 1 0 0 0 1, 2%R)] ->
  s_states s = [[0]] -> s_therm s = 0 -> s_sweep s = 1 -> s_prop s = 0 -> s_arg s = tt -> s_numChains s = 1%Z ->
  E (spin_sample ps None (Some 1%Z) 1%Z s) (fun r => up (fst (fst (snd r)))) = exp (- 2).
Proof.
  intros Hp J T H1 H2 H3 H4 H5 H6. rewrite sample_unfold.
  assert (HP : per_chain s (Some 1%Z) 1%Z = 1) by (unfold per_chain, counts; rewrite H6; reflexivity). rewrite HP.
  assert (HJ : jit_net 1 s = Some 0) by (unfold jit_net; rewrite J; reflexivity). rewrite HJ.
  match goal with |- context [traced_mu ?k s] => assert (HT : traced_mu k s = Some 2%R) by (unfold traced_mu, key_of; rewrite T, H1, H2, H3, H4; reflexivity) end.
  rewrite HT. cbn [or_else]. rewrite E_bind, H1, H2, H3, H4, H5. unfold params_used. rewrite Hp.
  erewrite E_ext; [rewrite spin_draw|intros a _; rewrite E_ret; reflexivity].
  unfold spin_logPsi, RtoC, C0. cbn [Re fst Nat.add INR]. rewrite Rmult_0_r, Rmin_right.
  - f_equal. ring.
  - apply exp_below. lra.
Qed.

(** after an assignment to mu, a call with a combination of settings used before follows the old mu: here the spin is flipped with probability exp (-2)
    although the new mu = 1 asks for exp (-1) *)
Theorem C92_mu_refuted : exists s0 s log, make_sampler 0 false (Some 0) tt 1 1 0 1 [0] 2 (1/2) = Ok s0
  /\ spin_history (s0, fun _ => 1%R) [Sample None (Some 1%Z) 1%Z; SetStates [[0]]; SetMu 1] log (s, fun _ => 1%R)
  /\ s_mu s = 1%R /\ s_states s = [[0]]
  /\ E (spin_sample (fun _ => 1%R) None (Some 1%Z) 1%Z s) (fun r => up (fst (fst (snd r)))) = exp (- 2)
  /\ (spin_asked (fun _ => 1%R) None (Some 1%Z) 1%Z s -> E (spin_sample (fun _ => 1%R) None (Some 1%Z) 1%Z s) (fun r => up (fst (fst (snd r)))) = exp (- 1))
  /\ ~ spin_asked (fun _ => 1%R) None (Some 1%Z) 1%Z s.
Proof.
  destruct (spin_first (fun _ => 1%R)) as (r & st & F).
  exists (spin_s0 2), (assign (Par := R) (SetMu 1) (assign (Par := R) (SetStates [[0]]) (spin_s 2 0 st))). eexists. split; [exact spin_made|].
  split; [exact (short_life spin_logPsi spin_flip (fun _ => 0) (fun _ => 0) (spin_s0 2) (fun _ => 1%R) None (Some 1%Z) 1%Z (spin_s 2 0 st) r (SetStates [[0]]) (SetMu 1) F I I)|].
  set (s := assign (Par := R) (SetMu 1) _). split; [reflexivity|]. split; [reflexivity|].
  assert (U : E (spin_sample (fun _ => 1%R) None (Some 1%Z) 1%Z s) (fun r => up (fst (fst (snd r)))) = exp (- 2)) by (apply spin_stale_up; reflexivity).
  split; [exact U|].
  assert (V : spin_asked (fun _ => 1%R) None (Some 1%Z) 1%Z s -> E (spin_sample (fun _ => 1%R) None (Some 1%Z) 1%Z s) (fun r => up (fst (fst (snd r)))) = exp (- 1)).
  { intros A. rewrite (spin_asked_up _ s A); try reflexivity. unfold s; cbn [assign s_mu s_net spin_s Nat.add INR]. rewrite Rmin_right; [f_equal; ring|].
    apply exp_below. lra. }
  split; [exact V|]. intros A. specialize (V A). rewrite U in V. apply exp_inv in V. lra.
Qed.
Print Assumptions C92_mu_refuted.

(** likewise after an assignment to net *)
Theorem C92_net_refuted : exists s0 s log, make_sampler 0 false (Some 0) tt 1 1 0 1 [0] 2 (1/2) = Ok s0
  /\ spin_history (s0, fun _ => 1%R) [Sample None (Some 1%Z) 1%Z; SetStates [[0]]; SetNet 1] log (s, fun _ => 1%R)
  /\ s_net s = 1 /\ s_states s = [[0]]
  /\ E (spin_sample (fun _ => 1%R) None (Some 1%Z) 1%Z s) (fun r => up (fst (fst (snd r)))) = exp (- 2)
  /\ (spin_asked (fun _ => 1%R) None (Some 1%Z) 1%Z s -> E (spin_sample (fun _ => 1%R) None (Some 1%Z) 1%Z s) (fun r => up (fst (fst (snd r)))) = exp (- 4))
  /\ ~ spin_asked (fun _ => 1%R) None (Some 1%Z) 1%Z s.
Proof.
  destruct (spin_first (fun _ => 1%R)) as (r & st & F).
  exists (spin_s0 2), (assign (Par := R) (SetNet 1) (assign (Par := R) (SetStates [[0]]) (spin_s 2 0 st))). eexists. split; [exact spin_made|].
  split; [exact (short_life spin_logPsi spin_flip (fun _ => 0) (fun _ => 0) (spin_s0 2) (fun _ => 1%R) None (Some 1%Z) 1%Z (spin_s 2 0 st) r (SetStates [[0]]) (SetNet 1) F I I)|].
  set (s := assign (Par := R) (SetNet 1) _). split; [reflexivity|]. split; [reflexivity|].
  assert (U : E (spin_sample (fun _ => 1%R) None (Some 1%Z) 1%Z s) (fun r => up (fst (fst (snd r)))) = exp (- 2)) by (apply spin_stale_up; reflexivity).
  split; [exact U|].
  assert (V : spin_asked (fun _ => 1%R) None (Some 1%Z) 1%Z s -> E (spin_sample (fun _ => 1%R) None (Some 1%Z) 1%Z s) (fun r => up (fst (fst (snd r)))) = exp (- 4)).
  { intros A. rewrite (spin_asked_up _ s A); try reflexivity. unfold s; cbn [assign s_mu s_net spin_s Nat.add INR]. rewrite Rmin_right; [f_equal; ring|].
    apply exp_below. lra. }
  split; [exact V|]. intros A. specialize (V A). rewrite U in V. apply exp_inv in V. lra.
Qed.
Print Assumptions C92_net_refuted.

(** the hypotheses of C92_first_use, C92_settings_partial on a history with changes of states, sweeps and parameters; of C92_same_mu_partial on one
    where mu is changed together with the number of thermalisation sweeps *)
Example C92_case : exists s log,
  spin_history (spin_s0 2, fun _ => 1%R) [Sample None (Some 1%Z) 1%Z; SetStates [[0]]; SetTherm 3] log (s, fun _ => 1%R) /\ log <> []
  /\ spin_asked (fun _ => 1%R) None None 4%Z s /\ spin_asked (fun _ => 1%R) (Some 5%R) None 4%Z s /\ s_therm s = 3.
Proof.
  destruct (spin_first (fun _ => 1%R)) as (r & st & F). eexists. eexists.
  pose proof (short_life spin_logPsi spin_flip (fun _ => 0) (fun _ => 0) (spin_s0 2) (fun _ => 1%R) None (Some 1%Z) 1%Z (spin_s 2 0 st) r (SetStates [[0]]) (SetTherm 3) F I I) as H. split; [exact H|]. split; [discriminate|].
  assert (A : forall P, spin_asked (fun _ => 1%R) P None 4%Z (assign (Par := R) (SetTherm 3) (assign (Par := R) (SetStates [[0]]) (spin_s 2 0 st)))).
  { intros P. refine (C92_settings_partial _ _ _ _ _ _ _ _ _ _ _ _ _ _ _ _ _ _ _ _ _ _ _ _ spin_made H _). intros o [<-|[<-|[<-|[]]]]; exact I. }
  split; [apply A|]. split; [apply A|reflexivity].
Qed.
Example C92_same_mu_case : exists s log w,
  spin_history w [Sample None (Some 1%Z) 1%Z; SetTherm 3; SetMu 1] log (s, fun _ => 1%R) /\ log <> [] /\ s_mu s <> s_mu (fst w) /\ spin_asked (fun _ => 1%R) None (Some 1%Z) 1%Z s.
Proof.
  destruct (spin_first (fun _ => 1%R)) as (r & st & F). eexists. eexists. eexists.
  pose proof (short_life spin_logPsi spin_flip (fun _ => 0) (fun _ => 0) (spin_s0 2) (fun _ => 1%R) None (Some 1%Z) 1%Z (spin_s 2 0 st) r (SetTherm 3) (SetMu 1) F I I) as H. split; [exact H|]. split; [discriminate|]. split; [cbn; lra|].
  apply (C92_same_mu_partial _ _ _ _ _ _ _ _ _ _ _ _ H eq_refl eq_refl). intros key m q [[= <- <- <-]|[]]. split; [intros _; reflexivity|].
  intros K. exfalso. apply (f_equal k_therm) in K. discriminate K.
Qed.
Example C92_constructor_case : make_sampler 0 false (Some 0) tt 1 1 0 1 [0] 2 (1/2) = Ok (spin_s0 2) /\ make_sampler 0 false None tt 1 1 0 1 [0] 5 (1/2) = Err RuntimeError.
Proof. split; [exact spin_made|reflexivity]. Qed.

(** assignments change what they name, and nothing else *)
Theorem C92_assignments {Par Arg} (logPsi : nat -> Par -> config -> C) proposer shape argShape (o : op Par Arg) (s s' : sampler Arg) (ps ps' : nat -> Par) :
  step logPsi proposer shape argShape o (s, ps) (s', ps') ->
  match o with Sample _ _ _ => True | _ =>
    s_net s' = (match o with SetNet q => q | _ => s_net s end) /\ s_mu s' = (match o with SetMu m => m | _ => s_mu s end)
    /\ s_lpf s' = (match o with SetLpf x => x | _ => s_lpf s end) /\ s_numSamples s' = (match o with SetNumberOfSamples N => N | _ => s_numSamples s end)
    /\ s_therm s' = (match o with SetTherm n => n | _ => s_therm s end) /\ s_sweep s' = (match o with SetSweep n => n | _ => s_sweep s end)
    /\ s_prop s' = (match o with SetProposer p => p | _ => s_prop s end) /\ s_arg s' = (match o with SetArg a => a | _ => s_arg s end)
    /\ s_states s' = (match o with SetStates l => l | _ => s_states s end) /\ s_numChains s' = s_numChains s
    /\ get_last_number_of_samples s' = get_last_number_of_samples s
    /\ (forall q, ps' q = match o with SetParameters q0 P => if Nat.eq_dec q q0 then P else ps q | _ => ps q end)
  end.
Proof.
  destruct o; cbn [step fst snd]; try (intros [= -> ->]; repeat (split; [reflexivity|]); try reflexivity); try (intros _; exact I).
  intros q. cbn [assign_params]. destruct (Nat.eq_dec q net) as [->|N]; [now rewrite Nat.eqb_refl|]. apply Nat.eqb_neq in N. now rewrite N.
Qed.
Print Assumptions C92_assignments.

(** the number of samples: the smallest multiple of the number of chains and multipleOf that is not below the number asked for, or the default number
    if none is given.  Every chain draws that number divided by the least common multiple of number of chains and multipleOf *)
Theorem C92_numbers {Par Arg} (logPsi : nat -> Par -> config -> C) proposer shape argShape ps P num k (s : sampler Arg) s' configs amps ws :
  (0 < s_numChains s)%Z -> (0 < k)%Z -> let N := match num with Some n => n | None => s_numSamples s end in (0 <= N)%Z ->
  outcome (sample logPsi proposer shape argShape ps P num k s) (s', (configs, amps, ws)) ->
  exists g, get_last_number_of_samples s' = Ok g /\ (N <= g)%Z /\ (s_numChains s | g)%Z /\ (k | g)%Z
    /\ (forall h, (N <= h)%Z -> (s_numChains s | h)%Z -> (k | h)%Z -> (g <= h)%Z)
    /\ (Z.of_nat (length configs) * Z.lcm (s_numChains s) k = g * Z.of_nat (length (s_states s)))%Z /\ length amps = length configs /\ length ws = length configs.
Proof.
  intros HC HK N HN H. rewrite sample_unfold in H. apply outcome_bind in H as (r & Hr & H). apply outcome_ret in H. injection H as -> -> -> ->.
  apply (get_samples_length _ _ _ (length (s_states s))) in Hr; [|unfold paired, mc_init; cbn [c_states c_logAcc]; rewrite map_length; split; reflexivity].
  set (L := Z.lcm (s_numChains s) k). assert (HL : (0 < L)%Z). { pose proof (Z.lcm_nonneg (s_numChains s) k). assert (Z.lcm (s_numChains s) k <> 0)%Z by (rewrite Z.lcm_eq_0; lia). lia. }
  set (g := snd (counts s num k)). exists g. split; [reflexivity|].
  assert (X : g = (fst (counts s num k) * L)%Z /\ (N <= g < N + L)%Z /\ (0 <= fst (counts s num k))%Z).
  { unfold g, counts, distribute_sampling. fold N. fold L. cbv zeta. cbn [fst snd]. unfold samples_per_process. rewrite Z.mod_1_r, Z.div_1_r. cbn [Z.ltb Z.compare]. unfold spc. rewrite Z.add_0_r, !Z.mul_1_l.
    set (q := ((N + L - 1) / L)%Z). pose proof (Z.div_mod (N + L - 1) L ltac:(lia)) as D. pose proof (Z.mod_pos_bound (N + L - 1) L ltac:(lia)) as U. fold q in D.
    assert (0 <= q)%Z by (apply Z.div_pos; lia). 
    match goal with |- ?a = _ /\ _ => assert (EG : a = (L * q)%Z) by ring end. rewrite EG. split; [ring|]. split; lia. }
  destruct X as (X1 & X2 & X3). split; [lia|]. assert (DL : (L | g)%Z) by (exists (fst (counts s num k)); exact X1).
  split; [eapply Z.divide_trans; [apply Z.divide_lcm_l|exact DL]|]. split; [eapply Z.divide_trans; [apply Z.divide_lcm_r|exact DL]|]. split; [|split; [|split; now rewrite map_length]].
  - intros h H1 H2 H3. assert (D : (L | h)%Z) by (apply Z.lcm_least; assumption). destruct DL as [a Ea], D as [b Eb]. clear X1 Hr.
    destruct (Z.le_gt_cases a b) as [Q|Q]; [rewrite Ea, Eb; apply Z.mul_le_mono_nonneg_r; lia|].
    assert (K : ((b + 1) * L <= a * L)%Z) by (apply Z.mul_le_mono_nonneg_r; lia). rewrite Z.mul_add_distr_r, Z.mul_1_l in K. lia.
  - rewrite Hr, Nat2Z.inj_mul. unfold per_chain. rewrite Z2Nat.id by exact X3. rewrite X1. ring.
Qed.
Print Assumptions C92_numbers.

(** 5 samples asked of 2 chains, multiples of 3: 6 *)
Example C92_numbers_case : (0 < 2)%Z /\ (0 < 3)%Z /\ (0 <= 5)%Z /\ counts (mk_sampler 0 2 (1/2) 7 0 1 0 tt 2 [[0]; [0]] None [] []) (Some 5%Z) 3 = (1, 6)%Z
  /\ counts (mk_sampler 0 2 (1/2) 7 0 1 0 tt 2 [[0]; [0]] None [] []) None 3 = (2, 12)%Z.
Proof. split; [lia|]. split; [lia|]. split; [lia|]. split; reflexivity. Qed.
Example C92_assignments_case : step spin_logPsi spin_flip (fun _ : R => 0) (fun _ : unit => 0) (SetSweep 4) (spin_s0 2, fun _ => 1%R) (assign (Par := R) (SetSweep 4) (spin_s0 2), fun _ => 1%R)
  /\ s_sweep (assign (Par := R) (SetSweep 4) (spin_s0 2)) = 4.
Proof. split; reflexivity. Qed.
