(** Properties C73, C74. *)
From Coq Require Import ZArith List Reals Lra Lia Bool Arith.
From Verif Require Import Base Cplx Stats_Model BranchFree_Model Dist Sampler_Model Sampler_Spec Sampler_Proofs Sampler2_Proofs Sampler_Props
  Sym_Model Sym_Spec Sym_Proofs Sym4_Proofs Sym_Props Wrap_Model Wrap_Spec Wrap_Proofs.
Import ListNotations.

(** ** C73: the function given to the Markov chain *)
(** what is evaluated: exp(r + i phi) for a pair of networks r and phi, and the average over the orbit of
    the coefficients of the transformed configurations *)
Theorem C73_two_networks a b rest avgFun v s r phi : nqs_init (Many (a :: b :: rest)) None avgFun = Ok v ->
  net_eval a s = Ok (RtoC r) -> net_eval b s = Ok (RtoC phi) ->
  exists z, nqs_call v s = Ok z /\ Cexp z = ((exp r * cos phi)%R, (exp r * sin phi)%R).
Proof.
  intros H Ha Hb. unfold nqs_init in H. cbn [bind] in H. inversion H; subst v. unfold nqs_call. cbn [v_net net_eval]. rewrite Ha, Hb. cbn [bind]. eexists. split; [reflexivity|].
  unfold Cexp. cbn. f_equal; f_equal; f_equal; ring.
Qed.
Print Assumptions C73_two_networks.
Theorem C73_orbit arg o avgFun v v0 s psi : nqs_init arg (Some o) avgFun = Ok v -> nqs_init arg None avgFun = Ok v0 ->
  (forall A c t, In (A, c) o -> t = sym_act A s -> nqs_call v0 t = Ok (psi t)) ->
  nqs_call v s = Ok (avgFun (map (fun Ac => psi (sym_act (fst Ac) s)) o) (map snd o)).
Proof.
  intros H H0 HP. apply init_inv in H as (_ & n & Hn & E). apply init_inv in H0 as (_ & n0 & Hn0 & E0).
  assert (X : n = n0).
  { destruct Hn as [->|(l & _ & -> & ->)], Hn0 as [Y|(l' & _ & Y & ->)]; inversion Y; reflexivity. }
  rewrite <- X in E0. unfold nqs_call in *. rewrite E. rewrite E0 in HP. cbn [net_eval].
  rewrite (collect_ok _ (fun Ac => psi (sym_act (fst Ac) s))); [reflexivity|]. intros [A c] HA. now apply (HP A c).
Qed.
Print Assumptions C73_orbit.
(** it is Re log psi unless the phase network of a pair has an imaginary part *)
Theorem C73_sampler_net_partial arg orbit avgFun v space : nqs_init arg orbit avgFun = Ok v ->
  (forall a b l, v_net v = TwoNets (a :: b :: l) -> real_valued space (net_eval b)) ->
  forall s z, In s space -> nqs_call v s = Ok z -> sampler_net v s = Ok (Re z).
Proof. intros _ HR s z Hs Hz. apply sampler_net_real; [exact Hz|]. intros a b l E. exact (HR a b l E s Hs). Qed.
Print Assumptions C73_sampler_net_partial.
(** symmetrised states are always treated correctly, also if the phase network is complex *)
Theorem C73_symmetrised arg orbit avgFun v s z : nqs_init arg (Some orbit) avgFun = Ok v -> nqs_call v s = Ok z -> sampler_net v s = Ok (Re z).
Proof.
  intros H Hz. apply init_inv in H as (_ & n & _ & E). apply sampler_net_real; [exact Hz|]. intros a b l E'. rewrite E in E'. discriminate E'.
Qed.
Print Assumptions C73_symmetrised.
(** with a real-valued phase the Markov chain samples |psi|^mu: detailed balance for one update, and
    the distribution of sample number j of all k chains on a device *)
Theorem C73_markov_partial arg orbit avgFun v space prop mu re psi : nqs_init arg orbit avgFun = Ok v -> good_proposal space prop ->
  (forall a b l, v_net v = TwoNets (a :: b :: l) -> real_valued space (net_eval b)) ->
  (forall s, In s space -> nqs_call v s = Ok (psi s)) -> (forall s, In s space -> sampler_net v s = Ok (re s)) ->
  (forall s t, In s space -> In t space ->
     modulus_power mu (psi s) * Pr (single_update re mu prop s) t = modulus_power mu (psi t) * Pr (single_update re mu prop t) s)%R
  /\ forall k n therm steps j (f : list config -> R), j < n ->
     rsum (map (fun ss => (big 1%R Rmult (map (fun s => modulus_power mu (psi s)) ss)
                           * E (sample_device re mu prop n therm steps ss) (fun r => f (firstn k (skipn (j * k) (snd r)))))%R) (tuples space k))
     = rsum (map (fun ss => (big 1%R Rmult (map (fun s => modulus_power mu (psi s)) ss) * f ss)%R) (tuples space k)).
Proof.
  intros HI HG HR Hp Hre. assert (X : forall s, In s space -> re s = Re (psi s)).
  { intros s Hs. pose proof (C73_sampler_net_partial _ _ _ _ space HI HR s (psi s) Hs (Hp s Hs)) as H. rewrite (Hre s Hs) in H. now inversion H. }
  assert (W : forall k ss, In ss (tuples space k) -> big 1%R Rmult (map (fun s => modulus_power mu (psi s)) ss) = weight mu re ss).
  { intros k ss Hss. apply (in_tuples space re mu) in Hss as [_ F]. unfold weight. f_equal. apply map_ext_in. intros s Hs. rewrite Forall_forall in F. now rewrite modulus_exp, X by auto. }
  destruct (good_samples space prop HG re mu) as (H1 & _ & H3). split.
  - intros s t Hs Ht. rewrite !modulus_exp, <- !X by assumption. now apply H1.
  - intros k n therm steps j f Hj. transitivity (rsum (map (fun ss => (weight mu re ss * f ss)%R) (tuples space k))).
    + rewrite <- (H3 k n therm steps j f Hj). apply rsum_ext. intros ss Hss. now rewrite (W k ss Hss).
    + apply rsum_ext. intros ss Hss. now rewrite (W k ss Hss).
Qed.
Print Assumptions C73_markov_partial.
(** a complex-valued phase network (admitted by the constructor) contributes to |psi|, but not to the
    function used by the Markov chain, and |psi|^2 is not invariant *)
Definition complex_phase : list net := [Plain (fun _ => C0) None; Plain (fun s => Cmul (Copp Ci) (RtoC (INR (hd 0 s)))) None].
Theorem C73_complex_phase_refuted : exists nets v space prop re psi,
  nqs_init (Many nets) None avgFun_Coefficients_Exp = Ok v /\ good_proposal space prop
  /\ (forall s, In s space -> nqs_call v s = Ok (psi s)) /\ (forall s, In s space -> sampler_net v s = Ok (re s))
  /\ (exists s, In s space /\ re s <> Re (psi s))
  /\ exists t, In t space /\ rsum (map (fun s => (modulus_power 2 (psi s) * Pr (single_update re 2 prop s) t)%R) space) <> modulus_power 2 (psi t).
Proof.
  exists complex_phase, (mk_nqs (TwoNets complex_phase) false), (all_configs 2 1), propose_spin_flip, (fun _ => 0%R), (fun s => RtoC (INR (hd 0 s))).
  split; [reflexivity|]. split; [apply spin_flip_good; lia|]. split.
  { intros s _. unfold nqs_call. cbn [v_net net_eval complex_phase bind]. f_equal. apply C_eq; cbn; ring. }
  split; [intros s _; reflexivity|]. split.
  { exists [1]. split; [cbn; auto|]. cbn. lra. }
  exists [1]. split; [cbn; auto|]. rewrite !modulus_exp.
  assert (K : forall s t, In s (all_configs 2 1) -> Pr (single_update (fun _ => 0%R) 2 propose_spin_flip s) t = if config_eq_dec [1 - hd 0 s] t then 1%R else 0%R).
  { intros s t Hs. rewrite single_K. unfold Pr. destruct (spin_flip_good 1 (le_n 1)) as (_ & HM & _). rewrite E_chainK by now apply HM.
    destruct Hs as [<-|[<-|[]]]; unfold propose_spin_flip; rewrite E_bind; unfold randint; rewrite E_uniform; cbn [length Nat.sub seq map]; rewrite rsum_cons, rsum_nil, E_ret; cbn [Nat.sub seq length map hd];
      unfold logAcc; rewrite Rmult_0_r, Rminus_0_r, exp_0, Rmin_left by lra; cbn;
      repeat destruct (config_eq_dec _ _); try congruence; lra. }
  cbn [all_configs seq flat_map map app]. rewrite !rsum_cons, rsum_nil, !modulus_exp, !K by (cbn; auto). cbn [hd Nat.sub].
  destruct (config_eq_dec [1] [1]) as [_|n]; [|congruence]. destruct (config_eq_dec [0] [1]) as [e|_]; [discriminate e|].
  cbn [INR RtoC Re fst]. rewrite Rmult_0_r, exp_0. pose proof (exp_ineq1 (2 * 1)) as X. lra.
Qed.
Print Assumptions C73_complex_phase_refuted.
Example C73_example : exists v, nqs_init (Many [Plain (fun s => RtoC (INR (hd 0 s))) None; Plain (fun s => RtoC (INR (length s))) None]) None avgFun_Coefficients_Exp = Ok v
  /\ (forall a b l, v_net v = TwoNets (a :: b :: l) -> real_valued (all_configs 2 2) (net_eval b))
  /\ nqs_call v [1; 0] = Ok (Cadd (RtoC 1) (Cmul Ci (RtoC 2))) /\ sampler_net v [1; 0] = Ok 1%R.
Proof.
  eexists. split; [reflexivity|]. split; [|split; reflexivity]. intros a b l H. inversion H; subst. intros s _. cbn [net_eval]. eauto.
Qed.

(** ** C74: direct sampling *)
(** the amplitude network decides about direct sampling and is what is sampled *)
Theorem C74_delegation f d rest orbit avgFun v :
  nqs_init (One (Plain f d)) orbit avgFun = Ok v \/ nqs_init (Many (Plain f d :: rest)) orbit avgFun = Ok v ->
  nqs_sample v = Ok d /\ (v_isGenerator v = true <-> d <> None).
Proof.
  intros [H|H]; unfold nqs_init in H; cbn [bind] in H; inversion H; subst; clear H; unfold nqs_sample; cbn [v_isGenerator v_net];
    destruct orbit, d; cbn [has_sample net_sample bind]; split; try reflexivity; split; congruence.
Qed.
Print Assumptions C74_delegation.
(** a sampler that can be constructed can sample: directly, or with its update proposer *)
Theorem C74_usable arg orbit avgFun v prop s mu m : nqs_init arg orbit avgFun = Ok v -> mcsampler_init v prop s mu = Ok m ->
  (exists d, direct_sample m = Ok (Some d)) \/ (direct_sample m = Ok None /\ exists p, m_prop m = Some p).
Proof.
  intros HI HM. apply init_inv in HI as (HG & _). unfold mcsampler_init in HM.
  destruct (negb (v_isGenerator v) && match prop with None => true | _ => false end) eqn:E; [discriminate HM|].
  destruct (nqs_call v s); [|discriminate HM]. cbn [bind] in HM. destruct (if Rlt_dec mu 0 then true else if Rlt_dec 2 mu then true else false); [discriminate HM|]. inversion HM; subst; clear HM.
  unfold direct_sample, nqs_sample. cbn [m_psi m_orbit m_prop]. destruct (v_isGenerator v) eqn:G.
  - left. symmetry in HG. apply has_sample_spec in HG as (d & ->). cbn [bind]. eauto.
  - right. split; [reflexivity|]. destruct prop; [eauto|discriminate E].
Qed.
Print Assumptions C74_usable.
(** networks that cannot be sampled in either way are refused *)
Theorem C74_refused f rest orbit avgFun v s mu :
  nqs_init (One (Plain f None)) orbit avgFun = Ok v \/ nqs_init (Many (Plain f None :: rest)) orbit avgFun = Ok v ->
  mcsampler_init v None s mu = Err RuntimeError.
Proof.
  intros H. apply C74_delegation in H as [_ H]. unfold mcsampler_init. destruct (v_isGenerator v); [|reflexivity]. exfalso. now apply H.
Qed.
Print Assumptions C74_refused.

(** samples follow the Born distribution of the whole state: without orbit and with real-valued phase *)
Theorem C74_born_partial f d b rest avgFun v arg space kappa m prop s0 mu :
  arg = One (Plain f (Some d)) \/ (arg = Many (Plain f (Some d) :: b :: rest) /\ real_valued space (net_eval b)) ->
  nqs_init arg None avgFun = Ok v -> mcsampler_init v prop s0 mu = Ok m ->
  draws_born space kappa d (fun s => Ok (f s)) ->
  direct_sample m = Ok (Some d) /\ draws_born space kappa d (nqs_call v).
Proof.
  intros HA HI HM [HO HB]. assert (HV : v_net v = match arg with One n => n | Many l => TwoNets l end /\ v_isGenerator v = true).
  { destruct HA as [->|[-> _]]; unfold nqs_init in HI; cbn [bind] in HI; inversion HI; subst; split; reflexivity. }
  destruct HV as [HV HG]. unfold mcsampler_init in HM. rewrite HG in HM. cbn [negb andb] in HM. destruct (nqs_call v s0); [|discriminate HM]. cbn [bind] in HM.
  destruct (if Rlt_dec mu 0 then true else if Rlt_dec 2 mu then true else false); [discriminate HM|]. inversion HM; subst m; clear HM.
  unfold direct_sample, nqs_sample. cbn [m_psi m_orbit]. rewrite HG, HV. split; [destruct HA as [->|[-> _]]; reflexivity|].
  split; [exact HO|]. intros s Hs. destruct (HB s Hs) as (z & Ez & HP). inversion Ez; subst z. unfold nqs_call. rewrite HV. destruct HA as [->|[-> HR]]; cbn [net_eval].
  - eauto.
  - destruct (HR s Hs) as (x & Hx). cbn [bind]. rewrite Hx. cbn [bind]. eexists. split; [reflexivity|]. rewrite HP, !modulus_exp, real_phase. reflexivity.
Qed.
Print Assumptions C74_born_partial.
(** ... and with an orbit, averaging with avgFun_Coefficients_Sep *)
Theorem C74_symmetrised_partial n lDim orbit f d b rest v arg m prop s0 mu :
  arg = One (Plain f (Some d)) \/ (arg = Many (Plain f (Some d) :: b :: rest) /\ real_valued (all_configs lDim n) (net_eval b)) ->
  is_group n (map fst orbit) -> Forall (fits lDim) (map fst orbit) ->
  nqs_init arg (Some orbit) avgFun_Coefficients_Sep = Ok v -> mcsampler_init v prop s0 mu = Ok m ->
  draws_born (all_configs lDim n) (1 / 2) d (fun s => Ok (f s)) ->
  exists d', direct_sample m = Ok (Some d') /\ draws_born (all_configs lDim n) (1 / 2) d' (nqs_call v).
Proof.
  intros HA HGr HF HI HM [HO HB]. assert (HV : v_net v = SymNet orbit avgFun_Coefficients_Sep (match arg with One n => n | Many l => TwoNets l end) /\ v_isGenerator v = true).
  { destruct HA as [->|[-> _]]; unfold nqs_init in HI; cbn [bind] in HI; inversion HI; subst; split; reflexivity. }
  destruct HV as [HV HG]. unfold mcsampler_init in HM. rewrite HG in HM. cbn [negb andb] in HM. destruct (nqs_call v s0); [|discriminate HM]. cbn [bind] in HM.
  destruct (if Rlt_dec mu 0 then true else if Rlt_dec 2 mu then true else false); [discriminate HM|]. inversion HM; subst m; clear HM.
  exists (randomized_sample orbit d). unfold direct_sample, nqs_sample. cbn [m_psi m_orbit]. rewrite HG, HV. split; [destruct HA as [->|[-> _]]; reflexivity|].
  assert (HR : forall A t, In A (map fst orbit) -> In t (all_configs lDim n) -> In (sym_act A t) (all_configs lDim n)).
  { intros A t HAo Ht. apply sym_act_range; [now apply (group_signed n (map fst orbit))| |assumption]. rewrite Forall_forall in HF. auto. }
  split.
  - intros t Ht. apply outcome_bind in Ht as (s & Hs & Ht). apply outcome_bind in Ht as (i & Hi & Ht). apply outcome_uniform, in_seq in Hi. apply outcome_ret in Ht. subst t.
    apply HR; [|auto]. apply in_map, nth_In. destruct Hi as [_ Hi]. cbn [Nat.add] in Hi. rewrite Nat.sub_0_r in Hi. exact Hi.
  - intros t Ht.
    assert (HP : forall s, In s (all_configs lDim n) -> Pr d s = born (1 / 2) (fun s => Re (f s)) s).
    { intros s Hs. destruct (HB s Hs) as (z & Ez & Hz). inversion Ez; subst z. rewrite Hz, modulus_exp. unfold born. f_equal. field. }
    (* logarithmic coefficients of the plain state *)
    assert (HE : exists g, (forall s, In s (all_configs lDim n) -> net_eval (match arg with One k => k | Many l => TwoNets l end) s = Ok (g s) /\ Re (g s) = Re (f s))).
    { destruct HA as [->|[-> HP2]]; [exists f; intros; split; reflexivity|].
      exists (fun s => Cadd (f s) (Cmul Ci (match net_eval b s with Ok y => y | Err _ => C0 end))). intros s Hs. destruct (HP2 s Hs) as (x & Hx). cbn [net_eval bind]. rewrite Hx. split; [reflexivity|apply real_phase]. }
    destruct HE as (g & HE). exists (sym_net avgFun_Coefficients_Sep orbit g t). unfold nqs_call. rewrite HV. split.
    + cbn [net_eval]. rewrite (collect_ok _ (fun of => g (sym_act (fst of) t))); [reflexivity|]. intros of Hof. apply HE, HR; [now apply in_map|exact Ht].
    + rewrite (C37_distribution_partial n lDim orbit d g t); auto; [rewrite modulus_exp; unfold born; f_equal; field|]. intros s Hs. rewrite HP by exact Hs. unfold born. now rewrite (proj2 (HE s Hs)).
Qed.
Print Assumptions C74_symmetrised_partial.

(** ... but not with the default average of NQS (the witness of C37) *)
Theorem C74_default_refuted : exists n orbit f d v m s0, is_group n (map fst orbit) /\ draws_born (all_configs 2 n) (1 / 2) d (fun s => Ok (f s))
  /\ nqs_init (One (Plain f (Some d))) (Some orbit) avgFun_Coefficients_Exp = Ok v /\ mcsampler_init v None s0 2 = Ok m
  /\ exists d', direct_sample m = Ok (Some d') /\ ~ draws_proportional (all_configs 2 n) (1 / 2) d' (nqs_call v).
Proof.
  destruct C37_exp_refuted as (n & orbit & d & f & s & t & HG & _ & _ & HO & HP & Hs & Ht & HN).
  assert (HE : forall s, net_eval (SymNet orbit avgFun_Coefficients_Exp (Plain f (Some d))) s = Ok (sym_net avgFun_Coefficients_Exp orbit f s)).
  { intros x. cbn [net_eval]. rewrite (collect_ok _ (fun of => f (sym_act (fst of) x))) by (intros; reflexivity). reflexivity. }
  exists n, orbit, f, d. eexists. eexists. exists (repeat 0 n). split; [exact HG|]. split.
  { split; [exact HO|]. intros x Hx. exists (f x). split; [reflexivity|]. rewrite HP, modulus_exp by exact Hx. unfold born. f_equal. field. }
  split; [reflexivity|]. split.
  { unfold mcsampler_init, nqs_call. cbn [v_isGenerator has_sample negb andb v_net]. rewrite HE. cbn [bind].
    destruct (Rlt_dec 2 0); [lra|]. destruct (Rlt_dec 2 2); [lra|]. reflexivity. }
  eexists. split; [reflexivity|]. intros X. destruct (X s t Hs Ht) as (x & y & Ex & Ey & H). unfold nqs_call in Ex, Ey. cbn [v_net] in Ex, Ey. rewrite HE in Ex, Ey. inversion Ex; inversion Ey; subst x y.
  apply HN. unfold born. rewrite !modulus_exp in H. replace (Re (sym_net avgFun_Coefficients_Exp orbit f t) / (1 / 2))%R with (1 / (1 / 2) * Re (sym_net avgFun_Coefficients_Exp orbit f t))%R by field.
  replace (Re (sym_net avgFun_Coefficients_Exp orbit f s) / (1 / 2))%R with (1 / (1 / 2) * Re (sym_net avgFun_Coefficients_Exp orbit f s))%R by field. exact H.
Qed.
Print Assumptions C74_default_refuted.

(** a coin with probabilities 1/4 and 3/4 *)
Definition coin : dist config := [((1/4)%R, [0]); ((3/4)%R, [1])].
Definition coin_net (s : config) : C := RtoC (1 / 2 * ln (if hd 0%nat s =? 0 then 1 / 4 else 3 / 4)).
Lemma coin_Pr s : In s (all_configs 2 1) -> Pr coin s = (if hd 0%nat s =? 0 then 1 / 4 else 3 / 4)%R.
Proof.
  intros Hs. cbn in Hs. unfold Pr, E, coin. cbn [map fst snd]. rewrite !rsum_cons, rsum_nil.
  destruct Hs as [<-|[<-|[]]]; repeat (destruct (config_eq_dec _ _); try congruence); cbn; lra.
Qed.
Lemma coin_born : draws_born (all_configs 2 1) (1 / 2) coin (fun s => Ok (coin_net s)).
Proof.
  split; [intros s [<-|[<-|[]]]; cbn; auto|]. intros s Hs. exists (coin_net s). split; [reflexivity|]. rewrite coin_Pr, modulus_exp by exact Hs. unfold coin_net. cbn [RtoC Re fst].
  set (p := (if hd 0%nat s =? 0 then 1 / 4 else 3 / 4)%R). assert (0 < p)%R by (unfold p; destruct (hd 0 s =? 0); lra).
  replace (1 / (1 / 2) * (1 / 2 * ln p))%R with (ln p) by field. symmetry. now apply exp_ln.
Qed.
Example C74_example : exists v m, nqs_init (Many [Plain coin_net (Some coin); Plain (fun s => RtoC (INR (hd 0 s))) None]) None avgFun_Coefficients_Exp = Ok v
  /\ mcsampler_init v None [0] 2 = Ok m /\ real_valued (all_configs 2 1) (net_eval (Plain (fun s => RtoC (INR (hd 0 s))) None))
  /\ draws_born (all_configs 2 1) (1 / 2) coin (fun s => Ok (coin_net s)) /\ is_group 1 (map fst (get_orbit_1D 1 false false true C1 C1 C1)).
Proof.
  eexists. eexists. split; [reflexivity|]. split.
  - unfold mcsampler_init. cbn [v_isGenerator has_sample negb andb]. unfold nqs_call. cbn [v_net net_eval bind]. destruct (Rlt_dec 2 0); [lra|]. destruct (Rlt_dec 2 2); [lra|]. reflexivity.
  - split; [intros s _; cbn [net_eval]; eauto|]. split; [exact coin_born|]. apply C42_group. lia.
Qed.

(** a phase network with imaginary part changes |psi|, but not the samples *)
Theorem C74_complex_phase_refuted : exists f d b v m, draws_born (all_configs 2 1) (1 / 2) d (fun s => Ok (f s))
  /\ nqs_init (Many [Plain f (Some d); b]) None avgFun_Coefficients_Exp = Ok v /\ mcsampler_init v None [0] 2 = Ok m
  /\ exists d', direct_sample m = Ok (Some d') /\ ~ draws_proportional (all_configs 2 1) (1 / 2) d' (nqs_call v).
Proof.
  exists coin_net, coin, (Plain (fun s => Cmul (Copp Ci) (RtoC (INR (hd 0 s)))) None). eexists. eexists. split; [exact coin_born|]. split; [reflexivity|]. split.
  { unfold mcsampler_init. cbn [v_isGenerator has_sample negb andb]. unfold nqs_call. cbn [v_net net_eval bind]. destruct (Rlt_dec 2 0); [lra|]. destruct (Rlt_dec 2 2); [lra|]. reflexivity. }
  eexists. split; [reflexivity|]. intros X. destruct (X [0] [1]) as (x & y & Ex & Ey & H); [cbn; auto|cbn; auto|]. unfold nqs_call in Ex, Ey. cbn [v_net net_eval bind] in Ex, Ey. inversion Ex; inversion Ey; subst x y.
  cbn [m_orbit] in H. rewrite !coin_Pr, !modulus_exp in H by (cbn; auto). unfold coin_net in H. cbn in H.
  match type of H with (_ * exp ?a = _ * exp ?b)%R => replace a with (ln (3/4) + 2)%R in H by field; replace b with (ln (1/4))%R in H by field end.
  rewrite exp_plus, !exp_ln in H by lra. pose proof (exp_ineq1 2). lra.
Qed.
Print Assumptions C74_complex_phase_refuted.
(** an orbit inside of a pair symmetrises the coefficients, but not the samples *)
Theorem C74_nested_refuted : exists orbit f d b v m, is_group 1 (map fst orbit) /\ draws_born (all_configs 2 1) (1 / 2) d (fun s => Ok (f s))
  /\ real_valued (all_configs 2 1) (net_eval b)
  /\ nqs_init (Many [SymNet orbit avgFun_Coefficients_Sep (Plain f (Some d)); b]) None avgFun_Coefficients_Exp = Ok v /\ mcsampler_init v None [0] 2 = Ok m
  /\ exists d', direct_sample m = Ok (Some d') /\ ~ draws_proportional (all_configs 2 1) (1 / 2) d' (nqs_call v).
Proof.
  exists (get_orbit_1D 1 false false true C1 C1 C1), coin_net, coin, (Plain (fun s => C0) None). eexists. eexists.
  assert (HG : is_group 1 (map fst (get_orbit_1D 1 false false true C1 C1 C1))) by (apply C42_group; lia).
  set (o := get_orbit_1D 1 false false true C1 C1 C1) in *.
  assert (HN : o <> []) by (intros E; rewrite E in HG; destruct HG as (_ & _ & (I & [] & _) & _)).
  assert (EO : map fst o = [[[-1]]; [[1]]]%Z) by (lazy; reflexivity). assert (HL : length o = 2) by (rewrite <- (map_length fst), EO; reflexivity).
  assert (HE : forall s, net_eval (SymNet o avgFun_Coefficients_Sep (Plain coin_net (Some coin))) s = Ok (sym_net avgFun_Coefficients_Sep o coin_net s)).
  { intros x. cbn [net_eval]. rewrite (collect_ok _ (fun of => coin_net (sym_act (fst of) x))) by (intros; reflexivity). reflexivity. }
  split; [exact HG|]. split; [exact coin_born|]. split; [intros s _; exists 0%R; reflexivity|]. split; [reflexivity|]. split.
  { unfold mcsampler_init, nqs_call. cbn [v_isGenerator has_sample negb andb v_net]. cbn [net_eval]. cbn [net_eval] in HE. rewrite HE. cbn [bind]. destruct (Rlt_dec 2 0); [lra|]. destruct (Rlt_dec 2 2); [lra|]. reflexivity. }
  eexists. split; [reflexivity|]. intros X. destruct (X [0] [1]) as (x & y & Ex & Ey & H); [cbn; auto|cbn; auto|]. unfold nqs_call in Ex, Ey. cbn [v_net] in Ex, Ey.
  cbn [net_eval] in HE, Ex, Ey. rewrite HE in Ex, Ey. cbn [bind] in Ex, Ey. inversion Ex; inversion Ey; subst x y. cbn [m_orbit] in H.
  rewrite !coin_Pr, !modulus_exp in H by (cbn; auto). cbn [hd Nat.eqb] in H.
  assert (Q : forall s, exp (1 / (1 / 2) * Re (Cadd (sym_net avgFun_Coefficients_Sep o coin_net s) (Cmul Ci C0))) = born (1 / 2) (fun s => Re (sym_net avgFun_Coefficients_Sep o coin_net s)) s).
  { intros s. unfold born. f_equal. change C0 with (RtoC 0). rewrite real_phase. field. }
  rewrite !Q, !sep_born, HL in H by exact HN. rewrite <- !(map_map fst (fun A => exp (2 * Re (coin_net (sym_act A _))))), EO in H. cbn [map] in H.
  change (sym_act [[-1]]%Z [0]) with [1] in H. change (sym_act [[1]]%Z [0]) with [0] in H. change (sym_act [[-1]]%Z [1]) with [0] in H. change (sym_act [[1]]%Z [1]) with [1] in H.
  rewrite !rsum_cons, !rsum_nil in H.
  pose proof (exp_pos (2 * Re (coin_net [0%nat]))). pose proof (exp_pos (2 * Re (coin_net [1%nat]))). replace (INR 2) with 2%R in H by (cbn; lra). lra.
Qed.
Print Assumptions C74_nested_refuted.
