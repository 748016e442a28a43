(** C27 - C32: Markov-chain sampling. *)
From Coq Require Import ZArith List Reals Lra Lia Bool Arith.
From Verif Require Import Base Cplx Mpi_Model Mpi_Spec Mpi_Proofs Mpi_Props Stats_Model BranchFree_Model BranchFree_Spec Dist
  Sampler_Model Sampler_Spec Sampler_Proofs Sampler2_Proofs.
Import ListNotations.

(** ** C27 *)

(** the update of a single chain *)
Definition single_update (net : config -> R) (mu : R) (prop : config -> dist config) (s : config) : dist config :=
  c <~ perform_mc_update net mu prop (mc_init net mu [s]);; ret (hd [] (c_states c)).

Lemma single_K net mu prop s t : Pr (single_update net mu prop s) t = Pr (chainK net mu prop s) t.
Proof.
  unfold Pr, single_update. rewrite E_bind.
  transitivity (E (perform_mc_update net mu prop (mc_init net mu [s])) (fun c => (fun ss => if config_eq_dec (hd [] ss) t then 1 else 0)%R (c_states c))).
  - apply E_ext. intros c _. now rewrite E_ret.
  - rewrite (perform_K net mu prop (mc_init net mu [s]) (fun ss => if config_eq_dec (hd [] ss) t then 1 else 0)%R eq_refl). cbn [mc_init c_states mapD]. rewrite E_bind. apply E_ext. intros s' _. rewrite E_bind, !E_ret. reflexivity.
Qed.

Lemma skipn_concat {A} (l : list (list A)) k j : Forall (fun x => length x = k) l -> j < length l -> firstn k (skipn (j * k) (concat l)) = nth j l [].
Proof.
  intros H. revert j. induction H as [|x l Hx _ IH]; intros j Hj; cbn [length] in Hj; [lia|]. cbn [concat]. destruct j as [|j].
  - cbn [Nat.mul skipn nth]. rewrite firstn_app, Hx, Nat.sub_diag. cbn [firstn]. now rewrite app_nil_r, firstn_all2 by lia.
  - replace (S j * k) with (length x + j * k) by lia. rewrite skipn_app, skipn_all2 by lia. replace (length x + j * k - length x) with (j * k) by lia. cbn [app nth]. apply IH. lia.
Qed.

(** Detailed balance for one update of one chain, and invariance of |psi|^mu (for all
    chains together) under any number of steps and in every configuration that
    is returned after thermalisation: sample number j of all k chains. *)
Definition samples_correctly (space : list config) (prop : config -> dist config) : Prop :=
  forall (re : config -> R) (mu : R),
  (forall s t, In s space -> In t space ->
     exp (mu * re s) * Pr (single_update re mu prop s) t = exp (mu * re t) * Pr (single_update re mu prop t) s)%R
  /\ (forall k steps (f : list config -> R),
     rsum (map (fun ss => (weight mu re ss * E (sweep re mu prop steps (mc_init re mu ss)) (fun c => f (c_states c)))%R) (tuples space k))
     = rsum (map (fun ss => (weight mu re ss * f ss)%R) (tuples space k)))
  /\ forall k n therm steps j (f : list config -> R), j < n ->
     rsum (map (fun ss => (weight mu re ss * E (sample_device re mu prop n therm steps ss) (fun r => f (firstn k (skipn (j * k) (snd r)))))%R) (tuples space k))
     = rsum (map (fun ss => (weight mu re ss * f ss)%R) (tuples space k)).

Lemma good_samples space prop : good_proposal space prop -> samples_correctly space prop.
Proof.
  intros HG re mu. split; [|split].
  - intros s t Hs Ht. rewrite !single_K. exact (chainK_detailed_balance space re mu prop HG s t Hs Ht).
  - intros k steps f. rewrite <- (iter_invariant space re mu prop HG steps k f). apply rsum_ext. intros ss _. f_equal.
    apply (iterD_K re mu prop steps (mc_init re mu ss)). reflexivity.
  - intros k n therm steps j f Hj. rewrite <- (iter_invariant space re mu prop HG (therm * steps + S j * steps) k f).
    apply rsum_ext. intros ss Hss. apply (in_tuples space re mu) in Hss as [El F]. f_equal. rewrite iterD_add.
    unfold sample_device, get_samples. rewrite E_bind. 
    change ss with (c_states (mc_init re mu ss)) at 2. rewrite <- (iterD_K re mu prop (therm * steps) (mc_init re mu ss) (fun y => E (iterD (S j * steps) (fun ss => mapD (chainK re mu prop) ss) y) f) eq_refl).
    apply E_ext. intros c Hc.
    assert (Hi : in_space space re mu c) by (refine (in_space_sweep space re mu prop HG _ (mc_init re mu ss) c _ Hc); split; [reflexivity|exact F]).
    apply sweep_outcome in Hc as (_ & Lc & _); [|reflexivity]. rewrite E_bind, <- (collect_K space re mu prop HG n steps j c f Hi Hj). apply E_ext. intros r Hr. rewrite E_ret. cbn [snd].
    apply collect_outcome in Hr as (_ & _ & _ & _ & L1 & L2); [|apply Hi]. rewrite skipn_concat; [reflexivity| |lia].
    eapply Forall_impl; [|exact L2]. intros x Hx. rewrite Hx, Lc. exact El.
Qed.

Theorem C27_spin_flip n : 1 <= n -> samples_correctly (all_configs 2 n) propose_spin_flip.
Proof. intros H. apply good_samples, spin_flip_good, H. Qed.
Print Assumptions C27_spin_flip.
Theorem C27_spin_flip_Z2 n : 1 <= n -> samples_correctly (all_configs 2 n) propose_spin_flip_Z2.
Proof. intros H. apply good_samples, Z2_good, H. Qed.
Print Assumptions C27_spin_flip_Z2.

(** configurations of a lattice a x b with zero magnetisation *)
Definition zm_space (a b : nat) : list config := filter (fun s => 2 * ones s =? a * b) (all_configs 2 (a * b)).
Theorem C27_zeroMag a b prop : 1 <= a * b -> (forall s, length s = a * b -> propose_spin_flip_zeroMag [a; b] s = Ok (prop s)) ->
  samples_correctly (zm_space a b) prop.
Proof. intros H Hp. apply good_samples. exact (zeroMag_good a b prop H Hp). Qed.
Print Assumptions C27_zeroMag.

Example C27_example : 1 <= 3 /\ In [0; 1; 1] (all_configs 2 3) /\ In [0; 1; 1; 0] (zm_space 2 2) /\ length (zm_space 2 2) = 6 /\ length (tuples (all_configs 2 3) 2) = 64
  /\ exists prop, forall s, length s = 4 -> propose_spin_flip_zeroMag [2; 2] s = Ok (prop s).
Proof. split; [lia|]. split; [cbn; tauto|]. split; [cbn; tauto|]. split; [reflexivity|]. split; [reflexivity|]. eexists. intros s _. reflexivity. Qed.

(** ** C28 *)

(** What holds: one site changes, its entry grows by 0, 1 or 2.  Missing: entries stay in
    {0,1,2,3}, symmetry. *)
Theorem C28_POVM_proposal_partial s t : outcome (propose_POVM_outcome s) t ->
  exists i r, i < length s /\ r < 3 /\ length t = length s /\ forall p, nth p t 0 = if p =? i then nth p s 0 + r else nth p s 0.
Proof.
  intros H. apply outcome_bind in H as (i & Hi & H). apply outcome_uniform, in_seq in Hi. apply outcome_bind in H as (r & Hr & H). apply outcome_uniform, in_seq in Hr.
  apply outcome_ret in H. subst t. exists i, r. split; [lia|]. split; [lia|]. split; [apply BranchFree_Proofs.scatter1_length|]. intros p.
  rewrite nth_scatter1 by lia. destruct (Nat.eqb_spec p i) as [->|]; [|reflexivity]. rewrite BranchFree_Proofs.gather1_nth by lia. rewrite Nat.mod_small by lia. reflexivity.
Qed.
Print Assumptions C28_POVM_proposal_partial.
Example C28_example : outcome (propose_POVM_outcome [3; 1]) [3; 2].
Proof. unfold outcome. cbn. tauto. Qed.

(** The probabilities: nothing changes with probability 1/3, and every site grows by 1 or by 2 with
    probability 1/(3 number of sites) each. *)
Theorem C28_POVM_probabilities_partial s t i r : i < length s -> 1 <= r < 3 -> length t = length s ->
  (forall p, nth p t 0 = if p =? i then nth p s 0 + r else nth p s 0) ->
  Pr (propose_POVM_outcome s) t = (/ (3 * INR (length s)))%R /\ Pr (propose_POVM_outcome s) s = (/ 3)%R.
Proof.
  intros Hi Hr Hl Ht. set (mv := fun j q => scatter1 s j (nth j s 0 + q)).
  assert (G : forall u, Pr (propose_POVM_outcome s) u = (/ INR (length s) * rsum (map (fun j => / 3 * rsum (map (fun q => if config_eq_dec (mv j q) u then 1 else 0) (seq 0 3))) (seq 0 (length s))))%R).
  { intros u. unfold Pr, propose_POVM_outcome, randint. rewrite E_bind, E_uniform, seq_length, Nat.sub_0_r. f_equal. apply rsum_ext. intros j Hj. apply in_seq in Hj.
    rewrite E_bind, E_uniform. replace (INR (length (seq 0 (3 - 0)))) with 3%R by (cbn; ring). f_equal. apply rsum_ext. intros q Hq. apply in_seq in Hq. rewrite E_ret, Nat.mod_small by lia.
    unfold mv. rewrite BranchFree_Proofs.gather1_nth by lia. reflexivity. }
  assert (M : forall j q p, j < length s -> nth p (mv j q) 0 = if p =? j then nth j s 0 + q else nth p s 0).
  { intros j q p Hj. unfold mv. now apply nth_scatter1. }
  assert (Hn : (INR (length s) <> 0)%R) by (apply not_0_INR; lia).
  rewrite !G. split.
  - transitivity (/ INR (length s) * rsum (map (fun j => if j =? i then / 3 else 0) (seq 0 (length s))))%R.
    + f_equal. apply rsum_ext. intros j Hj. apply in_seq in Hj. cbn [seq map]. rewrite !rsum_cons, rsum_nil.
      assert (X : forall q, (if config_eq_dec (mv j q) t then 1 else 0)%R = if (j =? i) && (q =? r) then 1%R else 0%R).
      { intros q. destruct (config_eq_dec (mv j q) t) as [e|n].
        - pose proof (Ht i) as Hti. rewrite Nat.eqb_refl, <- e, M in Hti by lia. destruct (Nat.eqb_spec i j) as [<-|ne]; [|lia].
          rewrite Nat.eqb_refl. assert (Eq : q = r) by lia. rewrite Eq. now rewrite Nat.eqb_refl.
        - destruct (Nat.eqb_spec j i) as [->|]; [|reflexivity]. destruct (Nat.eqb_spec q r) as [->|]; [|reflexivity]. exfalso. apply n.
          apply (config_ext _ _ (length s)); [unfold mv; apply BranchFree_Proofs.scatter1_length|assumption|]. intros p Hp. rewrite M, Ht by lia. destruct (Nat.eqb_spec p i) as [->|]; reflexivity. }
      rewrite !X. destruct (j =? i); cbn [andb]; [|ring]. destruct r as [|[|[|r]]]; try lia; cbn [Nat.eqb]; ring.
    + rewrite (rsum_ext _ (fun j => / 3 * (if j =? i then 1 else 0))%R) by (intros j _; destruct (j =? i); ring). rewrite rsum_scal.
      replace (rsum (map (fun j => if j =? i then 1 else 0)%R (seq 0 (length s)))) with 1%R; [field; assumption|].
      symmetry. clear -Hi. assert (G : forall n a, a <= i < a + n -> rsum (map (fun j => if j =? i then 1%R else 0%R) (seq a n)) = 1%R).
      { induction n as [|n IH]; intros a H; [lia|]. cbn [seq map]. rewrite rsum_cons. destruct (Nat.eqb_spec a i) as [->|ne].
        - assert (Z : rsum (map (fun j => if j =? i then 1%R else 0%R) (seq (S i) n)) = 0%R); [|rewrite Z; ring].
          rewrite (rsum_ext _ (fun _ => 0%R)); [rewrite rsum_const; ring|]. intros j Hj. apply in_seq in Hj. destruct (Nat.eqb_spec j i); [lia|reflexivity].
        - rewrite IH by lia. ring. }
      apply G. lia.
  - transitivity (/ INR (length s) * rsum (map (fun _ => / 3) (seq 0 (length s))))%R; [|rewrite rsum_const, seq_length; field; assumption].
    f_equal. apply rsum_ext. intros j Hj. apply in_seq in Hj. cbn [seq map]. rewrite !rsum_cons, rsum_nil.
    assert (X : forall q, (if config_eq_dec (mv j q) s then 1 else 0)%R = if q =? 0 then 1%R else 0%R).
    { intros q. destruct (config_eq_dec (mv j q) s) as [e|n].
      - pose proof (M j q j ltac:(lia)) as H. rewrite e, Nat.eqb_refl in H. assert (Eq : q = 0) by lia. rewrite Eq. reflexivity.
      - destruct (Nat.eqb_spec q 0) as [->|]; [|reflexivity]. exfalso. apply n.
        apply (config_ext _ _ (length s)); [unfold mv; apply BranchFree_Proofs.scatter1_length|reflexivity|]. intros p Hp. rewrite M by lia. destruct (Nat.eqb_spec p j) as [->|]; lia. }
    rewrite !X. cbn [Nat.eqb]. ring.
Qed.
Print Assumptions C28_POVM_probabilities_partial.
Example C28_probabilities_example : 1 < length [3; 1] /\ 1 <= 2 < 3 /\ forall p, nth p [3; 3] 0 = if p =? 1 then nth p [3; 1] 0 + 2 else nth p [3; 1] 0.
Proof. split; [cbn; lia|]. split; [lia|]. intros [|[|p]]; reflexivity. Qed.

(** Consequence for the sampler: whatever the wave function, no entry of any sample is ever smaller than the one
    its chain started with (so outcome 0 is never seen again once it is left). *)
Theorem C28_never_decreases_partial net mu n therm steps s k r :
  outcome (sample_device net mu propose_POVM_outcome n therm steps (repeat s k)) r ->
  Forall (fun t => length t = length s /\ forall p, nth p s 0 <= nth p t 0) (snd r).
Proof.
  set (P := fun t : config => length t = length s /\ forall p, nth p s 0 <= nth p t 0). intros H.
  assert (HP : forall a b, P a -> outcome (propose_POVM_outcome a) b -> P b).
  { intros a b [H1 H2] Hb. apply C28_POVM_proposal_partial in Hb as (i & q & _ & _ & Hl & Hp). split; [congruence|]. intros p. rewrite Hp. specialize (H2 p). destruct (p =? i); lia. }
  assert (F0 : Forall P (c_states (mc_init net mu (repeat s k)))).
  { cbn [mc_init c_states]. apply Forall_forall. intros t Ht. apply repeat_spec in Ht. subst t. split; [reflexivity|]. intros; lia. }
  unfold sample_device, get_samples in H. apply outcome_bind in H as (c1 & H1 & H). apply outcome_bind in H as (r2 & H2 & H). apply outcome_ret in H. subst r. cbn [snd].
  assert (C0 : consistent net mu (mc_init net mu (repeat s k))) by reflexivity.
  pose proof (sweep_states _ _ _ P _ _ _ C0 HP F0 H1) as F1. destruct (sweep_outcome _ _ _ _ _ _ C0 H1) as (C1 & _).
  apply Forall_concat. exact (collect_states _ _ _ P _ _ _ _ C1 HP F1 H2).
Qed.
Print Assumptions C28_never_decreases_partial.

(** from the valid outcome 3 to the invalid 5 *)
Theorem C28_POVM_valid_refuted : exists s t, Forall (fun x => x < 4) s /\ outcome (propose_POVM_outcome s) t /\ ~ Forall (fun x => x < 4) t.
Proof. exists [3], [5]. split; [repeat constructor|]. split; [unfold outcome; cbn; tauto|]. intros H. inversion H. lia. Qed.
Print Assumptions C28_POVM_valid_refuted.
(** 0 -> 1 is possible, 1 -> 0 never *)
Theorem C28_POVM_symmetric_refuted : exists s t, Forall (fun x => x < 4) s /\ Forall (fun x => x < 4) t
  /\ (0 < Pr (propose_POVM_outcome s) t)%R /\ Pr (propose_POVM_outcome t) s = 0%R.
Proof.
  exists [0], [1]. split; [repeat constructor|]. split; [repeat constructor|].
  assert (G : forall x y, Pr (propose_POVM_outcome [x]) [y] = (/ 3 * ((if config_eq_dec [x + 0]%nat [y] then 1 else 0) + ((if config_eq_dec [x + 1]%nat [y] then 1 else 0) + ((if config_eq_dec [x + 2]%nat [y] then 1 else 0) + 0))))%R).
  { intros x y. unfold Pr, propose_POVM_outcome, randint. rewrite E_bind, E_uniform. cbn [length seq map Nat.sub]. rewrite !rsum_cons, rsum_nil, E_bind, E_uniform.
    cbn [length seq map Nat.sub]. rewrite !rsum_cons, rsum_nil, !E_ret. cbn [scatter1 gather1 nth length Nat.sub Nat.min].
    change (INR 1) with 1%R. replace (INR 3) with 3%R by (cbn; ring). change (0 mod 4) with 0. change (1 mod 4) with 1. change (2 mod 4) with 2. rewrite Rinv_1. unfold gather1. cbn [nth length Nat.sub Nat.min]. ring. }
  rewrite !G. cbn [Nat.add]. repeat match goal with |- context [config_eq_dec ?a ?b] => destruct (config_eq_dec a b) as [?X|?X]; try discriminate; try (exfalso; apply X; reflexivity) end; try (exfalso; congruence).
  split; lra.
Qed.
Print Assumptions C28_POVM_symmetric_refuted.

(** ** C29 *)

(** Zero magnetisation is conserved by every draw, the proposal is symmetric, and all
    samples of chains started with zero magnetisation have zero magnetisation.  Missing: the
    default initial state (all zeros), see below. *)
Theorem C29_zeroMag_partial a b prop : 1 <= a * b -> (forall s, length s = a * b -> propose_spin_flip_zeroMag [a; b] s = Ok (prop s)) ->
  (forall s t, length s = a * b -> zero_mag s -> outcome (prop s) t -> length t = a * b /\ zero_mag t)
  /\ (forall s t, length s = a * b -> length t = a * b -> zero_mag s -> zero_mag t -> Pr (prop s) t = Pr (prop t) s)
  /\ forall re mu n therm steps init r,
       Forall (fun s => length s = a * b /\ zero_mag s) init ->
       outcome (sample_device re mu prop n therm steps init) r -> Forall (fun s => length s = a * b /\ zero_mag s) (snd r).
Proof.
  intros Hn Hp. pose proof (zeroMag_good a b prop Hn Hp) as (_ & _ & Hsym).
  assert (C1 : forall s t, length s = a * b -> zero_mag s -> outcome (prop s) t -> length t = a * b /\ zero_mag t).
  { intros s t El Hz Ho. destruct (zeroMag_conserves a b s t _ (Hp s El) El Hz Ho). split; [lia|assumption]. }
  split; [exact C1|]. split.
  - intros s t E1 E2 Z1 Z2. apply Hsym; apply in_zm_configs; auto.
  - intros re mu n therm steps init r F H. unfold sample_device, get_samples in H. apply outcome_bind in H as (c & Hc & H). apply outcome_bind in H as (r' & Hr & H). apply outcome_ret in H. subst r. cbn [snd].
    assert (HP : forall s s', (length s = a * b /\ zero_mag s) -> outcome (prop s) s' -> length s' = a * b /\ zero_mag s') by (intros s s' [? ?]; now apply C1).
    pose proof (sweep_states re mu prop _ _ (mc_init re mu init) c eq_refl HP F Hc) as F'. apply sweep_outcome in Hc as (Hc & _); [|reflexivity].
    pose proof (collect_states re mu prop _ n steps c r' Hc HP F' Hr) as G. clear -G. induction G; cbn [concat]; [constructor|]. apply Forall_app. auto.
Qed.
Print Assumptions C29_zeroMag_partial.
Example C29_example : zero_mag [0; 1; 1; 0] /\ Forall (fun s => length s = 2 * 2 /\ zero_mag s) [[0; 1; 1; 0]; [1; 1; 0; 0]].
Proof. assert (H : forall s, binary s -> 2 * ones s = length s -> zero_mag s) by (intros; split; assumption). repeat constructor. Qed.

(** Default initial state on a 2 x 2 lattice: after any number n >= 1 of samples there are draws
    such that no sample has zero magnetisation. *)
Definition one_one (s : config) : Prop := s = [0; 0; 0; 0] \/ s = [1; 0; 0; 0] \/ s = [0; 1; 0; 0].
Lemma one_one_move s : one_one s -> exists t, one_one t /\ zeroMag_move s 1 1 = t.
Proof. intros [->|[->| ->]]; eexists; (split; [|reflexivity]); unfold one_one; cbn; tauto. Qed.
Theorem C29_default_state_refuted : exists prop, (forall s, length s = 4 -> propose_spin_flip_zeroMag [2; 2] s = Ok (prop s))
  /\ forall re mu n therm steps, exists r, outcome (sample_device re mu prop n therm steps [[0; 0; 0; 0]]) r
     /\ length (snd r) = n /\ Forall (fun s => ~ zero_mag s) (snd r).
Proof.
  set (prop := fun s => bound_up <~ randint 1 (2 * 2 / 2 + 1);; bound_down <~ randint 1 (2 * 2 / 2 + 1);; doFlip <~ randint 0 5;;
      ret (if doFlip =? 0 then flip_all (zeroMag_move s bound_up bound_down) else zeroMag_move s bound_up bound_down)).
  exists prop. split; [reflexivity|]. intros re mu.
  assert (Hprop : forall s, one_one s -> exists t, one_one t /\ outcome (prop s) t).
  { intros s Hs. destruct (one_one_move s Hs) as (t & Ht & E). exists t. split; [assumption|].
    apply outcome_bind. exists 1. split; [apply outcome_uniform; cbn; tauto|]. apply outcome_bind. exists 1. split; [apply outcome_uniform; cbn; tauto|].
    apply outcome_bind. exists 1. split; [apply outcome_uniform; cbn; tauto|]. apply outcome_ret. cbn [Nat.eqb]. now symmetry. }
  assert (Hupd : forall c, (exists s, c_states c = [s] /\ one_one s) -> length (c_logAcc c) = 1 -> exists c', outcome (perform_mc_update re mu prop c) c' /\ (exists s, c_states c' = [s] /\ one_one s) /\ length (c_logAcc c') = 1).
  { intros [ss la np na] (s & E & Hs) L. cbn [c_states c_logAcc] in *. subst ss. destruct la as [|l [|]]; try discriminate. destruct (Hprop s Hs) as (t & Ht & Ho).
    eexists. split; [apply outcome_bind; exists [t]; split; [apply outcome_mapD; constructor; [exact Ho|constructor]|apply outcome_bind; exists [true]; split; [|apply outcome_ret; reflexivity]]|].
    - apply outcome_mapD. cbn [c_logAcc map map2]. repeat constructor.
    - cbn. split; [exists t; auto|reflexivity]. }
  assert (Hsw : forall n c, (exists s, c_states c = [s] /\ one_one s) -> length (c_logAcc c) = 1 -> exists c', outcome (sweep re mu prop n c) c' /\ (exists s, c_states c' = [s] /\ one_one s) /\ length (c_logAcc c') = 1).
  { unfold sweep. induction n as [|n IH]; intros c H L; cbn [iterD]; [exists c; split; [now apply outcome_ret|auto]|].
    destruct (Hupd c H L) as (c1 & O1 & H1 & L1). destruct (IH c1 H1 L1) as (c2 & O2 & H2 & L2). exists c2. split; [|auto]. apply outcome_bind. eauto. }
  assert (Hco : forall steps n c, (exists s, c_states c = [s] /\ one_one s) -> length (c_logAcc c) = 1 -> exists r, outcome (collect re mu prop n steps c) r /\ length (snd r) = n /\ Forall (fun ss => exists s, ss = [s] /\ one_one s) (snd r)).
  { intros steps. induction n as [|n IH]; intros c H L; cbn [collect]; [eexists; split; [apply outcome_ret; reflexivity|split; [reflexivity|constructor]]|].
    destruct (Hsw steps c H L) as (c1 & O1 & H1 & L1). destruct (IH c1 H1 L1) as (r & O2 & L2 & F2). eexists. split; [apply outcome_bind; exists c1; split; [exact O1|apply outcome_bind; exists r; split; [exact O2|apply outcome_ret; reflexivity]]|].
    cbn [snd length]. split; [lia|]. constructor; assumption. }
  intros n therm steps. destruct (Hsw (therm * steps) (mc_init re mu [[0; 0; 0; 0]])) as (c & O1 & H1 & L1); [exists [0;0;0;0]; split; [reflexivity|now left]|reflexivity|].
  destruct (Hco steps n c H1 L1) as (r & O2 & L2 & F2). eexists. split; [apply outcome_bind; exists c; split; [exact O1|apply outcome_bind; exists r; split; [exact O2|apply outcome_ret; reflexivity]]|].
  cbn [snd]. clear -L2 F2. revert n L2. induction F2 as [|x l (s & -> & Hs) _ IH]; intros n <-; cbn [concat length app]; [split; [reflexivity|constructor]|].
  destruct (IH _ eq_refl) as [E F]. split; [cbn; lia|]. constructor; [|exact F]. intros [_ Z]. destruct Hs as [->|[->| ->]]; cbn in Z; lia.
Qed.
Print Assumptions C29_default_state_refuted.

(** ** C30 *)

(** Markov chains: the promised numbers if multipleOf divides the number of chains;
    the weights always sum to one.  Missing: other multipleOf. *)
Theorem C30_mcmc_partial n c d k m : (0 <= n)%Z -> (0 < c)%Z -> (0 < d)%Z -> (0 < k)%Z -> (0 < m)%Z -> (m | k)%Z ->
  exists glob, (forall r, snd (mcmc_counts r c n d k m) = glob)
    /\ over_ranks c (fun r => (d * fst (mcmc_counts r c n d k m))%Z) = glob /\ (n <= glob)%Z /\ (m | glob)%Z.
Proof.
  intros Hn Hc Hd Hk Hm [q Hq]. destruct (C01_distribute_sampling_exact n c d k Hn Hc Hd Hk) as (glob & G1 & G2 & G3 & _). exists glob.
  assert (L : Z.lcm k m = k).
  { apply Z.divide_antisym_nonneg; [apply Z.lcm_nonneg|lia| |apply Z.divide_lcm_l]. apply Z.lcm_least; [apply Z.divide_refl|now exists q]. }
  assert (E : forall r, mcmc_counts r c n d k m = ((fst (distribute_sampling r c n (Some d) k) * k)%Z, glob)).
  { intros r. unfold mcmc_counts. rewrite L. specialize (G1 r). destruct (distribute_sampling r c n (Some d) k). cbn [fst snd] in *. now subst. }
  split; [intros r; now rewrite E|]. split; [|split; [lia|]].
  - rewrite <- G2. unfold over_ranks. f_equal. apply map_ext. intros r. rewrite E. cbn [fst]. ring.
  - rewrite <- G2. unfold over_ranks. induction (seq 0 (Z.to_nat c)) as [|r l IH]; [apply Z.divide_0_r|]. cbn [map]. apply Z.divide_add_r; [|exact IH].
    rewrite Hq. exists (fst (distribute_sampling (Z.of_nat r) c n (Some d) (q * m)) * d * q)%Z. ring.
Qed.
Print Assumptions C30_mcmc_partial.
Example C30_mcmc_example : map (fun r => mcmc_counts (Z.of_nat r) 3 10 2 4 2) (seq 0 3) = [(4, 24); (4, 24); (4, 24)]%Z.
Proof. reflexivity. Qed.

Theorem C30_mcmc_weights lpf mu (logPsi : list (list (list C))) : concat (concat logPsi) <> [] ->
  rsum (concat (concat (mcmc_weights lpf mu logPsi))) = 1%R /\ Forall (fun w => 0 < w)%R (concat (concat (mcmc_weights lpf mu logPsi))).
Proof.
  intros H. unfold mcmc_weights. cbv zeta. set (p := map (map (map (fun l => exp ((1 / lpf - mu) * Re l)%R))) logPsi).
  assert (Ec : forall (g : R -> R), concat (concat (map (map (map g)) p)) = map g (concat (concat p))) by (intros g; rewrite !concat_map; reflexivity).
  assert (Ep : concat (concat p) = map (fun l => exp ((1 / lpf - mu) * Re l)%R) (concat (concat logPsi))) by (unfold p; rewrite !concat_map; reflexivity).
  assert (P : (0 < rsum (concat (concat p)))%R) by (rewrite Ep; apply rsum_map_pos; [assumption|intros; apply exp_pos]).
  rewrite Ec. split.
  - unfold Rdiv. rewrite rsum_scal_r, map_id. apply Rinv_r. lra.
  - apply Forall_map, Forall_forall. intros x Hx. rewrite Ep in Hx. apply in_map_iff in Hx as (l & <- & _). apply Rdiv_lt_0_compat; [apply exp_pos|assumption].
Qed.
Print Assumptions C30_mcmc_weights.
Example C30_weights_example : concat (concat [[[C1; Ci]; [C0]]; [[C1]]]) <> []. Proof. discriminate. Qed.

(** Direct sampling with multipleOf = 1.  Missing: multipleOf > 1. *)
Theorem C30_gen_partial n c d : (0 < n)%Z -> (0 < c)%Z -> (0 < d)%Z ->
  exists glob, (forall r, snd (gen_counts r c n d 1) = glob) /\ over_ranks c (fun r => (d * fst (gen_counts r c n d 1))%Z) = glob
    /\ (n <= glob)%Z /\ (IZR (over_ranks c (fun r => (d * fst (gen_counts r c n d 1))%Z)) * gen_weight glob = 1)%R.
Proof.
  intros Hn Hc Hd. destruct (C01_distribute_sampling_exact n c d 1 ltac:(lia) Hc Hd ltac:(lia)) as (glob & G1 & G2 & G3 & _). exists glob. unfold gen_counts.
  assert (E : over_ranks c (fun r => (d * fst (distribute_sampling r c n (Some d) 1))%Z) = glob).
  { rewrite <- G2. unfold over_ranks. f_equal. apply map_ext. intros r. ring. }
  rewrite E. split; [exact G1|]. split; [reflexivity|]. split; [lia|]. unfold gen_weight. field. apply not_0_IZR. lia.
Qed.
Print Assumptions C30_gen_partial.
Example C30_gen_example : map (fun r => gen_counts (Z.of_nat r) 3 10 2 1) (seq 0 3) = [(2, 12); (2, 12); (2, 12)]%Z.
Proof. reflexivity. Qed.

(** One chain, multipleOf = 2: fewer samples than requested, and not the reported number. *)
Theorem C30_mcmc_refuted : exists n c d k m, (0 < n /\ 0 < c /\ 0 < d /\ 0 < k /\ 0 < m)%Z
  /\ (over_ranks c (fun r => d * fst (mcmc_counts r c n d k m)) < n)%Z
  /\ (over_ranks c (fun r => d * fst (mcmc_counts r c n d k m)) <> snd (mcmc_counts 0 c n d k m))%Z.
Proof. exists 4%Z, 1%Z, 1%Z, 1%Z, 2%Z. split; [lia|]. split; [reflexivity|discriminate]. Qed.
Print Assumptions C30_mcmc_refuted.
(** Direct sampling with multipleOf = 2: half the samples, and the weights sum to 1/2. *)
Theorem C30_gen_refuted : exists n c d m, (0 < n /\ 0 < c /\ 0 < d /\ 0 < m)%Z
  /\ (over_ranks c (fun r => d * fst (gen_counts r c n d m)) < n)%Z
  /\ (IZR (over_ranks c (fun r => (d * fst (gen_counts r c n d m))%Z)) * gen_weight (snd (gen_counts 0 c n d m)) = 1 / 2)%R.
Proof.
  exists 4%Z, 1%Z, 1%Z, 2%Z. split; [lia|]. split; [reflexivity|].
  replace (over_ranks 1 (fun r => (1 * fst (gen_counts r 1 4 1 2))%Z)) with 2%Z by reflexivity. replace (snd (gen_counts 0 1 4 1 2)) with 4%Z by reflexivity. unfold gen_weight. field.
Qed.
Print Assumptions C30_gen_refuted.

(** ** C31 *)

(** The returned weight of a configuration s is proportional to w(s) = |psi|^(1/lpf) / |psi|^mu;
    reweighting |psi|^mu with w gives the Born average; equal weights for mu = 1/lpf. *)
Theorem C31_importance lpf mu (logPsi : config -> C) (samples : list (list (list config))) : lpf <> 0%R -> concat (concat samples) <> [] ->
  let re s := Re (logPsi s) in
  let w s := (born lpf re s / exp (mu * re s))%R in
  (exists Z, (0 < Z)%R /\ mcmc_weights lpf mu (map (map (map logPsi)) samples) = map (map (map (fun s => (w s / Z)%R))) samples)
  /\ (forall space f, space <> [] ->
        (average (fun s => exp (mu * re s)) (fun s => w s * f s) space / average (fun s => exp (mu * re s)) w space
         = average (born lpf re) f space)%R)
  /\ (mu = (1 / lpf)%R -> mcmc_weights lpf mu (map (map (map logPsi)) samples)
                          = map (map (map (fun _ => (/ INR (length (concat (concat samples))))%R))) samples).
Proof.
  intros Hl Hne re w.
  assert (W : forall s, exp ((1 / lpf - mu) * re s)%R = w s).
  { intros s. unfold w, born. unfold Rdiv at 2. rewrite <- exp_Ropp, <- exp_plus. f_equal. field. assumption. }
  set (Z := rsum (map w (concat (concat samples)))).
  assert (HZ : (0 < Z)%R) by (unfold Z; apply rsum_map_pos; [assumption|]; intros s _; rewrite <- W; apply exp_pos).
  assert (E : mcmc_weights lpf mu (map (map (map logPsi)) samples) = map (map (map (fun s => (w s / Z)%R))) samples).
  { assert (Ep : map (map (map (fun l => exp ((1 / lpf - mu) * Re l)%R))) (map (map (map logPsi)) samples) = map (map (map w)) samples).
    { rewrite map_map. apply map_ext. intros l. rewrite map_map. apply map_ext. intros l'. rewrite map_map. apply map_ext. intros s. apply W. }
    unfold mcmc_weights. cbv zeta. rewrite Ep. rewrite <- !concat_map. fold Z. rewrite map_map. apply map_ext. intros l. rewrite map_map. apply map_ext. intros l'. now rewrite map_map. }
  split; [exists Z; auto|]. split.
  - intros space f Hs. unfold average.
    assert (P : forall q, (forall s, 0 < q s)%R -> (0 < rsum (map q space))%R) by (intros q Hq; apply rsum_map_pos; auto).
    pose proof (P _ (fun s => exp_pos (mu * re s))) as P1. pose proof (P (born lpf re) (fun s => exp_pos _)) as P2.
    assert (C : forall s, (exp (mu * re s) * w s = born lpf re s)%R) by (intros s; unfold w; field; apply Rgt_not_eq, exp_pos).
    rewrite (rsum_ext (fun s => exp (mu * re s) * (w s * f s))%R (fun s => born lpf re s * f s)%R) by (intros s _; rewrite <- C; ring).
    rewrite (rsum_ext (fun s => exp (mu * re s) * w s)%R (born lpf re)) by (intros s _; apply C). field. split; apply Rgt_not_eq; assumption.
  - intros Hmu. rewrite E. assert (W1 : forall s, w s = 1%R) by (intros s; rewrite <- W, Hmu; replace ((1 / lpf - 1 / lpf) * re s)%R with 0%R by ring; apply exp_0).
    assert (Z1 : Z = INR (length (concat (concat samples)))).
    { unfold Z. rewrite (rsum_ext _ (fun _ => 1%R)) by (intros; apply W1). rewrite rsum_const. ring. }
    apply map_ext. intros l. apply map_ext. intros l'. apply map_ext. intros s. rewrite W1, Z1. unfold Rdiv. ring.
Qed.
Print Assumptions C31_importance.
Example C31_example : (/ 2 <> 0)%R /\ concat (concat [[[[0]; [1]]]]) <> []. Proof. split; [lra|discriminate]. Qed.

(** ** C32 *)

(** For every network, proposal, numbers and draws.  [c] is the carry when sampling ends. *)
Theorem C32_bookkeeping re mu prop n therm steps init c configs :
  outcome (sample_device re mu prop n therm steps init) (c, configs) ->
  c_logAcc c = map (fun s => (mu * re s)%R) (c_states c)
  /\ length (c_states c) = length init /\ length configs = n * length init
  /\ c_numProposed c = (therm + n) * steps * length init
  /\ c_numAccepted c <= c_numProposed c.
Proof.
  intros H. unfold sample_device, get_samples in H. apply outcome_bind in H as (c1 & H1 & H). apply outcome_bind in H as (r & Hr & H). apply outcome_ret in H. inversion H; subst.
  apply sweep_outcome in H1 as (Hc & L & P & A); [|reflexivity]. apply collect_outcome in Hr as (Hc' & L' & P' & A' & L1 & L2); [|assumption].
  cbn [mc_init c_states c_numProposed c_numAccepted] in *. split; [exact Hc'|]. split; [lia|]. split.
  - rewrite <- L, <- L1. clear -L2. induction L2 as [|x l Hx _ IH]; [reflexivity|]. cbn [concat length]. rewrite app_length, IH, Hx. lia.
  - split; [nia|]. nia.
Qed.
Print Assumptions C32_bookkeeping.

(** C30: the configurations a device returns are as many as [mcmc_counts] says, whatever is drawn. *)
Theorem C30_mcmc_device re mu prop therm steps init c configs rank commSize numSamples devices numChains multipleOf :
  (0 <= numSamples)%Z -> (0 < commSize)%Z -> (0 < devices)%Z -> (0 < numChains)%Z -> (0 < multipleOf)%Z -> Z.of_nat (length init) = numChains ->
  let perChain := fst (distribute_sampling rank commSize numSamples (Some devices) (Z.lcm numChains multipleOf)) in
  outcome (sample_device re mu prop (Z.to_nat perChain) therm steps init) (c, configs) ->
  Z.of_nat (length configs) = fst (mcmc_counts rank commSize numSamples devices numChains multipleOf).
Proof.
  intros Hn Hc Hd Hk Hm Hl perChain H. destruct (C32_bookkeeping _ _ _ _ _ _ _ _ _ H) as (_ & _ & L & _). rewrite L, Nat2Z.inj_mul, Hl.
  assert (P : (0 <= perChain)%Z).
  { unfold perChain, distribute_sampling, spc, samples_per_process. cbn [fst].
    assert (0 < Z.lcm numChains multipleOf)%Z by (pose proof (Z.lcm_nonneg numChains multipleOf); assert (Z.lcm numChains multipleOf <> 0)%Z by (intros E; apply Z.lcm_eq_0 in E; lia); lia).
    assert (0 < devices * Z.lcm numChains multipleOf)%Z by nia. apply Z.div_pos; [|assumption].
    assert (0 <= numSamples / commSize)%Z by (apply Z.div_pos; lia). destruct (rank <? numSamples mod commSize)%Z; lia. }
  rewrite Z2Nat.id by assumption. unfold mcmc_counts, perChain. destruct (distribute_sampling _ _ _ _ _). reflexivity.
Qed.
Print Assumptions C30_mcmc_device.
Example C30_device_example : fst (distribute_sampling 0 3 10 (Some 2%Z) (Z.lcm 2 2)) = 1%Z /\ Z.of_nat (length [[0; 1]; [1; 1]]) = 2%Z.
Proof. split; reflexivity. Qed.

(** A single update: every chain stays or moves to a proposed configuration, and the carried
    log-probabilities remain those of the current states. *)
Theorem C32_update re mu prop c c' : c_logAcc c = map (fun s => (mu * re s)%R) (c_states c) ->
  outcome (perform_mc_update re mu prop c) c' ->
  c_logAcc c' = map (fun s => (mu * re s)%R) (c_states c')
  /\ Forall2 (fun s s' => s' = s \/ outcome (prop s) s') (c_states c) (c_states c')
  /\ c_numProposed c' = c_numProposed c + length (c_states c)
  /\ c_numAccepted c <= c_numAccepted c' <= c_numAccepted c + length (c_states c).
Proof. intros Hc H. exact (update_outcome re mu prop c c' Hc H). Qed.
Print Assumptions C32_update.

Theorem C32_acceptance_ratio cs : Forall (fun c => c_numAccepted c <= c_numProposed c) cs -> (0 <= acceptance_ratio cs <= 1)%R.
Proof.
  intros H. unfold acceptance_ratio. destruct (Nat.ltb_spec 0 (nsum (map c_numProposed cs))) as [P|P]; [|lra].
  assert (nsum (map c_numAccepted cs) <= nsum (map c_numProposed cs)) as L.
  { clear P. induction H as [|c cs Hc _ IH]; [reflexivity|]. unfold nsum, big in *. cbn in *. lia. }
  apply le_INR in L. apply lt_INR in P. cbn [INR] in P. pose proof (pos_INR (nsum (map c_numAccepted cs))).
  split; [apply Rmult_le_pos; [assumption|left; now apply Rinv_0_lt_compat]|].
  apply Rmult_le_reg_r with (INR (nsum (map c_numProposed cs))); [assumption|]. unfold Rdiv. rewrite Rmult_assoc, Rinv_l by lra. lra.
Qed.
Print Assumptions C32_acceptance_ratio.

(** one chain, one accepted flip *)
Example C32_example : exists c configs, outcome (sample_device (fun _ => 0%R) 2 propose_spin_flip 1 0 1 [[0; 1]]) (c, configs)
  /\ configs = [[1; 1]] /\ c_numProposed c = 1 /\ c_numAccepted c = 1.
Proof.
  exists (mk_carry [[1; 1]] [(2 * 0)%R] 1 1), [[1; 1]]. split; [|split; [reflexivity|split; reflexivity]].
  unfold sample_device, get_samples. apply outcome_bind. exists (mc_init (fun _ => 0%R) 2 [[0; 1]]). split; [apply outcome_ret; reflexivity|].
  apply outcome_bind. exists (mk_carry [[1; 1]] [(2 * 0)%R] 1 1, [[[1; 1]]]). split; [|apply outcome_ret; reflexivity].
  cbn [collect]. apply outcome_bind. exists (mk_carry [[1; 1]] [(2 * 0)%R] 1 1). split.
  - unfold sweep. cbn [iterD]. apply outcome_bind. eexists. split; [|apply outcome_ret; reflexivity].
    apply outcome_bind. exists [[1; 1]]. split; [apply outcome_mapD; repeat constructor; unfold outcome; cbn; tauto|].
    apply outcome_bind. exists [true]. split; [apply outcome_mapD; cbn; repeat constructor|]. apply outcome_ret. reflexivity.
  - apply outcome_bind. exists (mk_carry [[1; 1]] [(2 * 0)%R] 1 1, []). split; [apply outcome_ret; reflexivity|apply outcome_ret; reflexivity].
Qed.
