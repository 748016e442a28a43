From Coq Require Import ZArith List Reals Lra Lia Bool Arith.
From Verif Require Import Base Cplx Mpi_Model Mpi_Spec Mpi_Proofs Stats_Model BranchFree_Model BranchFree_Spec BranchFree_Proofs Dist Sampler_Model Sampler_Spec.
Import ListNotations.

(** ** generic: from symmetric proposals to invariance *)
Lemma E_bernoulli p f : E (bernoulli p) f = (Rmin 1 p * f true + (1 - Rmin 1 p) * f false)%R.
Proof. unfold bernoulli. rewrite !E_cons. unfold E. cbn. ring. Qed.
Lemma mass_bernoulli p : mass (bernoulli p) = 1%R.
Proof. rewrite mass_E, E_bernoulli. ring. Qed.

Lemma E_by_Pr (space : list config) (m : dist config) g : NoDup space -> (forall t, outcome m t -> In t space) ->
  E m g = rsum (map (fun t => (Pr m t * g t)%R) space).
Proof.
  intros Hnd Hin. unfold Pr.
  transitivity (rsum (map (fun t => E m (fun s => ((if config_eq_dec s t then 1 else 0) * g t)%R)) space)).
  2:{ apply rsum_ext. intros t _. rewrite Rmult_comm, <- E_scal. unfold E. apply rsum_ext. intros; ring. }
  rewrite <- E_rsum. apply E_ext. intros s Hs. specialize (Hin s Hs). clear -Hnd Hin.
  induction Hnd as [|x l Hx _ IH]; [contradiction|]. cbn [map]. rewrite rsum_cons. destruct Hin as [->|Hin].
  - destruct (config_eq_dec s s); [|congruence].
    rewrite (rsum_ext _ (fun _ => 0%R)), rsum_zero; [ring|]. intros t Ht. destruct (config_eq_dec s t); [subst; contradiction|ring].
  - destruct (config_eq_dec s x); [subst; contradiction|]. rewrite <- IH by assumption. ring.
Qed.

Section Kernel.
Variables (space : list config) (net : config -> R) (mu : R) (prop : config -> dist config).
Hypothesis (HG : good_proposal space prop).
Let L := logAcc net mu.

(** update of one chain *)
Definition chain1 (sl : config * R) : dist (config * R) :=
  s' <~ prop (fst sl);; b <~ bernoulli (exp (L s' - snd sl));; ret (if b then (s', L s') else sl).
Definition chainK (s : config) : dist config :=
  s' <~ prop s;; b <~ bernoulli (exp (L s' - L s));; ret (if b then s' else s).

Lemma E_chainK s f : mass (prop s) = 1%R ->
  E (chainK s) f = (f s + E (prop s) (fun s' => Rmin 1 (exp (L s' - L s)) * (f s' - f s)))%R.
Proof.
  intros Hm. unfold chainK. rewrite E_bind. transitivity (E (prop s) (fun s' => f s + Rmin 1 (exp (L s' - L s)) * (f s' - f s))%R).
  - apply E_ext. intros s' _. rewrite E_bind, E_bernoulli, !E_ret. ring.
  - rewrite E_add, E_const, Hm. ring.
Qed.

Lemma min_balance a b : (exp a * Rmin 1 (exp (b - a)) = Rmin (exp a) (exp b))%R.
Proof.
  unfold Rmin. destruct (Rle_dec 1 (exp (b - a))) as [H|H], (Rle_dec (exp a) (exp b)) as [H'|H']; try ring.
  - exfalso. apply H'. assert (exp a * 1 <= exp a * exp (b - a))%R by (apply Rmult_le_compat_l; [left; apply exp_pos|assumption]).
    rewrite <- exp_plus in H0. replace (a + (b - a))%R with b in H0 by ring. lra.
  - exfalso. apply H. pose proof (exp_pos a). apply Rmult_le_reg_l with (exp a); [assumption|]. rewrite <- exp_plus.
    replace (a + (b - a))%R with b by ring. lra.
  - rewrite <- exp_plus. f_equal. ring.
Qed.

Lemma kernel_flow s t : In s space -> In t space ->
  (exp (L s) * (Pr (prop s) t * Rmin 1 (exp (L t - L s))) = exp (L t) * (Pr (prop t) s * Rmin 1 (exp (L s - L t))))%R.
Proof.
  intros Hs Ht. destruct HG as (_ & _ & Hsym). rewrite (Hsym s t Hs Ht).
  pose proof (min_balance (L s) (L t)). pose proof (min_balance (L t) (L s)). rewrite (Rmin_comm (exp (L t)) (exp (L s))) in H0.
  replace (exp (L s) * (Pr (prop t) s * Rmin 1 (exp (L t - L s))))%R with (Pr (prop t) s * (exp (L s) * Rmin 1 (exp (L t - L s))))%R by ring.
  rewrite H, <- H0. ring.
Qed.

Lemma chainK_invariant f : rsum (map (fun s => (exp (L s) * E (chainK s) f)%R) space) = rsum (map (fun s => (exp (L s) * f s)%R) space).
Proof.
  destruct HG as (Hnd & Hcl & _).
  set (W := fun s t => (exp (L s) * (Pr (prop s) t * Rmin 1 (exp (L t - L s))))%R).
  transitivity (rsum (map (fun s => (exp (L s) * f s + rsum (map (fun t => W s t * (f t - f s)) space))%R) space)).
  { apply rsum_ext. intros s Hs. destruct (Hcl s Hs) as [Hm Hc]. rewrite (E_chainK s f Hm), (E_by_Pr space _ _ Hnd Hc).
    rewrite Rmult_plus_distr_l. f_equal. rewrite <- rsum_scal. apply rsum_ext. intros t _. unfold W. ring. }
  rewrite rsum_map_add.
  assert (Z : rsum (map (fun s => rsum (map (fun t => (W s t * (f t - f s))%R) space)) space) = 0%R).
  { set (A := rsum _). assert (A = - A)%R; [|lra]. unfold A at 1. rewrite rsum_swap. unfold A. rewrite <- rsum_opp.
    apply rsum_ext. intros s Hs. rewrite <- rsum_opp. apply rsum_ext. intros t Ht. unfold W. rewrite (kernel_flow t s Ht Hs). ring. }
  rewrite Z. ring.
Qed.

Lemma chainK_detailed_balance s t : In s space -> In t space ->
  (exp (L s) * Pr (chainK s) t = exp (L t) * Pr (chainK t) s)%R.
Proof.
  intros Hs Ht. destruct HG as (Hnd & Hcl & _). destruct (config_eq_dec s t) as [->|Hne]; [reflexivity|].
  assert (G : forall a b, In a space -> In b space -> a <> b -> Pr (chainK a) b = (Pr (prop a) b * Rmin 1 (exp (L b - L a)))%R).
  { intros a b Ha Hb Hab. destruct (Hcl a Ha) as [Hm Hc]. unfold Pr at 1. rewrite (E_chainK a _ Hm).
    destruct (config_eq_dec a b); [contradiction|]. rewrite Rplus_0_l. rewrite (Rmult_comm (Pr _ _)). unfold Pr. rewrite <- E_scal. apply E_ext.
    intros x _. destruct (config_eq_dec x b) as [->|]; ring. }
  rewrite (G s t Hs Ht Hne), (G t s Ht Hs (not_eq_sym Hne)). apply kernel_flow; assumption.
Qed.

(** *** several chains *)
Lemma map2_cons {A B D} (f : A -> B -> D) a la b lb : map2 f (a :: la) (b :: lb) = f a b :: map2 f la lb.
Proof. reflexivity. Qed.

Lemma perform_E states lacc np na F : length states = length lacc ->
  E (perform_mc_update net mu prop (mk_carry states lacc np na)) (fun c => F (combine (c_states c) (c_logAcc c)))
  = E (mapD chain1 (combine states lacc)) F.
Proof.
  unfold perform_mc_update. cbn [c_states c_logAcc c_numProposed c_numAccepted]. intros Hlen. rewrite E_bind.
  transitivity (E (mapD prop states) (fun new => E (mapD bernoulli (map2 (fun n o => exp (n - o)) (map L new) lacc)) (fun acc =>
     F (combine (map2 (fun (a : bool) on => if a then snd on else fst on) acc (combine states new))
                (map2 (fun (a : bool) on => if a then snd on else fst on) acc (combine lacc (map L new))))))).
  { apply E_ext. intros new _. rewrite E_bind. apply E_ext. intros acc _. rewrite E_ret. reflexivity. }
  revert lacc Hlen F. induction states as [|s states IH]; intros [|l lacc] Hlen F; try discriminate.
  - cbn [mapD combine map]. rewrite !E_ret. cbn [map2 combine map mapD]. rewrite E_ret. reflexivity.
  - cbn [mapD combine]. rewrite !E_bind. unfold chain1 at 1. rewrite !E_bind. cbn [fst snd]. apply E_ext. intros s' _.
    rewrite !E_bind. transitivity (E (mapD prop states) (fun new => E (bernoulli (exp (L s' - l))) (fun b => E (mapD bernoulli (map2 (fun n o => exp (n - o)) (map L new) lacc)) (fun acc =>
       F ((if b then (s', L s') else (s, l)) :: combine (map2 (fun (a : bool) on => if a then snd on else fst on) acc (combine states new))
                (map2 (fun (a : bool) on => if a then snd on else fst on) acc (combine lacc (map L new)))))))).
    + apply E_ext. intros new _. rewrite E_ret. cbn [map]. rewrite map2_cons. cbn [mapD]. rewrite E_bind. apply E_ext. intros b _.
      rewrite E_bind. apply E_ext. intros acc _. rewrite E_ret. cbn [combine]. rewrite !map2_cons. cbn [fst snd combine]. destruct b; reflexivity.
    + rewrite E_swap. apply E_ext. intros b _. rewrite E_ret, E_bind.
      rewrite (IH lacc ltac:(cbn in Hlen; lia) (fun r => F ((if b then (s', L s') else (s, l)) :: r))).
      apply E_ext. intros r _. rewrite E_ret. reflexivity.
Qed.

Lemma chain1_K ss F : E (mapD chain1 (map (fun s => (s, L s)) ss)) F = E (mapD chainK ss) (fun r => F (map (fun s => (s, L s)) r)).
Proof.
  revert F. induction ss as [|s ss IH]; intros F; cbn [map mapD]; [now rewrite !E_ret|].
  rewrite !E_bind. unfold chain1 at 1, chainK at 1. rewrite !E_bind. cbn [fst snd]. apply E_ext. intros s' _. rewrite !E_bind.
  apply E_ext. intros b _. rewrite !E_ret, !E_bind.
  rewrite (IH (fun r => E (ret ((if b then (s', L s') else (s, L s)) :: r)) F)). apply E_ext. intros r _. rewrite !E_ret. cbn [map].
  destruct b; reflexivity.
Qed.

Definition consistent (c : carry) : Prop := c_logAcc c = map L (c_states c).

Lemma combine_consistent ss : combine ss (map L ss) = map (fun s => (s, L s)) ss.
Proof. induction ss; cbn; congruence. Qed.
Lemma map_fst_pair ss : map fst (map (fun s : config => (s, L s)) ss) = ss.
Proof. rewrite map_map. apply map_id. Qed.

(** *** invariants of one update, for all draws *)
Lemma update_outcome c c' : consistent c -> outcome (perform_mc_update net mu prop c) c' ->
  consistent c'
  /\ Forall2 (fun s s' => s' = s \/ outcome (prop s) s') (c_states c) (c_states c')
  /\ c_numProposed c' = c_numProposed c + length (c_states c)
  /\ c_numAccepted c <= c_numAccepted c' <= c_numAccepted c + length (c_states c).
Proof.
  intros Hc H. unfold perform_mc_update in H. apply outcome_bind in H as (new & Hn & H). apply outcome_bind in H as (acc & Ha & H).
  apply outcome_ret in H. subst c'. unfold consistent in *. cbn [c_states c_logAcc c_numProposed c_numAccepted].
  apply outcome_mapD in Hn, Ha. rewrite Hc in *. fold L in Ha |- *. clear Hc.
  assert (La : length acc = length (c_states c)).
  { apply Forall2_length in Ha, Hn. unfold map2 in Ha. rewrite map_length, combine_length, !map_length in Ha. lia. }
  clear Ha. revert acc La. induction Hn as [|s s' ss new Hs Hn IH]; intros [|b acc] La; cbn in La; try discriminate.
  - repeat split; try constructor; cbn; lia.
  - destruct (IH acc ltac:(lia)) as (I1 & I2 & I3 & I4 & I5). cbn [map combine length filter]. rewrite !map2_cons. cbn [fst snd map].
    split; [rewrite I1; destruct b; reflexivity|]. split; [constructor; [destruct b; auto|assumption]|].
    split; [lia|]. destruct b; cbn [length]; lia.
Qed.

Lemma chainK_mass s : mass (prop s) = 1%R -> mass (chainK s) = 1%R.
Proof.
  intros H. unfold chainK. rewrite mass_bind; [assumption|]. intros a _. rewrite mass_bind; [apply mass_bernoulli|]. intros; apply mass_ret.
Qed.

(** *** product distribution *)
Lemma rsum_flat_map {A B} (f : B -> R) (g : A -> list B) l : rsum (map f (flat_map g l)) = rsum (map (fun a => rsum (map f (g a))) l).
Proof. induction l as [|a l IH]; [reflexivity|]. cbn [flat_map map]. now rewrite map_app, rsum_app, rsum_cons, IH. Qed.

Lemma weight_cons s ss : weight mu net (s :: ss) = (exp (L s) * weight mu net ss)%R.
Proof. reflexivity. Qed.

Lemma chains_invariant k f :
  rsum (map (fun ss => (weight mu net ss * E (mapD chainK ss) f)%R) (tuples space k))
  = rsum (map (fun ss => (weight mu net ss * f ss)%R) (tuples space k)).
Proof.
  revert f. induction k as [|k IH]; intros f; cbn [tuples].
  - cbn [map mapD]. rewrite E_ret. reflexivity.
  - rewrite !rsum_flat_map.
    transitivity (rsum (map (fun s => (exp (L s) * E (chainK s) (fun s' => rsum (map (fun ss => weight mu net ss * f (s' :: ss)) (tuples space k))))%R) space)).
    + apply rsum_ext. intros s _. rewrite map_map.
      transitivity (exp (L s) * rsum (map (fun ss => weight mu net ss * E (mapD chainK ss) (fun r => E (chainK s) (fun s' => f (s' :: r)))) (tuples space k)))%R.
      * rewrite <- rsum_scal. apply rsum_ext. intros ss _. rewrite weight_cons, Rmult_assoc. f_equal. f_equal. cbn [mapD].
        rewrite E_bind, E_swap. apply E_ext. intros s' _. rewrite E_bind. apply E_ext. intros r _. now rewrite E_ret.
      * f_equal. rewrite IH, E_rsum. apply rsum_ext. intros ss _. now rewrite E_scal.
    + rewrite chainK_invariant. apply rsum_ext. intros s _. rewrite map_map, <- rsum_scal. apply rsum_ext. intros ss _. rewrite weight_cons. ring.
Qed.

Lemma in_tuples k ss : In ss (tuples space k) <-> length ss = k /\ Forall (fun s => In s space) ss.
Proof.
  revert ss. induction k as [|k IH]; intros ss; cbn [tuples].
  - split; [intros [<-|[]]; split; [reflexivity|constructor]|]. intros [H _]. destruct ss; [now left|discriminate].
  - rewrite in_flat_map. split.
    + intros (s & Hs & H). apply in_map_iff in H as (r & <- & Hr). apply IH in Hr as [E F]. split; [cbn; lia|]. now constructor.
    + intros [El F]. destruct ss as [|s ss]; [discriminate|]. inversion F; subst. exists s. split; [assumption|].
      apply in_map. apply IH. split; [cbn in El; lia|assumption].
Qed.

Lemma perform_K c f : consistent c ->
  E (perform_mc_update net mu prop c) (fun c' => f (c_states c')) = E (mapD chainK (c_states c)) f.
Proof.
  intros Hc. destruct c as [states lacc np na]. unfold consistent in Hc. cbn [c_states c_logAcc] in *. subst lacc.
  pose proof (perform_E states (map L states) np na (fun r => f (map fst r)) ltac:(now rewrite map_length)) as H.
  transitivity (E (perform_mc_update net mu prop (mk_carry states (map L states) np na)) (fun c => f (map fst (combine (c_states c) (c_logAcc c))))).
  - apply E_ext. intros c' Ho. apply update_outcome in Ho as (Hc' & _); [|reflexivity]. f_equal. unfold consistent in Hc'. rewrite Hc', combine_consistent, map_fst_pair. reflexivity.
  - rewrite H, combine_consistent, chain1_K. apply E_ext. intros r _. now rewrite map_fst_pair.
Qed.

(** *** any number of steps *)
Lemma iterD_K n c f : consistent c ->
  E (sweep net mu prop n c) (fun c' => f (c_states c')) = E (iterD n (fun ss => mapD chainK ss) (c_states c)) f.
Proof.
  unfold sweep. revert c. induction n as [|n IH]; intros c Hc; cbn [iterD]; [now rewrite !E_ret|].
  rewrite !E_bind. rewrite <- (perform_K c _ Hc). apply E_ext. intros c' Ho. apply IH. apply update_outcome in Ho as (Hc' & _); assumption.
Qed.

Lemma iter_invariant n k f :
  rsum (map (fun ss => (weight mu net ss * E (iterD n (fun ss => mapD chainK ss) ss) f)%R) (tuples space k))
  = rsum (map (fun ss => (weight mu net ss * f ss)%R) (tuples space k)).
Proof.
  revert f. induction n as [|n IH]; intros f; cbn [iterD].
  - apply rsum_ext. intros ss _. now rewrite E_ret.
  - transitivity (rsum (map (fun ss => (weight mu net ss * E (mapD chainK ss) (fun r => E (iterD n (fun ss => mapD chainK ss) r) f))%R) (tuples space k))).
    + apply rsum_ext. intros ss _. now rewrite E_bind.
    + rewrite chains_invariant. apply IH.
Qed.

(** *** invariants for all draws *)
Lemma sweep_outcome n c c' : consistent c -> outcome (sweep net mu prop n c) c' ->
  consistent c' /\ length (c_states c') = length (c_states c)
  /\ c_numProposed c' = c_numProposed c + n * length (c_states c)
  /\ c_numAccepted c <= c_numAccepted c' <= c_numAccepted c + n * length (c_states c).
Proof.
  unfold sweep. revert c. induction n as [|n IH]; intros c Hc H; cbn [iterD] in H.
  - apply outcome_ret in H. subst. repeat split; auto; lia.
  - apply outcome_bind in H as (c1 & H1 & H). apply update_outcome in H1 as (Hc1 & F & E1 & E2); [|assumption].
    apply Forall2_length in F. destruct (IH c1 Hc1 H) as (I1 & I2 & I3 & I4). repeat split; try assumption; nia.
Qed.
Lemma sweep_states (P : config -> Prop) n c c' : consistent c -> (forall s s', P s -> outcome (prop s) s' -> P s') ->
  Forall P (c_states c) -> outcome (sweep net mu prop n c) c' -> Forall P (c_states c').
Proof.
  intros Hc HP. unfold sweep. revert c Hc. induction n as [|n IH]; intros c Hc F H; cbn [iterD] in H.
  - apply outcome_ret in H. now subst.
  - apply outcome_bind in H as (c1 & H1 & H). apply update_outcome in H1 as (Hc1 & F2 & _); [|assumption]. apply (IH c1 Hc1); [|assumption].
    clear -F2 F HP. induction F2 as [|s s' ? ? Hs _ IH]; [constructor|]. inversion F; subst. constructor; [|auto]. destruct Hs as [->|Hs]; eauto.
Qed.
Lemma collect_outcome m steps c r : consistent c -> outcome (collect net mu prop m steps c) r ->
  consistent (fst r) /\ length (c_states (fst r)) = length (c_states c)
  /\ c_numProposed (fst r) = c_numProposed c + m * steps * length (c_states c)
  /\ c_numAccepted c <= c_numAccepted (fst r) <= c_numAccepted c + m * steps * length (c_states c)
  /\ length (snd r) = m /\ Forall (fun ss => length ss = length (c_states c)) (snd r).
Proof.
  revert c r. induction m as [|m IH]; intros c r Hc H; cbn [collect] in H.
  - apply outcome_ret in H. subst. cbn [fst snd]. repeat split; auto; lia.
  - apply outcome_bind in H as (c1 & H1 & H). apply outcome_bind in H as (r1 & H2 & H). apply outcome_ret in H. subst. cbn [fst snd].
    apply sweep_outcome in H1 as (Hc1 & E1 & E2 & E3); [|assumption]. destruct (IH c1 r1 Hc1 H2) as (I1 & I2 & I3 & I4 & I5 & I6).
    split; [assumption|]. split; [lia|]. split; [nia|]. split; [nia|]. split; [cbn; lia|]. constructor; [assumption|]. now rewrite <- E1.
Qed.
Lemma collect_states (P : config -> Prop) m steps c r : consistent c -> (forall s s', P s -> outcome (prop s) s' -> P s') ->
  Forall P (c_states c) -> outcome (collect net mu prop m steps c) r -> Forall (Forall P) (snd r).
Proof.
  intros Hc HP. revert c r Hc. induction m as [|m IH]; intros c r Hc F H; cbn [collect] in H.
  - apply outcome_ret in H. subst. constructor.
  - apply outcome_bind in H as (c1 & H1 & H). apply outcome_bind in H as (r1 & H2 & H). apply outcome_ret in H. subst. cbn [fst snd].
    pose proof (sweep_states P _ _ _ Hc HP F H1) as F1. apply sweep_outcome in H1 as (Hc1 & _); [|assumption].
    constructor; [assumption|]. eapply IH; eassumption.
Qed.

(** *** masses, and the distribution of the states collected in sweep j *)
Lemma mass_mapD {A B} (g : A -> dist B) l : Forall (fun a => mass (g a) = 1%R) l -> mass (mapD g l) = 1%R.
Proof.
  induction 1 as [|a l H _ IH]; cbn [mapD]; [apply mass_ret|]. rewrite mass_bind; [assumption|]. intros b _.
  rewrite mass_bind; [assumption|]. intros; apply mass_ret.
Qed.
Definition in_space (c : carry) : Prop := consistent c /\ Forall (fun s => In s space) (c_states c).
Lemma mass_perform c : in_space c -> mass (perform_mc_update net mu prop c) = 1%R.
Proof.
  intros [Hc F]. unfold perform_mc_update. rewrite mass_bind.
  - apply mass_mapD. eapply Forall_impl; [|exact F]. intros s Hs. now apply HG.
  - intros new _. rewrite mass_bind; [|intros; apply mass_ret]. apply mass_mapD. apply Forall_forall. intros; apply mass_bernoulli.
Qed.
Lemma in_space_sweep n c c' : in_space c -> outcome (sweep net mu prop n c) c' -> in_space c'.
Proof.
  intros [Hc F] H. split; [now apply (sweep_outcome n c)|]. apply (sweep_states (fun s => In s space) n c c' Hc); try assumption.
  intros s s' Hs Ho. destruct HG as (_ & Hcl & _). exact (proj2 (Hcl s Hs) s' Ho).
Qed.
Lemma mass_sweep n c : in_space c -> mass (sweep net mu prop n c) = 1%R.
Proof.
  unfold sweep. revert c. induction n as [|n IH]; intros c H; cbn [iterD]; [apply mass_ret|]. rewrite mass_bind; [now apply mass_perform|].
  intros c' Ho. apply IH. apply (in_space_sweep 1 c); [assumption|]. unfold sweep. cbn [iterD]. apply outcome_bind. exists c'. split; [assumption|now apply outcome_ret].
Qed.
Lemma mass_collect m steps c : in_space c -> mass (collect net mu prop m steps c) = 1%R.
Proof.
  revert c. induction m as [|m IH]; intros c H; cbn [collect]; [apply mass_ret|]. rewrite mass_bind; [now apply mass_sweep|].
  intros c' Ho. rewrite mass_bind; [|intros; apply mass_ret]. apply IH. eapply in_space_sweep; eassumption.
Qed.
Lemma iterD_add {A} a b (g : A -> dist A) x f : E (iterD (a + b) g x) f = E (iterD a g x) (fun y => E (iterD b g y) f).
Proof.
  revert x. induction a as [|a IH]; intros x; cbn [iterD Nat.add]; [now rewrite E_ret|]. rewrite !E_bind. apply E_ext. intros y _. apply IH.
Qed.
Lemma collect_K m steps j c f : in_space c -> j < m ->
  E (collect net mu prop m steps c) (fun r => f (nth j (snd r) [])) = E (iterD (S j * steps) (fun ss => mapD chainK ss) (c_states c)) f.
Proof.
  revert j c. induction m as [|m IH]; intros j c H Hj; [lia|]. cbn [collect]. rewrite E_bind. destruct j as [|j].
  - rewrite Nat.mul_1_l, <- (iterD_K steps c f (proj1 H)). apply E_ext. intros c' Ho. rewrite E_bind.
    transitivity (E (collect net mu prop m steps c') (fun _ => f (c_states c'))).
    + apply E_ext. intros r _. now rewrite E_ret.
    + rewrite E_const, mass_collect by (eapply in_space_sweep; eassumption). ring.
  - replace (S (S j) * steps) with (steps + S j * steps) by lia. rewrite iterD_add, <- (iterD_K steps c _ (proj1 H)). apply E_ext. intros c' Ho.
    rewrite E_bind, <- (IH j c') by (try lia; eapply in_space_sweep; eassumption). apply E_ext. intros r _. now rewrite E_ret.
Qed.
End Kernel.
