(** Properties C37, C42, C43, C44, C65. *)
From Coq Require Import ZArith List Reals Lra Lia Bool Arith Permutation.
From Verif Require Import Base Cplx Stats_Model BranchFree_Model Dist Sampler_Model Sampler_Spec Sampler2_Proofs Exact_Proofs
  Sym_Model Sym_Spec Sym_Proofs Sym2_Proofs Sym3_Proofs Sym4_Proofs Sym5_Proofs.
Import ListNotations.

(** ** C42: rings *)
Theorem C42_group L translation reflection spinflip fT fR fS : 0 < L ->
  is_group L (map fst (get_orbit_1D L translation reflection spinflip fT fR fS)).
Proof. apply orbit_1D_group. Qed.
Print Assumptions C42_group.
Theorem C42_count L translation reflection spinflip fT fR fS : 0 < L ->
  length (get_orbit_1D L translation reflection spinflip fT fR fS) = (if spinflip then 2 else 1) * ring_order L translation reflection.
Proof. apply orbit_1D_count. Qed.
Print Assumptions C42_count.
(** the orbit consists of the products of the requested symmetries *)
Theorem C42_generated L translation reflection spinflip fT fR fS A : 0 < L ->
  In A (map fst (get_orbit_1D L translation reflection spinflip fT fR fS)) <-> generated L (ring_symmetry L translation reflection spinflip) A.
Proof. apply orbit_1D_generated. Qed.
Print Assumptions C42_generated.
Example C42_example : map fst (get_orbit_1D 3 true false false C1 C1 C1)
  = [[[0;0;1];[1;0;0];[0;1;0]]; [[0;1;0];[0;0;1];[1;0;0]]; [[1;0;0];[0;1;0];[0;0;1]]]%Z
  /\ length (get_orbit_1D 4 true true true C1 C1 C1) = 16.
Proof. split; [lazy; reflexivity|]. rewrite C42_count by lia. reflexivity. Qed.

(** ** C43: square lattices *)
Theorem C43_group L translation reflection rotation spinflip fT fR fRot fS : 0 < L ->
  is_group (L * L) (map fst (get_orbit_2D_square L translation reflection rotation spinflip fT fR fRot fS)).
Proof. apply orbit_2D_group. Qed.
Print Assumptions C43_group.
Theorem C43_generated L translation reflection rotation spinflip fT fR fRot fS A : 0 < L ->
  In A (map fst (get_orbit_2D_square L translation reflection rotation spinflip fT fR fRot fS))
  <-> generated (L * L) (square_symmetry L translation reflection rotation spinflip) A.
Proof. apply orbit_2D_generated. Qed.
Print Assumptions C43_generated.
Example C43_example : map fst (get_orbit_2D_square 2 false false true false C1 C1 C1 C1)
  = [[[0;0;0;1];[0;0;1;0];[0;1;0;0];[1;0;0;0]]; [[0;0;1;0];[1;0;0;0];[0;0;0;1];[0;1;0;0]];
     [[0;1;0;0];[0;0;0;1];[1;0;0;0];[0;0;1;0]]; [[1;0;0;0];[0;1;0;0];[0;0;1;0];[0;0;0;1]]]%Z.
Proof. lazy. reflexivity. Qed.

(** ** C65: factors on rings *)
Theorem C65_character L translation reflection spinflip fT fR fS : 0 < L -> consistent L translation reflection spinflip fT fR fS ->
  is_character L (get_orbit_1D L translation reflection spinflip fT fR fS).
Proof. apply orbit_1D_character. Qed.
Print Assumptions C65_character.
(** the generators have the factors one asked for *)
Theorem C65_generators L translation reflection spinflip fT fR fS A c : 0 < L -> consistent L translation reflection spinflip fT fR fS ->
  In (A, c) (get_orbit_1D L translation reflection spinflip fT fR fS) ->
  (identity L A -> c = C1)
  /\ (forall x, translation = true -> x < L -> moves L (fun i => (i + (L - x)) mod L) A -> c = big C1 Cmul (repeat fT x))
  /\ (reflection = true -> moves L (fun i => L - 1 - i) A -> c = fR)
  /\ (spinflip = true -> flips L A -> c = fS).
Proof.
  intros HL HC H. apply orbit_1D_factor in H as (a & r & q & HA & -> & ->); [|assumption|assumption].
  assert (U : forall a' r' q', allowed L translation reflection spinflip a' r' q' -> smat L (sgz q) (fz L r (Z.of_nat a)) = smat L (sgz q') (fz L r' (Z.of_nat a')) -> fac fT fR fS a r q = fac fT fR fS a' r' q').
  { intros a' r' q' HA' E. now apply (fac_unique L translation reflection spinflip). }
  split; [|split; [|split]].
  - intros HI. rewrite (U 0 false false); [unfold fac; cbn [Cpow]; ring|repeat split; auto; discriminate|]. rewrite (identity_smat _ _ HI). apply smat_ext. intros i Hi. change (Z.of_nat 0) with 0%Z. now rewrite fz_id.
  - intros x HT Hx HM. rewrite (U x false false); [unfold fac; rewrite Cpow_big; ring|repeat split; auto; discriminate|]. rewrite (moves_smat _ _ _ HM). apply smat_ext. intros i Hi. rewrite <- roll_index by assumption. now rewrite (Nat.mod_small x).
  - intros HR HM. rewrite (U 0 true false); [unfold fac; cbn [Cpow]; ring|repeat split; auto; discriminate|]. rewrite (moves_smat _ _ _ HM). apply smat_ext. intros i Hi. now apply rev_index.
  - intros HS HM. rewrite (U 0 false true); [unfold fac; cbn [Cpow]; ring|repeat split; auto; discriminate|]. rewrite (flips_smat _ _ HM). apply smat_ext. intros i Hi. change (Z.of_nat 0) with 0%Z. now rewrite fz_id.
Qed.
Print Assumptions C65_generators.
Example C65_example : consistent 4 true true true (Copp C1) (Copp C1) C1.
Proof. unfold consistent. cbn [repeat]. unfold big. cbn [fold_right]. repeat split; intros; try lia; try ring. Qed.
(** without consistency of the requested factors the code silently drops one of them *)
Theorem C65_dropped_refuted : exists L fT fR, 0 < L /\ big C1 Cmul (repeat fT L) = C1 /\ Cmul fR fR = C1 /\ Cmul fT fT = C1 /\
  exists A c, In (A, c) (get_orbit_1D L true true false fT fR C1) /\ moves L (fun i => (i + 1) mod L) A /\ c <> fT.
Proof.
  exists 2, (Copp C1), C1. split; [lia|]. split; [unfold big; cbn; ring|]. split; [ring|]. split; [ring|].
  exists [[0;1];[1;0]]%Z. eexists. split; [lazy; left; reflexivity|]. split.
  - split; [split; [reflexivity|repeat constructor]|]. intros i j Hi Hj. destruct i as [|[|]], j as [|[|]]; try lia; reflexivity.
  - intros H. apply (f_equal fst) in H. cbn in H. lra.
Qed.
Print Assumptions C65_dropped_refuted.

(** ** C44: SymNet *)
(** an orbit element permutes the sites (and flips the spins) *)
Theorem C44_action n A s t : signed_permutation n A -> length s = n -> (sym_act A s = t <-> acts A s t).
Proof. intros H Hs. split; [intros <-; now apply (sym_act_acts n)|]. intros HA. symmetry. now apply (acts_unique n). Qed.
Print Assumptions C44_action.
Theorem C44_exp n lDim orbit net B b s t : is_group n (map fst orbit) -> is_character n orbit -> Forall (fits lDim) (map fst orbit) ->
  In s (all_configs lDim n) -> In (B, b) orbit -> acts B s t ->
  csum (map (fun Ac => Cmul (snd Ac) (Cexp (net (sym_act (fst Ac) s)))) orbit) <> C0 ->
  Cmul b (Cexp (sym_net avgFun_Coefficients_Exp orbit net t)) = Cexp (sym_net avgFun_Coefficients_Exp orbit net s).
Proof.
  intros HG HX HF Hs HB HA HN. pose proof (in_map fst _ _ HB) as HB'. cbn in HB'. pose proof Hs as Hs'. apply in_all_configs in Hs' as [Hl _].
  rewrite (acts_unique n B s t (group_signed n _ B HG HB') Hl HA). unfold sym_net. rewrite !exp_amp.
  pose proof (amp_transform n lDim orbit net B b s HG HX HF Hs HB) as E. change (amp orbit net s <> C0) in HN.
  rewrite (Cexp_Clog (amp orbit net s)) by assumption. rewrite Cexp_Clog; [exact E|]. intros Z0. apply HN. rewrite <- E, Z0. ring.
Qed.
Print Assumptions C44_exp.
Theorem C44_invariant_exp n lDim orbit net B b s t : is_group n (map fst orbit) -> (forall A a, In (A, a) orbit -> a = C1) -> Forall (fits lDim) (map fst orbit) ->
  In s (all_configs lDim n) -> In (B, b) orbit -> acts B s t ->
  sym_net avgFun_Coefficients_Exp orbit net t = sym_net avgFun_Coefficients_Exp orbit net s.
Proof.
  intros HG H1 HF Hs HB HA. pose proof (in_map fst _ _ HB) as HB'. cbn in HB'. pose proof Hs as Hs'. apply in_all_configs in Hs' as [Hl _].
  rewrite (acts_unique n B s t (group_signed n _ B HG HB') Hl HA). unfold sym_net. rewrite !exp_amp. f_equal.
  rewrite <- (amp_transform n lDim orbit net B b s HG) ; auto; [rewrite (H1 _ _ HB); ring|]. intros A1 a1 A2 a2 A3 a3 I1 I2 I3 _. rewrite (H1 _ _ I1), (H1 _ _ I2), (H1 _ _ I3). ring.
Qed.
Print Assumptions C44_invariant_exp.
Theorem C44_invariant_log n lDim orbit net B b s t : is_group n (map fst orbit) -> Forall (fits lDim) (map fst orbit) ->
  In s (all_configs lDim n) -> In (B, b) orbit -> acts B s t ->
  sym_net avgFun_Coefficients_Log orbit net t = sym_net avgFun_Coefficients_Log orbit net s.
Proof.
  intros HG HF Hs HB HA. pose proof (in_map fst _ _ HB) as HB'. cbn in HB'. pose proof Hs as Hs'. apply in_all_configs in Hs' as [Hl _].
  rewrite (acts_unique n B s t (group_signed n _ B HG HB') Hl HA). unfold sym_net, avgFun_Coefficients_Log. rewrite !map_length. f_equal.
  apply (csum_invariant n lDim orbit net B s); auto.
Qed.
Print Assumptions C44_invariant_log.
Theorem C44_invariant_sep n lDim orbit net B b s t : is_group n (map fst orbit) -> Forall (fits lDim) (map fst orbit) ->
  In s (all_configs lDim n) -> In (B, b) orbit -> acts B s t ->
  sym_net avgFun_Coefficients_Sep orbit net t = sym_net avgFun_Coefficients_Sep orbit net s.
Proof.
  intros HG HF Hs HB HA. pose proof (in_map fst _ _ HB) as HB'. cbn in HB'. pose proof Hs as Hs'. apply in_all_configs in Hs' as [Hl _].
  rewrite (acts_unique n B s t (group_signed n _ B HG HB') Hl HA). unfold sym_net, avgFun_Coefficients_Sep. rewrite !map_length, !map_map.
  rewrite (rsum_invariant n lDim orbit (fun s => exp (2 * Re (net s))) B s), (csum_invariant n lDim orbit (fun s => Cexp (0, Im (net s))%R) B s); auto.
Qed.
Print Assumptions C44_invariant_sep.
(** the ring orbits fulfil the hypotheses *)
Theorem C44_ring L translation reflection spinflip fT fR fS net B b s t : 0 < L -> consistent L translation reflection spinflip fT fR fS ->
  In s (all_configs 2 L) -> In (B, b) (get_orbit_1D L translation reflection spinflip fT fR fS) -> acts B s t ->
  csum (map (fun Ac => Cmul (snd Ac) (Cexp (net (sym_act (fst Ac) s)))) (get_orbit_1D L translation reflection spinflip fT fR fS)) <> C0 ->
  Cmul b (Cexp (sym_net avgFun_Coefficients_Exp (get_orbit_1D L translation reflection spinflip fT fR fS) net t))
  = Cexp (sym_net avgFun_Coefficients_Exp (get_orbit_1D L translation reflection spinflip fT fR fS) net s).
Proof.
  intros HL HC Hs HB HA HN. apply (C44_exp L 2 _ net B b s t); auto; [now apply C42_group|now apply C65_character|]. apply Forall_forall. intros. now left.
Qed.
Print Assumptions C44_ring.
(** the documented average, up to the number of operations *)
Theorem C44_average_partial orbit net s : (forall A a, In (A, a) orbit -> a = C1) -> csum (map (fun Ac => Cexp (net (sym_act (fst Ac) s))) orbit) <> C0 ->
  Cexp (sym_net avgFun_Coefficients_Exp orbit net s)
  = Cmul (RtoC (INR (length orbit))) (Cdiv (csum (map (fun Ac => Cexp (net (sym_act (fst Ac) s))) orbit)) (RtoC (INR (length orbit)))).
Proof.
  intros H1 HN. assert (E : amp orbit net s = csum (map (fun Ac => Cexp (net (sym_act (fst Ac) s))) orbit)).
  { unfold amp. apply csum_ext. intros (A, a) H. cbn [fst snd]. rewrite (H1 _ _ H). ring. }
  unfold sym_net. rewrite exp_amp, E, Cexp_Clog by assumption. field. intros H. apply RtoC_inj in H. destruct orbit; [apply HN; reflexivity|]. apply (not_0_INR (length (p :: orbit))); [discriminate|exact H].
Qed.
Print Assumptions C44_average_partial.
Theorem C44_average_refuted : exists L net s, In s (all_configs 2 L) /\ let orbit := get_orbit_1D L true false false C1 C1 C1 in
  Cexp (sym_net avgFun_Coefficients_Exp orbit net s)
  <> Cdiv (csum (map (fun Ac => Cexp (net (sym_act (fst Ac) s))) orbit)) (RtoC (INR (length orbit))).
Proof.
  exists 2, (fun _ => C0), [0; 1]. split; [cbn; auto|]. intros orbit. unfold sym_net. rewrite (exp_amp orbit (fun _ => C0) [0; 1]). subst orbit.
  assert (HL : length (get_orbit_1D 2 true false false C1 C1 C1) = 2) by (rewrite C42_count by lia; reflexivity).
  assert (H1 : forall A a, In (A, a) (get_orbit_1D 2 true false false C1 C1 C1) -> a = C1).
  { intros A a H. apply orbit_1D_factor in H as (x & r & q & (_ & _ & Hr & Hq) & _ & ->); [|lia|]. destruct r; [now specialize (Hr eq_refl)|]. destruct q; [now specialize (Hq eq_refl)|]. unfold fac. rewrite Cpow_1. ring.
    unfold consistent. unfold big. cbn [repeat fold_right]. repeat split; intros; try discriminate; try ring. }
  assert (E : amp (get_orbit_1D 2 true false false C1 C1 C1) (fun _ => C0) [0; 1] = RtoC 2).
  { destruct (get_orbit_1D 2 true false false C1 C1 C1) as [|(A, a) [|(B, b) [|]]]; try discriminate HL. unfold amp. cbn [map fst snd]. rewrite (H1 A a), (H1 B b), Cexp_C0 by (cbn; auto). rewrite !csum_cons, csum_nil. Cring. }
  rewrite E, Cexp_Clog by (intros X; apply (f_equal fst) in X; cbn in X; lra). destruct (get_orbit_1D 2 true false false C1 C1 C1) as [|(A, a) [|(B, b) [|]]]; try discriminate HL.
  cbn [map fst length]. rewrite !csum_cons, csum_nil, Cexp_C0. replace (INR 2) with 2%R by (cbn; lra). intros X. apply (f_equal fst) in X. cbn in X. unfold Cnorm2 in X. cbn in X.
  assert (Y : ((1 + (1 + 0)) * (2 / (2 * 2 + 0 * 0)) - (0 + (0 + 0)) * (- 0 / (2 * 2 + 0 * 0)) = 1)%R) by field. lra.
Qed.
Print Assumptions C44_average_refuted.
Example C44_example : consistent 3 true true true C1 (Copp C1) (Copp C1) /\ In [0;1;1] (all_configs 2 3) /\ acts [[0;1;0];[0;0;1];[1;0;0]]%Z [0;1;1] [1;1;0].
Proof.
  split; [|split].
  - unfold consistent. unfold big. cbn [repeat fold_right]. repeat split; intros; try lia; try ring.
  - apply in_all_configs. split; [reflexivity|]. repeat constructor.
  - split; [reflexivity|]. cbn [length]. intros i j Hi Hj. destruct i as [|[|[|]]], j as [|[|[|]]]; try lia; split; intros H; try discriminate H; reflexivity.
Qed.

(** ** C37: direct sampling with symmetries *)
Lemma inverse_list n lDim G : is_group n G -> Forall (fits lDim) G ->
  exists G', Permutation G' G /\ Forall2 (fun A B => forall s, In s (all_configs lDim n) -> sym_act A (sym_act B s) = s /\ sym_act B (sym_act A s) = s) G G'.
Proof.
  intros HG HF. pose proof HG as (_ & HN & _ & _ & HI).
  assert (X : forall l, incl l G -> NoDup l -> exists l', length l' = length l /\ NoDup l' /\ incl l' G /\ Forall2 (fun A B => exists I, identity n I /\ is_product n A B I /\ is_product n B A I) l l').
  { induction l as [|A l IH]; intros Hi Hn; [exists []; repeat split; try constructor; intros ? []|]. inversion Hn; subst.
    destruct IH as (l' & HL & Hn' & Hi' & HF2); [intros x Hx; apply Hi; cbn; auto|assumption|]. destruct (HI A (Hi A (or_introl eq_refl))) as (B & I & HB & Id & P1' & P2').
    exists (B :: l'). split; [cbn; lia|]. split; [|split].
    - constructor; [|assumption]. intros HBl. apply H1. assert (Y : exists A', In A' l /\ exists I, identity n I /\ is_product n A' B I /\ is_product n B A' I).
      { clear -HF2 HBl. induction HF2 as [|x y l l' HP HF2 IH]; [destruct HBl|]. destruct HBl as [->|HBl]; [exists x; split; [now left|assumption]|]. destruct (IH HBl) as (A' & HA' & E). exists A'. split; [now right|assumption]. }
      destruct Y as (A' & HA' & I' & Id' & Q1 & Q2). assert (A = A') as ->; [|exact HA'].
      assert (SA : signed_permutation n A) by (apply (group_signed n G); auto; apply Hi; now left). assert (SA' : signed_permutation n A') by (apply (group_signed n G); auto; apply Hi; now right). assert (SB : signed_permutation n B) by (apply (group_signed n G); auto).
      apply (mul_inj n A A' B); auto. rewrite <- (product_mul n A B I), <- (product_mul n A' B I') by assumption. rewrite (identity_smat n I Id), (identity_smat n I' Id'). reflexivity.
    - intros x [<-|Hx]; auto.
    - constructor; [exists I; auto|assumption]. }
  destruct (X G (incl_refl G) HN) as (G' & HL & Hn & Hi & HF2). exists G'. split; [apply NoDup_Permutation_bis; auto; lia|].
  assert (HS : forall A, In A G -> signed_permutation n A) by (intros; now apply (group_signed n G)). rewrite Forall_forall in HF. clear -HF2 Hi HS HF.
  assert (Y : forall l l', incl l G -> incl l' G -> Forall2 (fun A B => exists I, identity n I /\ is_product n A B I /\ is_product n B A I) l l' ->
    Forall2 (fun A B => forall s, In s (all_configs lDim n) -> sym_act A (sym_act B s) = s /\ sym_act B (sym_act A s) = s) l l').
  { intros l l' Y1 Y2 H2. induction H2 as [|A B l l' (I & Id & P1' & P2') H2 IH]; constructor.
    - intros s Hs. assert (IA : In A G) by (apply Y1; now left). assert (IB : In B G) by (apply Y2; now left). split; (rewrite (sym_act_product n lDim _ _ I); auto); now apply (sym_act_id n lDim).
    - apply IH; intros x Hx; [apply Y1|apply Y2]; now right. }
  apply Y; auto. apply incl_refl.
Qed.
Lemma randomized_Pr n lDim orbit plain (p : config -> R) t : is_group n (map fst orbit) -> Forall (fits lDim) (map fst orbit) ->
  (forall s, outcome plain s -> In s (all_configs lDim n)) -> (forall s, In s (all_configs lDim n) -> Pr plain s = p s) -> In t (all_configs lDim n) ->
  Pr (randomized_sample orbit plain) t = (rsum (map (fun of => p (sym_act (fst of) t)) orbit) / INR (length orbit))%R.
Proof.
  intros HG HF HO HP Ht. unfold Pr, randomized_sample. rewrite E_bind.
  transitivity (E plain (fun s => / INR (length orbit) * rsum (map (fun of : mat * C => if config_eq_dec (sym_act (fst of) s) t then 1 else 0) orbit))%R).
  { apply E_ext. intros s _. rewrite E_bind. unfold randint. rewrite E_uniform, seq_length, Nat.sub_0_r. f_equal.
    rewrite <- (map_nth_seq orbit ([], C0)) at 2. rewrite map_map. apply rsum_ext. intros i _. rewrite E_ret. reflexivity. }
  rewrite E_scal. rewrite (E_rsum (B := mat * C) plain orbit (fun s of => if config_eq_dec (sym_act (fst of) s) t then 1 else 0)%R). unfold Rdiv. rewrite Rmult_comm. f_equal.
  destruct (inverse_list n lDim (map fst orbit) HG HF) as (G' & HPm & HF2).
  rewrite <- (map_map fst (fun A => p (sym_act A t))). refine (eq_trans _ (rsum_perm _ _ (Permutation_map (fun A => p (sym_act A t)) HPm))).
  assert (HIn : forall B, In B G' -> In B (map fst orbit)) by (intros B HB; now apply (Permutation_in B HPm)).
  rewrite <- (map_map fst (fun A => E plain (fun a => if config_eq_dec (sym_act A a) t then 1 else 0)%R)).
  assert (HR : forall B, In B (map fst orbit) -> In (sym_act B t) (all_configs lDim n)).
  { intros B HB. apply sym_act_range; [now apply (group_signed n (map fst orbit))| |assumption]. rewrite Forall_forall in HF. auto. }
  clear HPm HG HF. set (G := map fst orbit) in HF2 |- *. change (map fst orbit) with G. clearbody G. induction HF2 as [|A B l l' HAB HF2 IH]; [reflexivity|].
  cbn [map]. rewrite !rsum_cons. f_equal; [|apply IH; intros; apply HIn; now right]. rewrite <- HP by (apply HR, HIn; now left). unfold Pr. apply E_ext. intros s Hs. specialize (HO s Hs).
  destruct (config_eq_dec (sym_act A s) t) as [e|ne], (config_eq_dec s (sym_act B t)) as [e'|ne']; try reflexivity; exfalso.
  - apply ne'. rewrite <- e. symmetry. now apply HAB.
  - apply ne. rewrite e'. now apply HAB.
Qed.
Lemma sep_born orbit net t : orbit <> [] -> born (1 / 2) (fun s => Re (sym_net avgFun_Coefficients_Sep orbit net s)) t = (rsum (map (fun of => exp (2 * Re (net (sym_act (fst of) t)))) orbit) / INR (length orbit))%R.
Proof.
  intros HN. unfold born, sym_net, avgFun_Coefficients_Sep. cbn [Re fst]. rewrite map_length, map_map.
  match goal with |- exp (1 / 2 * ln ?x / (1 / 2)) = _ => replace (1 / 2 * ln x / (1 / 2))%R with (ln x) by field end.
  apply exp_ln. apply Rdiv_lt_0_compat; [apply rsum_map_pos; [assumption|]; intros; apply exp_pos|]. apply lt_0_INR. destruct orbit; [congruence|cbn; lia].
Qed.
Theorem C37_distribution_partial n lDim orbit plain net t :
  is_group n (map fst orbit) -> Forall (fits lDim) (map fst orbit) ->
  (forall s, outcome plain s -> In s (all_configs lDim n)) ->
  (forall s, In s (all_configs lDim n) -> Pr plain s = born (1 / 2) (fun s => Re (net s)) s) ->
  In t (all_configs lDim n) ->
  Pr (randomized_sample orbit plain) t = born (1 / 2) (fun s => Re (sym_net avgFun_Coefficients_Sep orbit net s)) t.
Proof.
  intros HG HF HO HP Ht. assert (HN : orbit <> []) by (intros ->; destruct HG as (_ & _ & (I & [] & _) & _)).
  rewrite sep_born by assumption. rewrite (randomized_Pr n lDim orbit plain (born (1 / 2) (fun s => Re (net s)))) by assumption.
  f_equal. apply rsum_ext. intros of _. unfold born. f_equal. field.
Qed.
Print Assumptions C37_distribution_partial.
Lemma sum_Pr (space : list config) m : NoDup space -> (forall s, outcome m s -> In s space) -> rsum (map (Pr m) space) = mass m.
Proof.
  intros HN HO. unfold Pr. rewrite <- (E_rsum m space (fun s t => if config_eq_dec s t then 1 else 0)%R). rewrite mass_E. apply E_ext. intros s Hs. specialize (HO s Hs). clear -HN HO.
  induction HN as [|x l Hx HN IH]; [destruct HO|]. cbn [map]. rewrite rsum_cons. destruct (config_eq_dec s x) as [->|N].
  - assert (E0 : rsum (map (fun t => if config_eq_dec x t then 1%R else 0%R) l) = 0%R).
    { refine (eq_trans _ (rsum_zero l)). apply rsum_ext. intros y Hy. destruct (config_eq_dec x y) as [->|]; [contradiction|reflexivity]. }
    rewrite E0. lra.
  - rewrite IH; [lra|]. destruct HO as [->|HO]; [congruence|exact HO].
Qed.
Theorem C37_normalised_partial n lDim orbit plain net :
  is_group n (map fst orbit) -> Forall (fits lDim) (map fst orbit) -> mass plain = 1%R ->
  (forall s, outcome plain s -> In s (all_configs lDim n)) ->
  (forall s, In s (all_configs lDim n) -> Pr plain s = born (1 / 2) (fun s => Re (net s)) s) ->
  rsum (map (born (1 / 2) (fun s => Re (sym_net avgFun_Coefficients_Sep orbit net s))) (all_configs lDim n)) = 1%R.
Proof.
  intros HG HF HM HO HP. assert (HN : orbit <> []) by (intros ->; destruct HG as (_ & _ & (I & [] & _) & _)).
  rewrite <- (rsum_ext (Pr (randomized_sample orbit plain))) by (intros t Ht; now apply (C37_distribution_partial n lDim)).
  rewrite sum_Pr; [|apply NoDup_all_configs|].
  - unfold randomized_sample. rewrite mass_bind; [assumption|]. intros s _. rewrite mass_bind; [|intros; apply mass_ret]. apply mass_uniform. destruct orbit; [congruence|discriminate].
  - intros t Ht. apply outcome_bind in Ht as (s & Hs & Ht). apply outcome_bind in Ht as (i & Hi & Ht). apply outcome_uniform, in_seq in Hi. apply outcome_ret in Ht. subst t.
    assert (HI : In (fst (nth i orbit ([], C0))) (map fst orbit)) by (apply in_map, nth_In; destruct Hi as [_ Hi]; cbn [Nat.add] in Hi; rewrite Nat.sub_0_r in Hi; exact Hi).
    apply sym_act_range; [now apply (group_signed n (map fst orbit))| |auto]. rewrite Forall_forall in HF. auto.
Qed.
Print Assumptions C37_normalised_partial.
(** with another logProbFactor the network reports other probabilities than those of the samples *)
Theorem C37_lpf_refuted : exists n orbit plain net t,
  is_group n (map fst orbit) /\ mass plain = 1%R /\ (forall s, outcome plain s -> In s (all_configs 2 n))
  /\ (forall s, In s (all_configs 2 n) -> Pr plain s = born 1 (fun s => Re (net s)) s) /\ In t (all_configs 2 n)
  /\ Pr (randomized_sample orbit plain) t <> born 1 (fun s => Re (sym_net avgFun_Coefficients_Sep orbit net s)) t.
Proof.
  set (p := fun s : config => if config_eq_dec s [0] then (1 / 4)%R else (3 / 4)%R).
  exists 1, (get_orbit_1D 1 false false true C1 C1 C1), [((1/4)%R, [0]); ((3/4)%R, [1])], (fun s => RtoC (ln (p s))), [0].
  assert (HP : forall s, In s (all_configs 2 1) -> Pr [((1/4)%R, [0]); ((3/4)%R, [1])] s = p s).
  { intros s Hs. cbn in Hs. unfold Pr, E, p. cbn [map fst snd]. rewrite !rsum_cons, rsum_nil. destruct Hs as [<-|[<-|[]]]; destruct (config_eq_dec [0] _), (config_eq_dec [1] _); try congruence; cbn; try lra; destruct (config_eq_dec _ _); try congruence; lra. }
  assert (Pp : forall s, (0 < p s)%R) by (intros s; unfold p; destruct (config_eq_dec s [0]); lra).
  assert (HG : is_group 1 (map fst (get_orbit_1D 1 false false true C1 C1 C1))) by (apply C42_group; lia).
  assert (HO : forall s, outcome [((1/4)%R, [0]); ((3/4)%R, [1])] s -> In s (all_configs 2 1)) by (intros s [<-|[<-|[]]]; cbn; auto).
  split; [exact HG|]. split; [unfold mass; cbn [map fst]; rewrite !rsum_cons, rsum_nil; lra|]. split; [exact HO|]. split.
  { intros s Hs. rewrite HP by assumption. unfold born. cbn [Re RtoC fst]. unfold Rdiv at 1. rewrite Rinv_1, Rmult_1_r, exp_ln; auto. }
  split; [cbn; auto|].
  rewrite (randomized_Pr 1 2 _ _ p); auto; [|apply Forall_forall; intros; now left|cbn; auto].
  unfold born, sym_net, avgFun_Coefficients_Sep. cbn [Re fst]. rewrite map_length, map_map.
  assert (EO : map fst (get_orbit_1D 1 false false true C1 C1 C1) = [[[-1]]; [[1]]]%Z) by (lazy; reflexivity).
  assert (HL : length (get_orbit_1D 1 false false true C1 C1 C1) = 2) by (rewrite C42_count by lia; reflexivity).
  rewrite HL. rewrite <- (map_map fst (fun A => p (sym_act A [0]))). rewrite <- (map_map fst (fun A => exp (2 * Re (RtoC (ln (p (sym_act A [0]))))))). rewrite EO. cbn [map].
  change (sym_act [[-1]]%Z [0]) with [1]. change (sym_act [[1]]%Z [0]) with [0]. rewrite !rsum_cons, !rsum_nil. cbn [RtoC Re fst].
  assert (E2 : forall s, exp (2 * ln (p s)) = (p s * p s)%R) by (intros s; replace (2 * ln (p s))%R with (ln (p s) + ln (p s))%R by ring; rewrite exp_plus, exp_ln; auto).
  rewrite !E2. replace (p [0]) with (1/4)%R by reflexivity. replace (p [1]) with (3/4)%R by reflexivity. replace (INR 2) with 2%R by (cbn; lra).
  intros H. set (x := ((3 / 4 * (3 / 4) + (1 / 4 * (1 / 4) + 0)) / 2)%R) in *. assert (Hx : x = (5/16)%R) by (unfold x; lra).
  assert (Q : (exp (1 / 2 * ln x / 1) * exp (1 / 2 * ln x / 1) = x)%R).
  { rewrite <- exp_plus. replace (1 / 2 * ln x / 1 + 1 / 2 * ln x / 1)%R with (ln x) by field. apply exp_ln. lra. }
  rewrite <- H, Hx in Q. assert (HL' : @length (list (list Z) * C) (get_orbit_1D 1 false false true C1 C1 C1) = 2) by exact HL. rewrite HL' in Q. replace (INR 2) with 2%R in Q by (cbn; lra). lra.
Qed.
Print Assumptions C37_lpf_refuted.
Lemma born_Clog a : a <> C0 -> exp (Re (Clog a) / (1 / 2)) = Cnorm2 a.
Proof.
  intros H. rewrite <- (Cexp_Clog a H) at 2. rewrite Cexp_norm2, <- exp_plus. f_equal. field.
Qed.
(** with the default average of the coefficients the samples do not follow the distribution of the network,
    not even up to normalisation *)
Theorem C37_exp_refuted : exists n orbit plain net s t,
  is_group n (map fst orbit) /\ (forall A c, In (A, c) orbit -> c = C1) /\ mass plain = 1%R /\ (forall s, outcome plain s -> In s (all_configs 2 n))
  /\ (forall s, In s (all_configs 2 n) -> Pr plain s = born (1 / 2) (fun s => Re (net s)) s) /\ In s (all_configs 2 n) /\ In t (all_configs 2 n)
  /\ (Pr (randomized_sample orbit plain) s * born (1 / 2) (fun s => Re (sym_net avgFun_Coefficients_Exp orbit net s)) t
      <> Pr (randomized_sample orbit plain) t * born (1 / 2) (fun s => Re (sym_net avgFun_Coefficients_Exp orbit net s)) s)%R.
Proof.
  set (q := fun s : config => if nth 1 s 0 =? 0 then (7 / 10)%R else (1 / 10)%R).
  set (d := map (fun s => ((q s * q s)%R, s)) (all_configs 2 2)).
  exists 2, (get_orbit_1D 2 true false false C1 C1 C1), d, (fun s => RtoC (ln (q s))), [0; 1], [0; 0].
  assert (Pq : forall s, (0 < q s)%R) by (intros s; unfold q; destruct (nth 1 s 0 =? 0); lra).
  assert (HG : is_group 2 (map fst (get_orbit_1D 2 true false false C1 C1 C1))) by (apply C42_group; lia).
  assert (EO : get_orbit_1D 2 true false false C1 C1 C1 = [([[0;1];[1;0]]%Z, Cmul (Cpow C1 1) C1); ([[1;0];[0;1]]%Z, Cmul C1 C1)]) by reflexivity.
  assert (HP : forall s, In s (all_configs 2 2) -> Pr d s = (q s * q s)%R).
  { intros s Hs. unfold Pr, E, d. cbn in Hs. cbn [all_configs seq flat_map map app fst snd]. rewrite !rsum_cons, rsum_nil.
    destruct Hs as [<-|[<-|[<-|[<-|[]]]]]; repeat (destruct (config_eq_dec _ _); try congruence); lra. }
  assert (HO : forall s, outcome d s -> In s (all_configs 2 2)) by (intros s Hs; unfold outcome, d in Hs; rewrite map_map in Hs; cbn [snd] in Hs; now rewrite map_id in Hs).
  split; [exact HG|]. split.
  { rewrite EO. intros A c [H|[H|[]]]; inversion H; cbn [Cpow]; ring. }
  split; [unfold mass, d; rewrite map_map; cbn; lra|]. split; [exact HO|]. split.
  { intros s Hs. rewrite HP by exact Hs. unfold born. cbn [Re RtoC fst]. replace (ln (q s) / (1 / 2))%R with (ln (q s) + ln (q s))%R by field. now rewrite exp_plus, exp_ln. }
  split; [cbn; auto|]. split; [cbn; auto|].
  rewrite !(randomized_Pr 2 2 _ _ (fun s => (q s * q s)%R)) by (first [exact HG|apply Forall_forall; intros; now left|exact HO|exact HP|cbn; auto]).
  assert (EA : forall s, In s [[0; 1]; [0; 0]] -> born (1 / 2) (fun s => Re (sym_net avgFun_Coefficients_Exp (get_orbit_1D 2 true false false C1 C1 C1) (fun s => RtoC (ln (q s))) s)) s
             = ((q (rev s) + q s) * (q (rev s) + q s))%R).
  { intros s Hs. unfold born, sym_net, avgFun_Coefficients_Exp. rewrite EO. unfold map2. cbn [map fst snd combine].
    assert (A1 : sym_act [[0; 1]; [1; 0]]%Z s = rev s) by (destruct Hs as [<-|[<-|[]]]; reflexivity).
    assert (A2 : sym_act [[1; 0]; [0; 1]]%Z s = s) by (destruct Hs as [<-|[<-|[]]]; reflexivity).
    rewrite A1, A2. rewrite !csum_cons, csum_nil, !Cexp_RtoC, !exp_ln by auto. rewrite born_Clog.
    - unfold Cnorm2. cbn [Cpow]. cbn. ring.
    - intros X. apply (f_equal fst) in X. cbn in X. pose proof (Pq s). pose proof (Pq (rev s)). lra. }
  rewrite !EA by (cbn; auto). rewrite EO. cbn [map fst length rev app].
  change (sym_act [[0; 1]; [1; 0]]%Z [0; 1]) with [1; 0]. change (sym_act [[1; 0]; [0; 1]]%Z [0; 1]) with [0; 1].
  change (sym_act [[0; 1]; [1; 0]]%Z [0; 0]) with [0; 0]. change (sym_act [[1; 0]; [0; 1]]%Z [0; 0]) with [0; 0].
  rewrite !rsum_cons, !rsum_nil. unfold q. cbn [nth Nat.eqb]. replace (INR 2) with 2%R by (cbn; lra). lra.
Qed.
Print Assumptions C37_exp_refuted.
Example C37_example : exists (net : config -> C), let plain := [((1/4)%R, [0]); ((3/4)%R, [1])] in
  is_group 1 (map fst (get_orbit_1D 1 false false true C1 C1 C1)) /\ mass plain = 1%R
  /\ forall s, In s (all_configs 2 1) -> Pr plain s = born (1 / 2) (fun s => Re (net s)) s.
Proof.
  exists (fun s : config => if config_eq_dec s [0] then RtoC (1 / 2 * ln (1 / 4)) else RtoC (1 / 2 * ln (3 / 4))). split; [apply C42_group; lia|]. split; [unfold mass; cbn [map fst]; rewrite !rsum_cons, rsum_nil; lra|].
  intros s Hs. cbn in Hs. unfold Pr, E, born. cbn [map fst snd]. rewrite !rsum_cons, rsum_nil.
  assert (E1 : (exp (1 / 2 * ln (1 / 4) / (1 / 2)) = 1 / 4)%R) by (replace (1 / 2 * ln (1 / 4) / (1 / 2))%R with (ln (1/4)) by field; apply exp_ln; lra).
  assert (E3 : (exp (1 / 2 * ln (3 / 4) / (1 / 2)) = 3 / 4)%R) by (replace (1 / 2 * ln (3 / 4) / (1 / 2))%R with (ln (3/4)) by field; apply exp_ln; lra).
  destruct Hs as [<-|[<-|[]]]; destruct (config_eq_dec [0] _), (config_eq_dec [1] _); try congruence; cbn [Re RtoC fst]; try (destruct (config_eq_dec _ _); try congruence); cbn [Re RtoC fst]; rewrite ?E1, ?E3; lra.
Qed.
