(** The orbits are generated by the requested symmetries; multiplicativity of the factors. *)
From Coq Require Import ZArith List Reals Lra Lia Bool Arith Permutation.
From Verif Require Import Base Cplx Stats_Model BranchFree_Model Dist Sampler_Model Sampler_Spec Sampler2_Proofs Exact_Proofs Sym_Model Sym_Spec Sym_Proofs Sym2_Proofs Sym3_Proofs Sym4_Proofs.
Import ListNotations.

Lemma moves_smat n f A : moves n f A -> A = smat n 1 f.
Proof. intros [HS H]. apply (square_ext n); [assumption|apply smat_square|]. intros i j Hi Hj. rewrite smat_entry by assumption. auto. Qed.
Lemma smat_moves n f : moves n f (smat n 1 f).
Proof. split; [apply smat_square|]. intros. now apply smat_entry. Qed.
Lemma flips_smat n A : flips n A -> A = smat n (-1) (fun i => i).
Proof. intros [HS H]. apply (square_ext n); [assumption|apply smat_square|]. intros i j Hi Hj. rewrite smat_entry by assumption. auto. Qed.
Lemma smat_flips n : flips n (smat n (-1) (fun i => i)).
Proof. split; [apply smat_square|]. intros. now apply smat_entry. Qed.
Lemma identity_smat n A : identity n A -> A = smat n 1 (fun i => i).
Proof. intros [HS H]. apply (square_ext n); [assumption|apply smat_square|]. intros i j Hi Hj. rewrite smat_entry by assumption. auto. Qed.
(** one more generator *)
Lemma gen_step n gens sg f tu g h : (forall i, i < n -> f i < n) -> generated n gens (smat n sg f) -> gens (smat n tu g) -> (forall i, i < n -> h i = g (f i)) -> generated n gens (smat n (sg * tu) h).
Proof. intros Hf HA HB E. rewrite (smat_ext n _ h (fun i => g (f i)) E). eapply gen_mul; [exact HA|exact HB|]. now apply smat_product. Qed.
Lemma generated_in n (gens : mat -> Prop) G : is_group n G -> (forall A, gens A -> In A G) -> forall A, generated n gens A -> In A G.
Proof.
  intros HG Hg A H. induction H as [A H|A B D HA IH HB HP].
  - pose proof HG as (_ & _ & (I & HI & Id) & _). now rewrite (identity_smat n A H), <- (identity_smat n I Id).
  - rewrite (product_mul n A B D); [apply (group_mul n); auto| | |assumption]; apply (group_signed n G); auto.
Qed.

Lemma step_index L i : 0 < L -> i < L -> (i + 1) mod L = fz L false (-1) i.
Proof.
  intros HL Hi. unfold fz, cz. cbn [sgz shz]. rewrite <- (Nat2Z.id ((i + 1) mod L)), Nat2Z.inj_mod. f_equal. f_equal. lia.
Qed.
Lemma fz_k L r k i : 0 < L -> fz L r (- Z.of_nat (Z.to_nat ((- k) mod Z.of_nat L))) i = fz L r k i.
Proof.
  intros HL. pose proof (Z.mod_pos_bound (- k) (Z.of_nat L) ltac:(lia)). rewrite Z2Nat.id by lia. rewrite <- (fz_mod L r (- _)), <- (fz_mod L r k). f_equal.
  rewrite <- Z.sub_0_l, Zminus_mod_idemp_r. f_equal. ring.
Qed.
Lemma orbit_1D_generated L uT uR uS fT fR fS A : 0 < L -> In A (map fst (get_orbit_1D L uT uR uS fT fR fS)) <-> generated L (ring_symmetry L uT uR uS) A.
Proof.
  intros HL. pose proof (orbit_1D_group L uT uR uS fT fR fS HL) as HG.
  destruct (unique_mats L (raw_1D L uT uR uS fT fR fS) (raw_1D_square _ _ _ _ _ _ _ HL)) as [_ HI].
  assert (HM : forall A, In A (map fst (get_orbit_1D L uT uR uS fT fR fS)) <-> exists sg f, P1 L uT uR uS sg f /\ A = smat L sg f) by (intros; rewrite <- (raw_1D_mats L uT uR uS fT fR fS) by assumption; apply HI).
  split.
  - intros H. apply HM in H as (sg & f & (q & r & a & H1 & H2 & H3 & -> & ->) & ->).
    assert (Gid : generated L (ring_symmetry L uT uR uS) (smat L 1 (fz L false 0))).
    { apply gen_id. split; [apply smat_square|]. intros i j Hi Hj. rewrite smat_entry by assumption. now rewrite fz_id. }
    assert (GT : generated L (ring_symmetry L uT uR uS) (smat L 1 (fz L false a))).
    { destruct H3 as [->|HT]; [exact Gid|]. rewrite <- (smat_ext L 1 _ _ (fun i Hi => fz_k L false a i HL)). set (k := Z.to_nat ((- a) mod Z.of_nat L)). clearbody k. induction k as [|k IH]; [exact Gid|].
      change 1%Z with (1 * 1)%Z. eapply gen_step; [|exact IH|left; split; [exact HT|apply smat_moves]|]; [intros; now apply fz_range|]. intros i Hi. cbv beta. rewrite step_index by (try apply fz_range; assumption). rewrite fz_fz by assumption. cbn [xorb sgz]. f_equal. lia. }
    assert (GR : generated L (ring_symmetry L uT uR uS) (smat L 1 (fz L r a))).
    { destruct r; [|exact GT]. change 1%Z with (1 * 1)%Z. eapply gen_step; [|exact GT|right; left; split; [auto|apply smat_moves]|]; [intros; now apply fz_range|]. intros i Hi. cbv beta. rewrite rev_index by (now apply fz_range). rewrite fz_fz by assumption. cbn [xorb sgz]. f_equal. lia. }
    destruct q; [|exact GR]. change (sgz true) with (1 * -1)%Z. eapply gen_step; [|exact GR|right; right; split; [auto|apply smat_flips]|reflexivity]. intros; now apply fz_range.
  - apply generated_in; [exact HG|]. intros B [[HU HB]|[[HU HB]|[HU HB]]]; apply HM.
    + exists 1%Z, (fz L false (-1)). split; [exists false, false, (-1)%Z; repeat split; auto; discriminate|]. rewrite (moves_smat _ _ _ HB). apply smat_ext. intros i Hi. now apply step_index.
    + exists 1%Z, (fz L true 0). split; [exists false, true, 0%Z; repeat split; auto; discriminate|]. rewrite (moves_smat _ _ _ HB). apply smat_ext. intros i Hi. now apply rev_index.
    + exists (-1)%Z, (fz L false 0). split; [exists true, false, 0%Z; repeat split; auto; discriminate|]. rewrite (flips_smat _ _ HB). apply smat_ext. intros i Hi. now rewrite fz_id.
Qed.

(** two dimensions *)
Definition coords (L : nat) (f : nat -> nat -> nat * nat) (i : nat) : nat := let p := f (i / L) (i mod L) in fst p * L + snd p.
Lemma coords_Fz L f d a : 0 < L -> (forall y x, y < L -> x < L -> (Z.of_nat (fst (f y x)), Z.of_nat (snd (f y x))) = gz L d a (Z.of_nat y, Z.of_nat x)) -> forall i, i < L * L -> coords L f i = Fz L d a i.
Proof.
  intros HL H i Hi. unfold coords, Fz, zi. rewrite <- H; [symmetry; apply iz_nat| |apply Nat.mod_upper_bound; lia]. apply Nat.div_lt_upper_bound; lia.
Qed.
Lemma gstep_y L i : 0 < L -> i < L * L -> coords L (fun y x => ((y + 1) mod L, x)) i = Fz L p0 (-1, 0)%Z i.
Proof. intros HL. apply coords_Fz; [assumption|]. intros y x Hy Hx. cbn [fst snd gz p0]. rewrite !cz_nat by assumption. rewrite fz_id by assumption. now rewrite step_index. Qed.
Lemma gstep_x L i : 0 < L -> i < L * L -> coords L (fun y x => (y, (x + 1) mod L)) i = Fz L p0 (0, -1)%Z i.
Proof. intros HL. apply coords_Fz; [assumption|]. intros y x Hy Hx. cbn [fst snd gz p0]. rewrite !cz_nat by assumption. rewrite fz_id by assumption. now rewrite step_index. Qed.
Lemma gref_y L i : 0 < L -> i < L * L -> coords L (fun y x => (L - 1 - y, x)) i = Fz L (false, (true, false)) (0, 0)%Z i.
Proof. intros HL. apply coords_Fz; [assumption|]. intros y x Hy Hx. cbn [fst snd gz]. rewrite !cz_nat by assumption. rewrite fz_id by assumption. now rewrite rev_index. Qed.
Lemma gref_x L i : 0 < L -> i < L * L -> coords L (fun y x => (y, L - 1 - x)) i = Fz L (false, (false, true)) (0, 0)%Z i.
Proof. intros HL. apply coords_Fz; [assumption|]. intros y x Hy Hx. cbn [fst snd gz]. rewrite !cz_nat by assumption. rewrite fz_id by assumption. now rewrite rev_index. Qed.
Lemma gturn L i : 0 < L -> i < L * L -> coords L (fun y x => (x, L - 1 - y)) i = Fz L (true, (false, true)) (0, 0)%Z i.
Proof. intros HL. apply coords_Fz; [assumption|]. intros y x Hy Hx. cbn [fst snd gz]. rewrite !cz_nat by assumption. rewrite fz_id by assumption. now rewrite rev_index. Qed.
Lemma acomp_0 d a : acomp d a (0, 0)%Z = a.
Proof. destruct d as (b, (r1, r2)), a as (a1, a2). destruct b; cbn [acomp fst snd]; f_equal; ring. Qed.
Lemma Fz_k L d a i : 0 < L -> Fz L d (- Z.of_nat (Z.to_nat ((- fst a) mod Z.of_nat L)), - Z.of_nat (Z.to_nat ((- snd a) mod Z.of_nat L)))%Z i = Fz L d a i.
Proof.
  intros HL. unfold Fz. f_equal. rewrite <- (gz_mod L d a), <- (gz_mod L d (- _, - _)%Z). cbn [fst snd]. f_equal.
  pose proof (Z.mod_pos_bound (- fst a) (Z.of_nat L) ltac:(lia)). pose proof (Z.mod_pos_bound (- snd a) (Z.of_nat L) ltac:(lia)). rewrite !Z2Nat.id by lia.
  f_equal; rewrite <- Z.sub_0_l, Zminus_mod_idemp_r; f_equal; ring.
Qed.
Lemma orbit_2D_generated L uT uR uRot uS fT fR fRot fS A : 0 < L ->
  In A (map fst (get_orbit_2D_square L uT uR uRot uS fT fR fRot fS)) <-> generated (L * L) (square_symmetry L uT uR uRot uS) A.
Proof.
  intros HL. pose proof (orbit_2D_group L uT uR uRot uS fT fR fRot fS HL) as HG.
  destruct (unique_mats (L * L) (raw_2D L uT uR uRot uS fT fR fRot fS) (raw_2D_square _ _ _ _ _ _ _ _ _ HL)) as [_ HI].
  assert (HM : forall A, In A (map fst (get_orbit_2D_square L uT uR uRot uS fT fR fRot fS)) <-> exists sg f, P2 L uT uR uRot uS sg f /\ A = smat (L * L) sg f) by (intros; rewrite <- (raw_2D_mats L uT uR uRot uS fT fR fRot fS) by assumption; apply HI).
  set (gens := square_symmetry L uT uR uRot uS). set (n := L * L).
  assert (St : forall f d a d0 a0, (forall i, i < n -> coords L f i = Fz L d0 a0 i) -> gens (smat n 1 (coords L f)) -> generated n gens (smat n 1 (Fz L d a)) -> generated n gens (smat n 1 (Fz L (pcomp d0 d) (acomp d a a0)))).
  { intros f d a d0 a0 E G H. change 1%Z with (1 * 1)%Z. eapply gen_step; [|exact H|exact G|]; [intros; now apply Fz_range|]. intros i Hi. rewrite E by (now apply Fz_range). now rewrite Fz_Fz. }
  split.
  - intros H. apply HM in H as (sg & f & (q & d & a & H1 & H2 & H3 & -> & ->) & ->).
    assert (Gid : generated n gens (smat n 1 (Fz L p0 (0, 0)%Z))).
    { apply gen_id. split; [apply smat_square|]. intros i j Hi Hj. rewrite smat_entry by assumption. now rewrite Fz_id. }
    assert (GT : generated n gens (smat n 1 (Fz L p0 a))).
    { destruct H3 as [->|HT]; [exact Gid|]. rewrite <- (smat_ext n 1 _ _ (fun i Hi => Fz_k L p0 a i HL)). set (k := Z.to_nat ((- fst a) mod Z.of_nat L)). set (k' := Z.to_nat ((- snd a) mod Z.of_nat L)). clearbody k k'.
      assert (GY : generated n gens (smat n 1 (Fz L p0 (- Z.of_nat k, 0)%Z))).
      { induction k as [|k IH]; [exact Gid|]. assert (E : (- Z.of_nat (S k), 0)%Z = acomp p0 (- Z.of_nat k, 0)%Z (-1, 0)%Z) by (unfold p0; cbn [acomp fst snd sgz]; f_equal; lia). rewrite E. change p0 with (pcomp p0 p0) at 1.
        eapply St; [intros i Hi; now apply gstep_y| |exact IH]. left. split; [exact HT|]. left. apply smat_moves. }
      induction k' as [|k' IH]; [exact GY|]. assert (E : (- Z.of_nat k, - Z.of_nat (S k'))%Z = acomp p0 (- Z.of_nat k, - Z.of_nat k')%Z (0, -1)%Z) by (unfold p0; cbn [acomp fst snd sgz]; f_equal; lia). rewrite E. change p0 with (pcomp p0 p0) at 1.
      eapply St; [intros i Hi; now apply gstep_x| |exact IH]. left. split; [exact HT|]. right. apply smat_moves. }
    assert (Rot : forall d, uRot = true -> generated n gens (smat n 1 (Fz L d a)) -> generated n gens (smat n 1 (Fz L (pcomp (true, (false, true)) d) a))).
    { intros d' HU G. rewrite <- (acomp_0 d' a). eapply St; [intros i Hi; now apply gturn| |exact G]. right. right. left. split; [exact HU|]. apply smat_moves. }
    assert (Ry : forall d, uR = true -> generated n gens (smat n 1 (Fz L d a)) -> generated n gens (smat n 1 (Fz L (pcomp (false, (true, false)) d) a))).
    { intros d' HU G. rewrite <- (acomp_0 d' a). eapply St; [intros i Hi; now apply gref_y| |exact G]. right. left. split; [exact HU|]. left. apply smat_moves. }
    assert (Rx : forall d, uR = true -> generated n gens (smat n 1 (Fz L d a)) -> generated n gens (smat n 1 (Fz L (pcomp (false, (false, true)) d) a))).
    { intros d' HU G. rewrite <- (acomp_0 d' a). eapply St; [intros i Hi; now apply gref_x| |exact G]. right. left. split; [exact HU|]. right. apply smat_moves. }
    assert (GD : generated n gens (smat n 1 (Fz L d a))).
    { unfold pgroup in H2. apply in_flat_map in H2 as (drot & Hrot & H2). apply in_map_iff in H2 as (dref & <- & Href).
      assert (GRot : generated n gens (smat n 1 (Fz L drot a))).
      { destruct uRot; cbn [sel rots In] in Hrot; [|destruct Hrot as [<-|[]]; exact GT]. pose proof (Rot _ eq_refl GT) as T1. pose proof (Rot _ eq_refl T1) as T2. pose proof (Rot _ eq_refl T2) as T3.
        destruct Hrot as [<-|[<-|[<-|[<-|[]]]]]; assumption. }
      destruct uR; cbn [sel refs In] in Href; [|destruct Href as [<-|[]]; destruct drot as ([], ([], [])); exact GRot].
      pose proof (Ry _ eq_refl GRot) as T1. pose proof (Rx _ eq_refl GRot) as T2. pose proof (Rx _ eq_refl T1) as T3.
      destruct Href as [<-|[<-|[<-|[<-|[]]]]]; destruct drot as ([], ([], [])); assumption. }
    destruct q; [|exact GD]. change (sgz true) with (1 * -1)%Z. eapply gen_step; [|exact GD|right; right; right; split; [auto|apply smat_flips]|reflexivity]. intros; now apply Fz_range.
  - apply generated_in; [exact HG|]. intros B HB.
    assert (X : forall f d a, (forall i, i < n -> coords L f i = Fz L d a i) -> moves n (coords L f) B -> In d (pgroup uR uRot) -> (a = (0, 0)%Z \/ uT = true) -> In B (map fst (get_orbit_2D_square L uT uR uRot uS fT fR fRot fS))).
    { intros f d a E M Hd Ha. apply HM. exists 1%Z, (Fz L d a). split; [exists false, d, a; repeat split; auto; discriminate|]. rewrite (moves_smat _ _ _ M). now apply smat_ext. }
    destruct HB as [[HU [HB|HB]]|[[HU [HB|HB]]|[[HU HB]|[HU HB]]]].
    + eapply X; [intros i Hi; now apply gstep_y|exact HB|apply pgroup_id|auto].
    + eapply X; [intros i Hi; now apply gstep_x|exact HB|apply pgroup_id|auto].
    + eapply X; [intros i Hi; now apply gref_y|exact HB| |auto]. rewrite HU. destruct uRot; cbn; tauto.
    + eapply X; [intros i Hi; now apply gref_x|exact HB| |auto]. rewrite HU. destruct uRot; cbn; tauto.
    + eapply X; [intros i Hi; now apply gturn|exact HB| |auto]. rewrite HU. destruct uR; cbn; tauto.
    + apply HM. exists (-1)%Z, (Fz L p0 (0, 0)%Z). split; [exists true, p0, (0, 0)%Z; repeat split; auto; apply pgroup_id|]. rewrite (flips_smat _ _ HB). apply smat_ext. intros i Hi. now rewrite Fz_id.
Qed.

(** ** characters *)
Lemma Cpow_add f a b : Cpow f (a + b) = Cmul (Cpow f a) (Cpow f b).
Proof. induction a as [|a IH]; cbn [Cpow Nat.add]; [ring|]. rewrite IH. ring. Qed.
Lemma Cpow_mul f a b : Cpow f (a * b) = Cpow (Cpow f a) b.
Proof. induction b as [|b IH]; cbn [Cpow]; [now rewrite Nat.mul_0_r|]. rewrite <- IH, <- Cpow_add. f_equal. lia. Qed.
Lemma Cpow_1 b : Cpow C1 b = C1. Proof. induction b as [|b IH]; cbn [Cpow]; [reflexivity|]. rewrite IH. ring. Qed.
Lemma Cpow_mod f L a : 0 < L -> Cpow f L = C1 -> Cpow f (a mod L) = Cpow f a.
Proof. intros HL H. rewrite (Nat.div_mod a L) at 2 by lia. rewrite Cpow_add, Cpow_mul, H, Cpow_1. ring. Qed.

Lemma Cpow_big f n : big C1 Cmul (repeat f n) = Cpow f n.
Proof. induction n as [|n IH]; [reflexivity|]. cbn [repeat Cpow]. rewrite <- IH. reflexivity. Qed.
Definition fac (fT fR fS : C) (a : nat) (r q : bool) : C := Cmul (if q then fS else C1) (Cmul (Cpow fT a) (if r then fR else C1)).
Definition allowed (L : nat) (uT uR uS : bool) (a : nat) (r q : bool) : Prop := a < L /\ (a = 0 \/ uT = true) /\ (r = true -> uR = true) /\ (q = true -> uS = true).
Lemma fac_unique L uT uR uS fT fR fS a r q a' r' q' : 0 < L -> consistent L uT uR uS fT fR fS -> allowed L uT uR uS a r q -> allowed L uT uR uS a' r' q' ->
  smat L (sgz q) (fz L r (Z.of_nat a)) = smat L (sgz q') (fz L r' (Z.of_nat a')) -> fac fT fR fS a r q = fac fT fR fS a' r' q'.
Proof.
  intros HL (HT & HR & HS & HTR & H1 & H2) Ha Ha' E. apply smat_inj in E; [|assumption|destruct q; discriminate|intros; now apply fz_range]. destruct E as [Es Ef].
  assert (q = q') by (clear -Es; destruct q, q'; try reflexivity; discriminate Es). subst q'.
  assert (Mix : forall a a', allowed L uT uR uS a true q -> allowed L uT uR uS a' false q -> (forall i, i < L -> fz L true (Z.of_nat a) i = fz L false (Z.of_nat a') i) -> fac fT fR fS a true q = fac fT fR fS a' false q).
  { clear a r a' r' Ha Ha' Ef Es. intros a a' (L1 & U1 & Hu & _) (L2 & U2 & _) Ef. specialize (Hu eq_refl).
    destruct (Nat.lt_ge_cases 2 L) as [Hc|Hc]; [exfalso; apply (fz_mixed L a' a); [lia|]; intros; symmetry; auto|].
    assert (L = 1 \/ L = 2) as [-> | ->] by lia.
    - assert (a = 0) by lia. assert (a' = 0) by lia. subst a a'. unfold fac. rewrite (H1 Hu eq_refl). reflexivity.
    - pose proof (Ef 0 ltac:(lia)) as E0. destruct uT eqn:EU.
      + rewrite (H2 eq_refl Hu eq_refl). specialize (HTR eq_refl Hu). destruct a as [|[|]], a' as [|[|]]; try lia; try (vm_compute in E0; discriminate E0); unfold fac; cbn [Cpow]; f_equal.
        * ring.
        * replace (Cmul (Cmul fT C1) fT) with (Cmul fT fT) by ring. rewrite HTR. ring.
      + destruct U1 as [->|]; [|discriminate]. destruct U2 as [->|]; [|discriminate]. vm_compute in E0. discriminate E0. }
  destruct r, r'; [| | |].
  - f_equal. apply (fz_inj_a L a a' true); [apply Ha|apply Ha'|auto].
  - auto.
  - symmetry. apply Mix; auto. intros; symmetry; auto.
  - f_equal. apply (fz_inj_a L a a' false); [apply Ha|apply Ha'|auto].
Qed.
Lemma orbit_1D_factor L uT uR uS fT fR fS A c : 0 < L -> consistent L uT uR uS fT fR fS -> In (A, c) (get_orbit_1D L uT uR uS fT fR fS) <->
  exists a r q, allowed L uT uR uS a r q /\ A = smat L (sgz q) (fz L r (Z.of_nat a)) /\ c = fac fT fR fS a r q.
Proof.
  intros HL0 HC. destruct (unique_spec (raw_1D L uT uR uS fT fR fS)) as (_ & U1 & U2).
  assert (HR : forall A c, In (A, c) (raw_1D L uT uR uS fT fR fS) <-> exists a r q, allowed L uT uR uS a r q /\ A = smat L (sgz q) (fz L r (Z.of_nat a)) /\ c = fac fT fR fS a r q).
  { intros A0 c0. rewrite raw_1D_in by assumption. unfold allowed, fac. split.
    - intros (a & r & q & H1 & H2 & H3 & H4 & H5 & H6). exists a, r, q. repeat split; auto. rewrite H6. destruct q; ring.
    - intros (a & r & q & (H1 & H2 & H3 & H4) & H5 & H6). exists a, r, q. repeat split; auto. rewrite H6. destruct q; ring. }
  split.
  - intros H. apply HR. now apply U1.
  - intros H. pose proof H as H'. apply HR in H. destruct (U2 _ H) as ((A', c') & Hz & K).
    assert (A' = A). { apply (square_concat L); [| |exact K]; pose proof (raw_1D_square L uT uR uS fT fR fS HL0) as Q; rewrite Forall_forall in Q; [apply (Q (A', c')), U1, Hz|apply (Q (A, c)), H]. }
    subst A'. pose proof (U1 _ Hz) as Hz'. apply HR in Hz'. destruct H' as (a & r & q & H1 & H2 & H3). destruct Hz' as (a' & r' & q' & H1' & H2' & H3').
    assert (E : c = c') by (rewrite H3, H3'; apply (fac_unique L uT uR uS); auto; congruence). rewrite E. exact Hz.
Qed.
Lemma orbit_1D_character L uT uR uS fT fR fS : 0 < L -> consistent L uT uR uS fT fR fS -> is_character L (get_orbit_1D L uT uR uS fT fR fS).
Proof.
  intros HL0 HC A ca B cb D cd HA HB HD HP.
  apply orbit_1D_factor in HA as (a & r & q & HA & -> & ->); [|assumption|assumption].
  apply orbit_1D_factor in HB as (b & r' & q' & HB & -> & ->); [|assumption|assumption].
  apply orbit_1D_factor in HD as (d & r'' & q'' & HD & -> & ->); [|assumption|assumption].
  assert (E : smat L (sgz q'') (fz L r'' (Z.of_nat d)) = smat L (sgz q * sgz q') (fun i => fz L r' (Z.of_nat b) (fz L r (Z.of_nat a) i))).
  { eapply is_product_unique; [exact HP|]. apply smat_product. intros; now apply fz_range. }
  destruct HA as (A1 & A2 & A3 & A4), HB as (B1 & B2 & B3 & B4).
  set (e := (a + (if r then L - b else b)) mod L).
  assert (He : e < L) by (apply Nat.mod_upper_bound; lia).
  assert (E2 : smat L (sgz q'') (fz L r'' (Z.of_nat d)) = smat L (sgz (xorb q q')) (fz L (xorb r r') (Z.of_nat e))).
  { rewrite E, sgz_mul. apply smat_ext. intros i Hi. rewrite fz_fz by assumption. unfold e. rewrite Nat2Z.inj_mod, fz_mod, Nat2Z.inj_add. destruct r; cbn [sgz].
    - rewrite <- fz_mod. rewrite <- (fz_mod L _ (Z.of_nat a + _)). f_equal. rewrite Nat2Z.inj_sub by lia. replace (Z.of_nat a + (Z.of_nat L - Z.of_nat b))%Z with (Z.of_nat a + -1 * Z.of_nat b + 1 * Z.of_nat L)%Z by ring. now rewrite Z_mod_plus_full.
    - f_equal. ring. }
  assert (He0 : e = 0 \/ uT = true).
  { destruct A2 as [->|]; [|auto]. destruct B2 as [->|]; [|auto]. left. unfold e. rewrite Nat.sub_0_r. destruct r; [apply Nat.mod_same; lia|apply Nat.mod_small; lia]. }
  rewrite (fac_unique L uT uR uS fT fR fS d r'' q'' e (xorb r r') (xorb q q') HL0 HC HD).
  2:{ repeat split; auto; now apply xorb_use. }
  2:{ exact E2. }
  destruct HC as (HT & HR & HS & HTR & _).
  assert (PT : Cpow fT e = Cmul (Cpow fT a) (Cpow fT b)).
  { destruct uT eqn:EU.
    - specialize (HT eq_refl). rewrite Cpow_big in HT. unfold e. rewrite Cpow_mod by auto. rewrite Cpow_add. f_equal. destruct r; [|reflexivity].
      assert (Q : Cmul fT fT = C1) by auto. assert (B2' : Cmul (Cpow fT b) (Cpow fT b) = C1).
      { rewrite <- Cpow_add. replace (b + b) with (2 * b) by lia. rewrite Cpow_mul. cbn [Cpow]. replace (Cmul fT (Cmul fT C1)) with (Cmul fT fT) by ring. rewrite Q. apply Cpow_1. }
      assert (S : Cmul (Cpow fT (L - b)) (Cpow fT b) = C1) by (rewrite <- Cpow_add; replace (L - b + b) with L by lia; auto).
      transitivity (Cmul (Cmul (Cpow fT (L - b)) (Cpow fT b)) (Cpow fT b)); [|rewrite S; ring].
      replace (Cmul (Cmul (Cpow fT (L - b)) (Cpow fT b)) (Cpow fT b)) with (Cmul (Cpow fT (L - b)) (Cmul (Cpow fT b) (Cpow fT b))) by ring. rewrite B2'. ring.
    - destruct A2 as [->|]; [|discriminate]. destruct B2 as [->|]; [|discriminate]. destruct He0 as [K2|]; [|discriminate]. rewrite K2. cbn [Cpow]. ring. }
  assert (X : forall (b1 b2 : bool) f, (b1 = true -> b2 = true -> Cmul f f = C1) -> (if xorb b1 b2 then f else C1) = Cmul (if b1 then f else C1) (if b2 then f else C1)).
  { intros [] [] f Hf; cbn [xorb]; try ring. symmetry. auto. }
  unfold fac. rewrite PT, (X q q' fS), (X r r' fR) by auto. ring.
Qed.

(** ** the symmetrised amplitudes *)
Definition mat_eq_dec : forall A B : mat, {A = B} + {A <> B} := list_eq_dec (list_eq_dec Z.eq_dec).
Fixpoint chi (orbit : list (mat * C)) (A : mat) : C :=
  match orbit with [] => C0 | (B, c) :: r => if mat_eq_dec A B then c else chi r A end.
Lemma chi_in orbit A c : NoDup (map fst orbit) -> In (A, c) orbit -> chi orbit A = c.
Proof.
  induction orbit as [|(B, b) r IH]; [intros _ []|]. cbn [map fst chi In]. intros HN H. inversion HN; subst. destruct H as [H|H].
  - inversion H; subst. destruct (mat_eq_dec A A); [reflexivity|congruence].
  - destruct (mat_eq_dec A B) as [->|]; [|auto]. exfalso. apply H2. now apply (in_map fst) in H.
Qed.
Lemma chi_in' orbit A : In A (map fst orbit) -> In (A, chi orbit A) orbit.
Proof.
  induction orbit as [|(B, b) r IH]; [intros []|]. cbn [map fst chi In]. intros H. destruct (mat_eq_dec A B) as [->|N]; [now left|]. destruct H as [H|H]; [congruence|]. right. auto.
Qed.
Definition amp (orbit : list (mat * C)) (net : config -> C) (s : config) : C := csum (map (fun Ac => Cmul (snd Ac) (Cexp (net (sym_act (fst Ac) s)))) orbit).
Lemma amp_chi orbit net s : NoDup (map fst orbit) -> amp orbit net s = csum (map (fun A => Cmul (chi orbit A) (Cexp (net (sym_act A s)))) (map fst orbit)).
Proof. intros HN. unfold amp. rewrite map_map. apply csum_ext. intros (A, c) H. cbn [fst snd]. now rewrite (chi_in orbit A c). Qed.
Lemma amp_transform n lDim orbit net B b s : is_group n (map fst orbit) -> is_character n orbit -> Forall (fits lDim) (map fst orbit) -> In s (all_configs lDim n) -> In (B, b) orbit ->
  Cmul b (amp orbit net (sym_act B s)) = amp orbit net s.
Proof.
  intros HG HX HF Hs HB. assert (HN : NoDup (map fst orbit)) by apply HG. pose proof (in_map fst _ _ HB) as HB'. cbn in HB'. rewrite !amp_chi by assumption. rewrite <- csum_scal. rewrite Forall_forall in HF.
  refine (eq_trans _ (group_csum n (map fst orbit) B (fun A => Cmul (chi orbit A) (Cexp (net (sym_act A s)))) HG HB')). apply csum_ext. intros A HA.
  rewrite (sym_act_product n lDim A B (mat_mul A B)); [|now apply (group_signed n (map fst orbit))|now apply (group_signed n (map fst orbit))|auto|auto|apply mul_product; now apply (group_signed n (map fst orbit))|assumption].
  assert (E : chi orbit (mat_mul A B) = Cmul (chi orbit A) b).
  { apply (HX A (chi orbit A) B b (mat_mul A B) (chi orbit (mat_mul A B))); [now apply chi_in'|assumption|apply chi_in'; now apply (group_mul n)|]. apply mul_product; now apply (group_signed n (map fst orbit)). }
  rewrite E. ring.
Qed.
Lemma exp_amp orbit net s : avgFun_Coefficients_Exp (map (fun of => net (sym_act (fst of) s)) orbit) (map snd orbit) = Clog (amp orbit net s).
Proof.
  unfold avgFun_Coefficients_Exp, amp. f_equal. f_equal. rewrite map2_map_l, map2_map_r, map2_same. reflexivity.
Qed.
Lemma rsum_invariant n lDim orbit (F : config -> R) B s : is_group n (map fst orbit) -> Forall (fits lDim) (map fst orbit) -> In s (all_configs lDim n) -> In B (map fst orbit) ->
  rsum (map (fun of => F (sym_act (fst of) (sym_act B s))) orbit) = rsum (map (fun of : mat * C => F (sym_act (fst of) s)) orbit).
Proof.
  intros HG HF Hs HB. rewrite Forall_forall in HF. rewrite <- (map_map fst (fun A => F (sym_act A s))), <- (map_map fst (fun A => F (sym_act A (sym_act B s)))).
  refine (eq_trans _ (group_rsum n (map fst orbit) B (fun A => F (sym_act A s)) HG HB)). apply rsum_ext. intros A HA. f_equal. apply (sym_act_product n lDim); auto; try (now apply (group_signed n (map fst orbit))). apply mul_product; now apply (group_signed n (map fst orbit)).
Qed.
Lemma csum_invariant n lDim orbit (F : config -> C) B s : is_group n (map fst orbit) -> Forall (fits lDim) (map fst orbit) -> In s (all_configs lDim n) -> In B (map fst orbit) ->
  csum (map (fun of => F (sym_act (fst of) (sym_act B s))) orbit) = csum (map (fun of : mat * C => F (sym_act (fst of) s)) orbit).
Proof.
  intros HG HF Hs HB. rewrite Forall_forall in HF. rewrite <- (map_map fst (fun A => F (sym_act A s))), <- (map_map fst (fun A => F (sym_act A (sym_act B s)))).
  refine (eq_trans _ (group_csum n (map fst orbit) B (fun A => F (sym_act A s)) HG HB)). apply csum_ext. intros A HA. f_equal. apply (sym_act_product n lDim); auto; try (now apply (group_signed n (map fst orbit))). apply mul_product; now apply (group_signed n (map fst orbit)).
Qed.
