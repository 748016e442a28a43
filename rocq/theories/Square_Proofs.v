(** Factors of the square-lattice orbits: representation of the elements. *)
From Coq Require Import ZArith List Reals Lra Lia Bool Arith Permutation.
From Verif Require Import Base Cplx Stats_Model BranchFree_Model Dist Sampler_Model Sampler_Spec Sampler2_Proofs Exact_Proofs
  Sym_Model Sym_Spec Sym_Proofs Sym2_Proofs Sym3_Proofs Sym4_Proofs Sym5_Proofs Square_Spec.
Import ListNotations.

Lemma times_pow n c : times n c = Cpow c n. Proof. apply Cpow_big. Qed.

(** ** factors of the maps *)
(** number of quarter turns *)
Definition kd (d : pt) : nat := let '(b, (r1, _)) := d in if b then (if r1 then 1 else 3) else (if r1 then 2 else 0).
Definition rfac (f : C) (d : pt) : C := let '(_, (r1, r2)) := d in Cmul (if r1 then f else C1) (if r2 then f else C1).
Lemma rotation_in L use f m c : 0 < L -> In (m, c) (rotation_2D L use f) -> exists d, In d (sel use rots) /\ M2 L m = smat (L * L) 1 (Fz L d (0, 0)%Z) /\ c = Cpow f (kd d).
Proof.
  intros HL H. unfold rotation_2D in H. rewrite index_grid, flip_cols_grid, !flip_rows_grid, !transpose_grid in H.
  assert (X : forall d g c', c' = Cpow f (kd d) -> In d (sel use rots) -> (forall y x, y < L -> x < L -> g y x = iz L (gz L d (0, 0)%Z (Z.of_nat y, Z.of_nat x))) -> (grid L g, c') = (m, c) ->
    exists d, In d (sel use rots) /\ M2 L m = smat (L * L) 1 (Fz L d (0, 0)%Z) /\ c = Cpow f (kd d)).
  { intros d g c' Hc Hd Hg E. inversion E; subst. exists d. split; [assumption|]. split; [|reflexivity]. now apply M2_grid. }
  destruct H as [H|H]; [apply (X p0 _ _ eq_refl) in H; [assumption|destruct use; cbn; auto|m2]|].
  destruct use; [|destruct H]. destruct H as [H|[H|[H|[]]]].
  - apply (X (true, (true, false))) in H; [assumption|cbn [kd Cpow]; ring|cbn; auto|m2].
  - apply (X (false, (true, true))) in H; [assumption|reflexivity|cbn; auto|m2].
  - apply (X (true, (false, true))) in H; [assumption|reflexivity|cbn; auto|m2].
Qed.
Lemma reflection_in L use f m c : 0 < L -> In (m, c) (reflection_2D L use f) -> exists d, In d (sel use refs) /\ M2 L m = smat (L * L) 1 (Fz L d (0, 0)%Z) /\ c = rfac f d.
Proof.
  intros HL H. unfold reflection_2D in H. rewrite index_grid, flip_cols_grid, !flip_rows_grid in H.
  assert (X : forall d g c', c' = rfac f d -> In d (sel use refs) -> (forall y x, y < L -> x < L -> g y x = iz L (gz L d (0, 0)%Z (Z.of_nat y, Z.of_nat x))) -> (grid L g, c') = (m, c) ->
    exists d, In d (sel use refs) /\ M2 L m = smat (L * L) 1 (Fz L d (0, 0)%Z) /\ c = rfac f d).
  { intros d g c' Hc Hd Hg E. inversion E; subst. exists d. split; [assumption|]. split; [|reflexivity]. now apply M2_grid. }
  destruct H as [H|H]; [apply (X p0) in H; [assumption|cbn; ring|destruct use; cbn; auto|m2]|].
  destruct use; [|destruct H]. destruct H as [H|[H|[H|[]]]].
  - apply (X (false, (true, false))) in H; [assumption|cbn; ring|cbn; auto|m2].
  - apply (X (false, (false, true))) in H; [assumption|cbn; ring|cbn; auto|m2].
  - apply (X (false, (true, true))) in H; [assumption|cbn [rfac Cpow]; ring|cbn; auto|m2].
Qed.
Lemma translation_in L use f m c : 0 < L -> In (m, c) (translation_2D L use f) -> exists y x, y < L /\ x < L /\ (use = true \/ y = 0 /\ x = 0) /\
  M2 L m = smat (L * L) 1 (Fz L p0 (Z.of_nat y, Z.of_nat x)) /\ c = Cpow f (x + y).
Proof.
  intros HL H. unfold translation_2D in H.
  assert (E0 : M2 L (get_2D_index L) = smat (L * L) 1 (Fz L p0 (0, 0)%Z)) by (rewrite index_grid; apply M2_grid; [assumption|]; m2).
  assert (E1 : forall x y, M2 L (roll y (map (fun r => roll x r 0) (get_2D_index L)) []) = smat (L * L) 1 (Fz L p0 (Z.of_nat y, Z.of_nat x))).
  { intros x y. rewrite index_grid, roll2_grid. apply M2_grid; [assumption|]. intros y0 x0 Hy Hx. cbn [gz fst snd p0]. rewrite !cz_nat, iz_nat, !roll_index by assumption. reflexivity. }
  destruct H as [H|H].
  - inversion H; subst. exists 0, 0. repeat split; auto.
  - destruct use; [|destruct H]. apply in_map_iff in H as ((x, y) & E & H). cbn [fst snd] in E. inversion E; subst. apply filter_In in H as [H _]. apply in_prod_iff in H as [Hx Hy]. apply in_seq in Hx, Hy.
    exists y, x. split; [lia|]. split; [lia|]. split; [auto|]. split; [apply E1|reflexivity].
Qed.
Lemma translate_mul L a rot ref : 0 < L -> mat_mul (mat_mul (smat (L * L) 1 (Fz L p0 a)) (smat (L * L) 1 (Fz L rot (0, 0)%Z))) (smat (L * L) 1 (Fz L ref (0, 0)%Z)) = smat (L * L) 1 (Fz L (pcomp ref rot) a).
Proof.
  intros HL. rewrite !smat_mul by (intros; now apply Fz_range). apply smat_ext. intros i Hi. rewrite !Fz_Fz by assumption. rewrite pcomp_p0. f_equal.
  destruct a as (a1, a2), rot as (b, (r1, r2)). unfold p0. destruct b; cbn [acomp pcomp fst snd xorb]; f_equal; ring.
Qed.
Lemma raw_2D_in L uT uR uRot uS fT fR fRot fS A c : 0 < L -> In (A, c) (raw_2D L uT uR uRot uS fT fR fRot fS) ->
  exists (q : bool) y x drot dref, (q = true -> uS = true) /\ y < L /\ x < L /\ (uT = true \/ y = 0 /\ x = 0) /\ In drot (sel uRot rots) /\ In dref (sel uR refs) /\
  A = smat (L * L) (sgz q) (Fz L (pcomp dref drot) (Z.of_nat y, Z.of_nat x)) /\
  c = Cmul (if q then fS else C1) (Cmul (Cmul (Cpow fT (x + y)) (Cpow fRot (kd drot))) (rfac fR dref)).
Proof.
  intros HL H. unfold raw_2D, add_spinflip in H. set (base := get_orbits_from_maps_2D _ _ _ _) in H.
  assert (HB : forall A c, In (A, c) base -> exists y x drot dref, y < L /\ x < L /\ (uT = true \/ y = 0 /\ x = 0) /\ In drot (sel uRot rots) /\ In dref (sel uR refs) /\
    A = smat (L * L) 1 (Fz L (pcomp dref drot) (Z.of_nat y, Z.of_nat x)) /\ c = Cmul (Cmul (Cpow fT (x + y)) (Cpow fRot (kd drot))) (rfac fR dref)).
  { clear H. intros A0 c0 H. unfold base, get_orbits_from_maps_2D in H. apply in_flat_map in H as ((mt, ct) & Ht & H). apply in_flat_map in H as ((mrot, crot) & Hrot & H). apply in_map_iff in H as ((mref, cref) & E & Href).
    rewrite !M2_eq in E. cbn [fst snd] in E.
    apply translation_in in Ht as (y & x & Hy & Hx & Hu & Et & Ect); [|assumption]. apply rotation_in in Hrot as (drot & Hdrot & Erot & Ecrot); [|assumption]. apply reflection_in in Href as (dref & Hdref & Eref & Ecref); [|assumption].
    exists y, x, drot, dref. inversion E as [[EA Ec]]. rewrite Et, Erot, Eref, translate_mul, Ect, Ecrot, Ecref by assumption. repeat split; auto. }
  clearbody base.
  assert (HH : In (A, c) base \/ uS = true /\ In (A, c) (map (fun of : mat * C => (mat_opp (fst of), Cmul fS (snd of))) base)).
  { destruct uS; [|auto]. apply in_app_iff in H as [H|H]; auto. }
  destruct HH as [HH|[HS HH]].
  - apply HB in HH as (y & x & drot & dref & H1 & H2 & H3 & H4 & H5 & -> & ->). exists false, y, x, drot, dref. repeat split; auto; [discriminate|ring].
  - apply in_map_iff in HH as ((A', c') & E & HH). cbn [fst snd] in E. inversion E; subst. apply HB in HH as (y & x & drot & dref & H1 & H2 & H3 & H4 & H5 & -> & ->). exists true, y, x, drot, dref. repeat split; auto.
    rewrite mat_opp_smat. reflexivity.
Qed.

(** ** factor of an element *)
Section Factor.
Variables (L : nat) (uT uR uRot uS : bool) (fT fR fRot fS : C).
Hypothesis HL : 0 < L.
Hypothesis HC : consistent_square L uT uR uRot uS fT fR fRot fS.
Definition pfac (d : pt) : C :=
  let '(b, (r1, r2)) := d in Cmul (Cpow fRot (if uRot then kd d else 0)) (if xorb b (xorb r1 r2) then fR else C1).
Definition zf (k : Z) : C := if uT then Cpow fT (Z.to_nat (k mod Z.of_nat L)) else C1.
Definition fac2 (q : bool) (d : pt) (a : Z * Z) : C := Cmul (if q then fS else C1) (Cmul (zf (fst a + snd a)) (pfac d)).

Lemma c_R : uR = true -> Cmul fR fR = C1.
Proof. intros H. destruct HC as (_ & K & _). specialize (K H). rewrite times_pow in K. rewrite <- K. cbn [Cpow]. ring. Qed.
Lemma c_Rot4 : uRot = true -> Cmul fRot (Cmul fRot (Cmul fRot fRot)) = C1.
Proof. intros H. destruct HC as (_ & _ & K & _). specialize (K H). rewrite times_pow in K. rewrite <- K. cbn [Cpow]. ring. Qed.
Lemma c_Rot2 : uR = true -> uRot = true -> Cmul fRot fRot = C1.
Proof. intros H H'. destruct HC as (_ & _ & _ & _ & _ & K & _). specialize (K H H'). rewrite times_pow in K. rewrite <- K. cbn [Cpow]. ring. Qed.
Lemma c_S : uS = true -> Cmul fS fS = C1.
Proof. intros H. destruct HC as (_ & _ & _ & K & _). specialize (K H). rewrite times_pow in K. rewrite <- K. cbn [Cpow]. ring. Qed.
Lemma c_T : uT = true -> Cpow fT L = C1.
Proof. intros H. destruct HC as (K & _). specialize (K H). now rewrite times_pow in K. Qed.
Lemma c_T2 : uT = true -> uR = true \/ uRot = true -> Cmul fT fT = C1.
Proof. intros H H'. destruct HC as (_ & _ & _ & _ & K & _). specialize (K H H'). rewrite times_pow in K. rewrite <- K. cbn [Cpow]. ring. Qed.

Lemma pfac_split drot dref : In drot (sel uRot rots) -> In dref (sel uR refs) -> Cmul (Cpow fRot (kd drot)) (rfac fR dref) = pfac (pcomp dref drot).
Proof.
  pose proof c_R as KR. pose proof c_Rot4 as K4. pose proof c_Rot2 as K2. unfold pfac. clear HC.
  destruct uR, uRot; cbn [sel rots refs In]; intros H H';
  repeat match goal with H : _ \/ _ |- _ => destruct H as [<-|H] | H : False |- _ => destruct H end;
  cbn -[Cmul C1]; try specialize (KR eq_refl); try specialize (K4 eq_refl); try specialize (K2 eq_refl eq_refl);
  first [ring | ring [KR] | ring [K4] | ring [K2] | ring [KR K2] ].
Qed.
Lemma pfac_mul d d' : In d (pgroup uR uRot) -> In d' (pgroup uR uRot) -> pfac (pcomp d' d) = Cmul (pfac d) (pfac d').
Proof.
  pose proof c_R as KR. pose proof c_Rot4 as K4. pose proof c_Rot2 as K2. unfold pfac. clear HC.
  destruct uR, uRot; unfold pgroup; cbn [sel rots refs flat_map map app In pcomp p0 xorb]; intros H H';
  repeat match goal with H : _ \/ _ |- _ => destruct H as [<-|H] | H : False |- _ => destruct H end;
  cbn -[Cmul C1]; try specialize (KR eq_refl); try specialize (K4 eq_refl); try specialize (K2 eq_refl eq_refl);
  first [ring | ring [KR] | ring [K4] | ring [K2] | ring [KR K2] ].
Qed.
Lemma zf_nat y x : uT = true \/ y = 0 /\ x = 0 -> Cpow fT (x + y) = zf (Z.of_nat y + Z.of_nat x).
Proof.
  intros H. pose proof c_T as KT. unfold zf. clear HC. destruct uT; [|destruct H as [|[-> ->]]; [discriminate|reflexivity]].
  rewrite <- Nat2Z.inj_add, <- Nat2Z.inj_mod, Nat2Z.id, Cpow_mod by auto. f_equal. lia.
Qed.
Lemma zf_mod k k' : (k mod Z.of_nat L = k' mod Z.of_nat L)%Z -> zf k = zf k'.
Proof. unfold zf. intros ->. reflexivity. Qed.
Lemma zf_add k k' : zf (k + k') = Cmul (zf k) (zf k').
Proof.
  pose proof c_T as KT. unfold zf. clear HC. destruct uT; [|ring]. pose proof (Z.mod_pos_bound k (Z.of_nat L) ltac:(lia)). pose proof (Z.mod_pos_bound k' (Z.of_nat L) ltac:(lia)).
  rewrite <- Cpow_add, <- Z2Nat.inj_add by lia. rewrite Zplus_mod. rewrite <- (Cpow_mod fT L (Z.to_nat _)) by auto. rewrite <- (Cpow_mod fT L (Z.to_nat (_ + _))) by auto. f_equal.
  set (u := (k mod Z.of_nat L + k' mod Z.of_nat L)%Z) in *. pose proof (Z.mod_pos_bound u (Z.of_nat L) ltac:(lia)).
  rewrite Nat.mod_small by lia. rewrite <- (Z2Nat.id u) at 1 by lia. rewrite <- Nat2Z.inj_mod. apply Nat2Z.id.
Qed.
Lemma zf_0 : zf 0 = C1.
Proof. unfold zf. clear HC. destruct uT; [|reflexivity]. now rewrite Z.mod_0_l by lia. Qed.
Lemma zf_sq k : uT = true -> uR = true \/ uRot = true -> Cmul (zf k) (zf k) = C1.
Proof.
  intros HT H. pose proof (c_T2 HT H) as K. unfold zf. rewrite HT. rewrite <- Cpow_add. replace (Z.to_nat (k mod Z.of_nat L) + Z.to_nat (k mod Z.of_nat L)) with (2 * Z.to_nat (k mod Z.of_nat L)) by lia. rewrite Cpow_mul.
  cbn [Cpow]. replace (Cmul fT (Cmul fT C1)) with (Cmul fT fT) by ring. rewrite K. apply Cpow_1.
Qed.
Lemma zf_opp k : uR = true \/ uRot = true -> zf (- k) = zf k.
Proof.
  intros H. assert (uT = true \/ uT = false) as [EU|EU] by (clear HC; destruct uT; auto); [|unfold zf; now rewrite EU]. pose proof (zf_sq k EU H) as K.
  assert (N : Cmul (zf (- k)) (zf k) = C1). { rewrite <- zf_add. replace (- k + k)%Z with 0%Z by ring. apply zf_0. }
  transitivity (Cmul (zf (- k)) (Cmul (zf k) (zf k))); [rewrite K; ring|]. transitivity (Cmul (Cmul (zf (- k)) (zf k)) (zf k)); [ring|]. rewrite N. ring.
Qed.
Lemma zf_acomp d a a' : In d (pgroup uR uRot) -> zf (fst (acomp d a a') + snd (acomp d a a')) = Cmul (zf (fst a + snd a)) (zf (fst a' + snd a')).
Proof.
  intros Hd. assert (Hs : d = p0 \/ uR = true \/ uRot = true).
  { clear HC. destruct uR, uRot; auto. cbn in Hd. destruct Hd as [<-|[]]. left. reflexivity. }
  destruct Hs as [->|Hs].
  - unfold p0. cbn [acomp fst snd sgz]. rewrite <- zf_add. f_equal. ring.
  - assert (K : forall r k, zf (sgz r * k) = zf k). { intros [] k; cbn [sgz]; [rewrite <- (zf_opp k) by assumption|]; f_equal; ring. }
    destruct d as (b, (r1, r2)), a as (a1, a2), a' as (a1', a2'). destruct b; cbn [acomp fst snd]; rewrite !zf_add, !K; ring.
Qed.
Lemma fac2_mul q d a q' d' a' : (q = true -> uS = true) -> (q' = true -> uS = true) -> In d (pgroup uR uRot) -> In d' (pgroup uR uRot) ->
  fac2 (xorb q q') (pcomp d' d) (acomp d a a') = Cmul (fac2 q d a) (fac2 q' d' a').
Proof.
  intros Hq Hq' Hd Hd'. unfold fac2. rewrite zf_acomp, pfac_mul by assumption.
  assert (X : (if xorb q q' then fS else C1) = Cmul (if q then fS else C1) (if q' then fS else C1)).
  { destruct q, q'; cbn [xorb]; try ring. symmetry. apply c_S. auto. }
  rewrite X. ring.
Qed.

Lemma raw_fac A c : In (A, c) (raw_2D L uT uR uRot uS fT fR fRot fS) ->
  exists q d a, (q = true -> uS = true) /\ In d (pgroup uR uRot) /\ (uT = true \/ a = (0, 0)%Z) /\ A = smat (L * L) (sgz q) (Fz L d a) /\ c = fac2 q d a.
Proof.
  intros H. apply raw_2D_in in H as (q & y & x & drot & dref & Hq & Hy & Hx & Hu & Hrot & Href & -> & ->); [|assumption].
  exists q, (pcomp dref drot), (Z.of_nat y, Z.of_nat x). split; [assumption|]. split; [unfold pgroup; apply in_flat_map; exists drot; split; [assumption|]; now apply (in_map (fun ref => pcomp ref drot))|].
  split; [destruct Hu as [Hu|[-> ->]]; [left; assumption|right; reflexivity]|]. split; [reflexivity|].
  unfold fac2. cbn [fst snd]. rewrite <- pfac_split, <- zf_nat by assumption. ring.
Qed.
End Factor.
