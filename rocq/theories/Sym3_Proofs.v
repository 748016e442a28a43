(** The symmetry orbits of square lattices are groups. *)
From Coq Require Import ZArith List Reals Lra Lia Bool Arith Permutation.
From Verif Require Import Base Cplx Stats_Model BranchFree_Model Dist Sampler_Model Sampler_Spec Sampler2_Proofs Sym_Model Sym_Spec Sym_Proofs Sym2_Proofs.
Import ListNotations.

(** ** grids *)
Definition grid (L : nat) (f : nat -> nat -> nat) : list (list nat) := map (fun y => map (f y) (seq 0 L)) (seq 0 L).
Lemma grid_ext L f g : (forall y x, y < L -> x < L -> f y x = g y x) -> grid L f = grid L g.
Proof. intros H. apply map_ext_in. intros y Hy. apply in_seq in Hy. apply map_ext_in. intros x Hx. apply in_seq in Hx. apply H; lia. Qed.
Lemma flip_rows_grid L f : flip_rows (grid L f) = grid L (fun y x => f (L - 1 - y) x).
Proof. unfold flip_rows, grid. rewrite rev_seq. reflexivity. Qed.
Lemma flip_cols_grid L f : flip_cols (grid L f) = grid L (fun y x => f y (L - 1 - x)).
Proof. unfold flip_cols, grid. rewrite map_map. apply map_ext. intros y. apply rev_seq. Qed.
Lemma transpose_grid L f : transpose (grid L f) = grid L (fun y x => f x y).
Proof.
  unfold transpose. unfold grid at 2. rewrite map_length, seq_length. unfold grid. apply map_ext_in. intros y Hy. apply in_seq in Hy. rewrite map_map. apply map_ext. intros x. now rewrite nth_map_seq by lia.
Qed.
Lemma roll2_grid L f a b : roll a (map (fun r => roll b r 0) (grid L f)) [] = grid L (fun y x => f ((y + (L - a mod L)) mod L) ((x + (L - b mod L)) mod L)).
Proof. unfold grid. rewrite map_map, roll_seq. apply map_ext. intros y. apply roll_seq. Qed.
Lemma nth_concat_rows {A} (rows : list (list A)) L i d : 0 < L -> Forall (fun r => length r = L) rows -> nth i (concat rows) d = nth (i mod L) (nth (i / L) rows []) d.
Proof.
  intros HL H. revert i. induction H as [|r rows Hr _ IH]; intros i; cbn [concat].
  - destruct (i mod L), (i / L), i; reflexivity.
  - destruct (Nat.lt_ge_cases i L) as [Hi|Hi].
    + rewrite app_nth1 by lia. rewrite Nat.div_small, Nat.mod_small by assumption. reflexivity.
    + rewrite app_nth2 by lia. rewrite IH, Hr. replace i with ((i - L) + 1 * L) at 3 4 by lia. rewrite Nat.div_add, Nat.mod_add by lia. rewrite Nat.add_1_r. reflexivity.
Qed.
Lemma concat_rows_length {A} (rows : list (list A)) L : Forall (fun r => length r = L) rows -> length (concat rows) = length rows * L.
Proof. induction 1 as [|r rows Hr _ IH]; [reflexivity|]. cbn. rewrite app_length, IH, Hr. reflexivity. Qed.
Lemma grid_rows L f : Forall (fun r => length r = L) (grid L f).
Proof. apply Forall_map, Forall_forall. intros. now rewrite map_length, seq_length. Qed.
Lemma grid_matrix L f : 0 < L -> map_matrix (L * L) (concat (grid L f)) = smat (L * L) 1 (fun i => f (i / L) (i mod L)).
Proof.
  intros HL. rewrite map_matrix_smat.
  - apply smat_ext. intros i Hi. rewrite (nth_concat_rows _ L) by (assumption || apply grid_rows). assert (i / L < L) by (apply Nat.div_lt_upper_bound; lia). pose proof (Nat.mod_upper_bound i L ltac:(lia)).
    unfold grid. rewrite nth_map_seq by assumption. now rewrite nth_map_seq.
  - rewrite (concat_rows_length _ L) by apply grid_rows. unfold grid. now rewrite map_length, seq_length.
Qed.

(** ** point group: exchange of the coordinates, then reflection of each *)
Definition pt := (bool * (bool * bool))%type.
Definition pcomp (d' d : pt) : pt :=
  let '(b', (r1', r2')) := d' in let '(b, (r1, r2)) := d in
  (xorb b b', if b' then (xorb r2 r1', xorb r1 r2') else (xorb r1 r1', xorb r2 r2')).
Definition gz (L : nat) (d : pt) (a : Z * Z) (p : Z * Z) : Z * Z :=
  let '(b, (r1, r2)) := d in let y := (fst p - fst a)%Z in let x := (snd p - snd a)%Z in
  (cz L r1 (if b then x else y), cz L r2 (if b then y else x)).
Definition acomp (d : pt) (a a' : Z * Z) : Z * Z :=
  let '(b, (r1, r2)) := d in
  if b then (fst a + sgz r2 * snd a', snd a + sgz r1 * fst a')%Z else (fst a + sgz r1 * fst a', snd a + sgz r2 * snd a')%Z.
Lemma gz_gz L d a d' a' p : gz L d' a' (gz L d a p) = gz L (pcomp d' d) (acomp d a a') p.
Proof.
  destruct d as (b, (r1, r2)), d' as (b', (r1', r2')), p as (y, x), a as (a1, a2), a' as (a1', a2').
  destruct b, b'; cbn [gz pcomp acomp fst snd xorb]; rewrite !cz_cz; f_equal; f_equal; ring.
Qed.
Definition iz (L : nat) (p : Z * Z) : nat := Z.to_nat (fst p * Z.of_nat L + snd p).
Definition zi (L : nat) (i : nat) : Z * Z := (Z.of_nat (i / L), Z.of_nat (i mod L)).
Definition onlat (L : nat) (p : Z * Z) : Prop := (0 <= fst p < Z.of_nat L)%Z /\ (0 <= snd p < Z.of_nat L)%Z.
Lemma zi_iz L p : onlat L p -> zi L (iz L p) = p.
Proof.
  intros [H1 H2]. destruct p as (y, x). cbn [fst snd] in *. unfold zi, iz. cbn [fst snd].
  assert (0 <= y * Z.of_nat L + x)%Z by nia. f_equal.
  - rewrite Nat2Z.inj_div, Z2Nat.id by assumption. symmetry. apply Z.div_unique with x; lia.
  - rewrite Nat2Z.inj_mod, Z2Nat.id by assumption. symmetry. apply Z.mod_unique with y; lia.
Qed.
Lemma iz_zi L i : 0 < L -> iz L (zi L i) = i.
Proof.
  intros HL. unfold zi, iz. cbn [fst snd]. rewrite <- Nat2Z.inj_mul, <- Nat2Z.inj_add, Nat2Z.id. rewrite (Nat.div_mod i L) at 3 by lia. lia.
Qed.
Lemma iz_range L p : onlat L p -> iz L p < L * L.
Proof. intros [H1 H2]. unfold iz. apply Nat2Z.inj_lt. rewrite Z2Nat.id by nia. nia. Qed.
Lemma zi_onlat L i : i < L * L -> onlat L (zi L i).
Proof.
  intros H. assert (0 < L) by nia. pose proof (Nat.mod_upper_bound i L ltac:(lia)). assert (i / L < L) by (apply Nat.div_lt_upper_bound; lia). split; cbn; lia.
Qed.
Lemma gz_onlat L d a p : 0 < L -> onlat L (gz L d a p).
Proof. intros HL. destruct d as (b, (r1, r2)). split; cbn [gz fst snd]; apply cz_range; assumption. Qed.
Definition Fz (L : nat) (d : pt) (a : Z * Z) (i : nat) : nat := iz L (gz L d a (zi L i)).
Lemma Fz_range L d a i : 0 < L -> Fz L d a i < L * L.
Proof. intros. now apply iz_range, gz_onlat. Qed.
Lemma Fz_Fz L d a d' a' i : 0 < L -> Fz L d' a' (Fz L d a i) = Fz L (pcomp d' d) (acomp d a a') i.
Proof. intros HL. unfold Fz. rewrite zi_iz by (now apply gz_onlat). now rewrite gz_gz. Qed.
Definition p0 : pt := (false, (false, false)).
Lemma Fz_id L i : i < L * L -> Fz L p0 (0, 0)%Z i = i.
Proof.
  intros H. assert (0 < L) by nia. unfold Fz, p0. cbn [gz fst snd]. destruct (zi_onlat L i H) as [H1 H2]. rewrite !Z.sub_0_r, !cz_id by assumption. rewrite <- surjective_pairing. now apply iz_zi.
Qed.
Lemma gz_mod L d a p : gz L d (fst a mod Z.of_nat L, snd a mod Z.of_nat L)%Z p = gz L d a p.
Proof. destruct d as (b, (r1, r2)). cbn [gz fst snd]. destruct b; f_equal; apply cz_eqm; now rewrite Zminus_mod_idemp_r. Qed.

(** ** the maps *)
Lemma index_grid L : get_2D_index L = grid L (fun y x => y * L + x). Proof. reflexivity. Qed.
Definition rots : list pt := [p0; (true, (true, false)); (false, (true, true)); (true, (false, true))].
Definition refs : list pt := [p0; (false, (true, false)); (false, (false, true)); (false, (true, true))].
Definition sel (use : bool) (l : list pt) : list pt := if use then l else [p0].
(** the matrix of a map *)
Definition M2 (L : nat) (m : list (list nat)) : mat := map_matrix (L * L) (concat m).
Lemma M2_grid L f d a : 0 < L -> (forall y x, y < L -> x < L -> f y x = iz L (gz L d a (Z.of_nat y, Z.of_nat x))) -> M2 L (grid L f) = smat (L * L) 1 (Fz L d a).
Proof.
  intros HL H. unfold M2. rewrite grid_matrix by assumption. apply smat_ext. intros i Hi. destruct (zi_onlat L i Hi) as [H1 H2]. unfold zi in *. cbn [fst snd] in *. rewrite H by lia. reflexivity.
Qed.
Lemma iz_nat L y x : iz L (Z.of_nat y, Z.of_nat x) = y * L + x.
Proof. unfold iz. cbn [fst snd]. lia. Qed.
Lemma cz_nat L r a i : 0 < L -> cz L r (Z.of_nat i - a) = Z.of_nat (fz L r a i).
Proof. intros HL. unfold fz. rewrite Z2Nat.id; [reflexivity|]. now apply cz_range. Qed.
Ltac m2 := intros; cbn [gz fst snd p0]; rewrite !cz_nat, ?iz_nat by assumption; rewrite ?fz_id, <- ?rev_index by lia; try lia.
Lemma rotation_mats L use f : 0 < L -> map (fun m => M2 L (fst m)) (rotation_2D L use f) = map (fun d => smat (L * L) 1 (Fz L d (0, 0)%Z)) (sel use rots).
Proof.
  intros HL. unfold rotation_2D. rewrite index_grid, flip_cols_grid, !flip_rows_grid, !transpose_grid. destruct use; cbn [map fst sel rots].
  - rewrite (M2_grid L _ p0 (0, 0)%Z), (M2_grid L _ (true, (true, false)) (0, 0)%Z), (M2_grid L _ (false, (true, true)) (0, 0)%Z), (M2_grid L _ (true, (false, true)) (0, 0)%Z); try reflexivity; try assumption; m2.
  - rewrite (M2_grid L _ p0 (0, 0)%Z); try reflexivity; try assumption; m2.
Qed.
Lemma reflection_mats L use f : 0 < L -> map (fun m => M2 L (fst m)) (reflection_2D L use f) = map (fun d => smat (L * L) 1 (Fz L d (0, 0)%Z)) (sel use refs).
Proof.
  intros HL. unfold reflection_2D. rewrite index_grid, flip_cols_grid, !flip_rows_grid. destruct use; cbn [map fst sel refs].
  - rewrite (M2_grid L _ p0 (0, 0)%Z), (M2_grid L _ (false, (true, false)) (0, 0)%Z), (M2_grid L _ (false, (false, true)) (0, 0)%Z), (M2_grid L _ (false, (true, true)) (0, 0)%Z); try reflexivity; try assumption; m2.
  - rewrite (M2_grid L _ p0 (0, 0)%Z); try reflexivity; try assumption; m2.
Qed.
Lemma translation_mats L use f A : 0 < L -> In A (map (fun m => M2 L (fst m)) (translation_2D L use f)) <->
  exists a, (a = (0, 0)%Z \/ use = true) /\ A = smat (L * L) 1 (Fz L p0 a).
Proof.
  intros HL. unfold translation_2D.
  assert (E0 : M2 L (get_2D_index L) = smat (L * L) 1 (Fz L p0 (0, 0)%Z)) by (rewrite index_grid; apply M2_grid; [assumption|]; m2).
  assert (E1 : forall x y, M2 L (roll y (map (fun r => roll x r 0) (get_2D_index L)) []) = smat (L * L) 1 (Fz L p0 (Z.of_nat y, Z.of_nat x))).
  { intros x y. rewrite index_grid, roll2_grid. apply M2_grid; [assumption|]. intros y0 x0 Hy Hx. cbn [gz fst snd p0]. rewrite !cz_nat, iz_nat, !roll_index by assumption. reflexivity. }
  cbn [map fst In]. rewrite E0. split.
  - intros [<-|H]; [eauto|]. destruct use; [|destruct H]. rewrite map_map in H. apply in_map_iff in H as ((x, y) & <- & _). cbn [fst snd]. rewrite E1. eauto.
  - intros (a & Hu & ->). destruct a as (a1, a2). pose proof (Z.mod_pos_bound a1 (Z.of_nat L) ltac:(lia)). pose proof (Z.mod_pos_bound a2 (Z.of_nat L) ltac:(lia)).
    set (y := Z.to_nat (a1 mod Z.of_nat L)). set (x := Z.to_nat (a2 mod Z.of_nat L)).
    assert (EM : smat (L * L) 1 (Fz L p0 (a1, a2)) = smat (L * L) 1 (Fz L p0 (Z.of_nat y, Z.of_nat x))).
    { apply smat_ext. intros i _. unfold Fz, y, x. rewrite !Z2Nat.id by lia. now rewrite <- (gz_mod L p0 (a1, a2)). }
    destruct ((x =? 0) && (y =? 0)) eqn:E.
    + left. apply andb_prop in E as [Ex Ey]. apply Nat.eqb_eq in Ex, Ey. rewrite EM, Ex, Ey. reflexivity.
    + destruct Hu as [Hu|Hu].
      * left. now rewrite Hu.
      * right. subst use. rewrite map_map. apply in_map_iff. exists (x, y). cbn [fst snd]. split; [now rewrite E1, EM|]. apply filter_In. split; [apply in_prod; apply in_seq; lia|]. cbn [fst snd]. now rewrite E.
Qed.
Definition raw_2D L (uT uR uRot uS : bool) fT fR fRot fS :=
  add_spinflip uS fS (get_orbits_from_maps_2D L (translation_2D L uT fT) (reflection_2D L uR fR) (rotation_2D L uRot fRot)).
(** point group of the chosen options *)
Definition pgroup (uR uRot : bool) : list pt := flat_map (fun rot => map (fun ref => pcomp ref rot) (sel uR refs)) (sel uRot rots).
Lemma pgroup_closed uR uRot d d' : In d (pgroup uR uRot) -> In d' (pgroup uR uRot) -> In (pcomp d' d) (pgroup uR uRot).
Proof.
  assert (G : forall u v, forallb (fun d => forallb (fun d' => existsb (fun e => match pcomp d' d, e with (b, (r, s)), (b', (r', s')) => Bool.eqb b b' && Bool.eqb r r' && Bool.eqb s s' end) (pgroup u v)) (pgroup u v)) (pgroup u v) = true) by (intros [] []; reflexivity).
  intros H H'. specialize (G uR uRot). rewrite forallb_forall in G. specialize (G d H). rewrite forallb_forall in G. specialize (G d' H'). apply existsb_exists in G as (e & He & E).
  destruct (pcomp d' d) as (b, (r, s)), e as (b', (r', s')). apply andb_prop in E as [E Es]. apply andb_prop in E as [Eb Er]. apply Bool.eqb_prop in Eb, Er, Es. now subst.
Qed.
Lemma pgroup_inverse uR uRot d : In d (pgroup uR uRot) -> exists d', In d' (pgroup uR uRot) /\ pcomp d' d = p0.
Proof.
  destruct uR, uRot; cbn -[p0]; intuition subst;
  match goal with |- exists d', _ /\ pcomp d' ?d = p0 =>
    first [ exists d; split; [tauto|reflexivity] | exists (true, (true, false)); split; [tauto|reflexivity] | exists (true, (false, true)); split; [tauto|reflexivity] ] end.
Qed.
Lemma pgroup_id uR uRot : In p0 (pgroup uR uRot).
Proof. destruct uR, uRot; cbn; auto. Qed.
Definition P2 (L : nat) (uT uR uRot uS : bool) (sg : Z) (f : nat -> nat) : Prop :=
  exists q d a, (q = true -> uS = true) /\ In d (pgroup uR uRot) /\ (a = (0, 0)%Z \/ uT = true) /\ sg = sgz q /\ f = Fz L d a.
Lemma pcomp_p0 d : pcomp d p0 = d.
Proof. destruct d as ([], ([], [])); reflexivity. Qed.
Lemma M2_eq L m : map_matrix (L * L) (concat m) = M2 L m. Proof. reflexivity. Qed.
Lemma orbits_2D_mats L uT uR uRot fT fR fRot A : 0 < L ->
  In A (map fst (get_orbits_from_maps_2D L (translation_2D L uT fT) (reflection_2D L uR fR) (rotation_2D L uRot fRot))) <->
  exists d a, In d (pgroup uR uRot) /\ (a = (0, 0)%Z \/ uT = true) /\ A = smat (L * L) 1 (Fz L d a).
Proof.
  intros HL.
  assert (MM : forall a rot ref, mat_mul (mat_mul (smat (L * L) 1 (Fz L p0 a)) (smat (L * L) 1 (Fz L rot (0, 0)%Z))) (smat (L * L) 1 (Fz L ref (0, 0)%Z)) = smat (L * L) 1 (Fz L (pcomp ref rot) a)).
  { intros a rot ref. rewrite !smat_mul by (intros; now apply Fz_range). apply smat_ext. intros i Hi. rewrite !Fz_Fz by assumption. rewrite pcomp_p0. f_equal.
    destruct a as (a1, a2), rot as (b, (r1, r2)). unfold p0. destruct b; cbn [acomp pcomp fst snd xorb]; f_equal; ring. }
  split.
  - intros H. apply in_map_iff in H as ((A', c) & E & H). cbn in E. subst A'. unfold get_orbits_from_maps_2D in H. apply in_flat_map in H as (t & Ht & H). apply in_flat_map in H as (rot & Hrot & H). apply in_map_iff in H as (ref & E & Href).
    rewrite !M2_eq in E. inversion E as [[EA Ec]]. clear E.
    assert (H1 : In (M2 L (fst t)) (map (fun m => M2 L (fst m)) (translation_2D L uT fT))) by (now apply (in_map (fun m => M2 L (fst m)))).
    assert (H2 : In (M2 L (fst rot)) (map (fun m => M2 L (fst m)) (rotation_2D L uRot fRot))) by (now apply (in_map (fun m => M2 L (fst m)))).
    assert (H3 : In (M2 L (fst ref)) (map (fun m => M2 L (fst m)) (reflection_2D L uR fR))) by (now apply (in_map (fun m => M2 L (fst m)))).
    apply translation_mats in H1 as (a & Ha & E1); [|assumption]. rewrite rotation_mats in H2 by assumption. rewrite reflection_mats in H3 by assumption.
    apply in_map_iff in H2 as (drot & E2 & H2). apply in_map_iff in H3 as (dref & E3 & H3). rewrite E1, <- E2, <- E3, MM.
    exists (pcomp dref drot), a. split; [|auto]. unfold pgroup. apply in_flat_map. exists drot. split; [assumption|]. now apply (in_map (fun ref => pcomp ref drot)).
  - intros (d & a & Hd & Ha & ->). unfold pgroup in Hd. apply in_flat_map in Hd as (drot & H2 & Hd). apply in_map_iff in Hd as (dref & <- & H3).
    assert (H1 : In (smat (L * L) 1 (Fz L p0 a)) (map (fun m => M2 L (fst m)) (translation_2D L uT fT))) by (apply translation_mats; eauto).
    assert (H2' : In (smat (L * L) 1 (Fz L drot (0, 0)%Z)) (map (fun m => M2 L (fst m)) (rotation_2D L uRot fRot))) by (rewrite rotation_mats by assumption; apply in_map_iff; eauto).
    assert (H3' : In (smat (L * L) 1 (Fz L dref (0, 0)%Z)) (map (fun m => M2 L (fst m)) (reflection_2D L uR fR))) by (rewrite reflection_mats by assumption; apply in_map_iff; eauto).
    apply in_map_iff in H1 as (t & E1 & H1). apply in_map_iff in H2' as (rot & E2 & H2'). apply in_map_iff in H3' as (ref & E3 & H3').
    apply in_map_iff. eexists (_, _). split; [|unfold get_orbits_from_maps_2D; apply in_flat_map; exists t; split; [assumption|]; apply in_flat_map; exists rot; split; [assumption|]; apply in_map_iff; exists ref; split; [reflexivity|assumption]].
    cbn [fst]. rewrite !M2_eq, E1, E2, E3. apply MM.
Qed.
Lemma raw_2D_mats L uT uR uRot uS fT fR fRot fS A : 0 < L -> In A (map fst (raw_2D L uT uR uRot uS fT fR fRot fS)) <-> exists sg f, P2 L uT uR uRot uS sg f /\ A = smat (L * L) sg f.
Proof.
  intros HL. unfold raw_2D, add_spinflip. set (base := get_orbits_from_maps_2D _ _ _ _).
  assert (HB : forall A, In A (map fst base) <-> exists d a, In d (pgroup uR uRot) /\ (a = (0, 0)%Z \/ uT = true) /\ A = smat (L * L) 1 (Fz L d a)) by (intros; now apply orbits_2D_mats).
  clearbody base.
  assert (HO : map fst (map (fun of : mat * C => (mat_opp (fst of), Cmul fS (snd of))) base) = map mat_opp (map fst base)) by (rewrite !map_map; reflexivity).
  split.
  - intros H. assert (HH : In A (map fst base) \/ uS = true /\ In A (map mat_opp (map fst base))).
    { destruct uS; [|auto]. rewrite map_app, HO in H. apply in_app_iff in H as [H|H]; auto. }
    destruct HH as [HH|[HS HH]].
    + apply HB in HH as (d & a & H1 & H2 & ->). exists 1%Z, (Fz L d a). split; [|reflexivity]. exists false, d, a. repeat split; auto. discriminate.
    + apply in_map_iff in HH as (A' & <- & HH). apply HB in HH as (d & a & H1 & H2 & ->). rewrite mat_opp_smat. exists (-1)%Z, (Fz L d a). split; [|reflexivity]. exists true, d, a. repeat split; auto.
  - intros (sg & f & (q & d & a & H1 & H2 & H3 & -> & ->) & ->).
    assert (HI : In (smat (L * L) 1 (Fz L d a)) (map fst base)) by (apply HB; eauto). destruct q.
    + rewrite H1 by reflexivity. rewrite map_app, HO. apply in_app_iff. right. assert (EO : smat (L * L) (sgz true) (Fz L d a) = mat_opp (smat (L * L) 1 (Fz L d a))) by (rewrite mat_opp_smat; reflexivity). rewrite EO. now apply in_map.
    + destruct uS; [rewrite map_app; apply in_app_iff; left|]; exact HI.
Qed.
Lemma raw_2D_square L uT uR uRot uS fT fR fRot fS : 0 < L -> Forall (fun x => square (L * L) (fst x)) (raw_2D L uT uR uRot uS fT fR fRot fS).
Proof.
  intros HL. apply Forall_forall. intros x H. assert (H' : In (fst x) (map fst (raw_2D L uT uR uRot uS fT fR fRot fS))) by now apply in_map.
  apply raw_2D_mats in H' as (sg & f & _ & ->); [|assumption]. apply smat_square.
Qed.
Lemma orbit_2D_group L uT uR uRot uS fT fR fRot fS : 0 < L -> is_group (L * L) (map fst (get_orbit_2D_square L uT uR uRot uS fT fR fRot fS)).
Proof.
  intros HL. destruct (unique_mats (L * L) (raw_2D L uT uR uRot uS fT fR fRot fS) (raw_2D_square _ _ _ _ _ _ _ _ _ HL)) as [HN HI].
  apply (group_of (L * L) _ (P2 L uT uR uRot uS)).
  - intros A. rewrite <- (raw_2D_mats L uT uR uRot uS fT fR fRot fS A HL). apply HI.
  - exact HN.
  - intros sg f (q & d & a & _ & _ & _ & -> & ->). split; [apply sgz_unit|]. intros i _. now apply Fz_range.
  - exists (Fz L p0 (0, 0)%Z). split; [|intros; now apply Fz_id]. exists false, p0, (0, 0)%Z. repeat split; auto; [discriminate|apply pgroup_id].
  - intros sg f tu g (q & d & a & H1 & H2 & H3 & -> & ->) (q' & d' & a' & H1' & H2' & H3' & -> & ->).
    exists (Fz L (pcomp d' d) (acomp d a a')). split; [|intros i Hi; now rewrite Fz_Fz].
    exists (xorb q q'), (pcomp d' d), (acomp d a a'). split; [now apply xorb_use|]. split; [now apply pgroup_closed|]. split; [|split; [apply sgz_mul|reflexivity]].
    destruct H3 as [->|]; [|auto]. destruct H3' as [->|]; [|auto]. left. destruct d as ([], ([], [])); reflexivity.
  - intros sg f (q & d & a & H1 & H2 & H3 & -> & ->). destruct (pgroup_inverse _ _ _ H2) as (d' & Hd' & E).
    set (a' := let '(b, (r1, r2)) := d in if b then (- sgz r1 * snd a, - sgz r2 * fst a)%Z else (- sgz r1 * fst a, - sgz r2 * snd a)%Z).
    exists (Fz L d' a'). split.
    + exists q, d', a'. repeat split; auto. destruct H3 as [->|]; [left; unfold a'; destruct d as ([], ([], [])); reflexivity|auto].
    + intros i Hi. rewrite Fz_Fz by assumption. rewrite E. replace (acomp d a a') with (0, 0)%Z; [now apply Fz_id|].
      unfold a'. destruct d as (b, (r1, r2)), a as (a1, a2). destruct b; cbn [acomp fst snd]; f_equal; destruct r1, r2; cbn [sgz]; ring.
Qed.
