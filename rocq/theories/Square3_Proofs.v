(** Factors of the generators, necessity of the conditions, order of the groups. *)
From Coq Require Import ZArith List Reals Lra Lia Bool Arith Permutation.
From Verif Require Import Base Cplx Stats_Model BranchFree_Model Dist Sampler_Model Sampler_Spec Sampler2_Proofs Exact_Proofs
  Sym_Model Sym_Spec Sym_Proofs Sym2_Proofs Sym3_Proofs Sym4_Proofs Sym5_Proofs Square_Spec Square_Proofs Square2_Proofs.
Import ListNotations.

Lemma back_index L i : 0 < L -> i < L -> (i + (L - 1)) mod L = fz L false 1 i.
Proof.
  intros HL Hi. unfold fz, cz. cbn [sgz shz]. rewrite <- (Nat2Z.id ((i + (L - 1)) mod L)), Nat2Z.inj_mod. f_equal. apply (mod_add_k _ _ _ 1). lia.
Qed.
Lemma gback_y L i : 0 < L -> i < L * L -> coords L (fun y x => ((y + (L - 1)) mod L, x)) i = Fz L p0 (1, 0)%Z i.
Proof. intros HL. apply coords_Fz; [assumption|]. intros y x Hy Hx. cbn [fst snd gz p0]. rewrite !cz_nat by assumption. rewrite fz_id by assumption. now rewrite back_index. Qed.
Lemma gback_x L i : 0 < L -> i < L * L -> coords L (fun y x => (y, (x + (L - 1)) mod L)) i = Fz L p0 (0, 1)%Z i.
Proof. intros HL. apply coords_Fz; [assumption|]. intros y x Hy Hx. cbn [fst snd gz p0]. rewrite !cz_nat by assumption. rewrite fz_id by assumption. now rewrite back_index. Qed.
Lemma gturn' L i : 0 < L -> i < L * L -> coords L (fun y x => (L - 1 - x, y)) i = Fz L (true, (true, false)) (0, 0)%Z i.
Proof. intros HL. apply coords_Fz; [assumption|]. intros y x Hy Hx. cbn [fst snd gz]. rewrite !cz_nat by assumption. rewrite fz_id by assumption. now rewrite rev_index. Qed.
Lemma moves_coords L f A : moves_square L f A -> A = smat (L * L) 1 (coords L f).
Proof. apply moves_smat. Qed.
Lemma coords_moves L f d a : (forall i, i < L * L -> coords L f i = Fz L d a i) -> moves_square L f (smat (L * L) 1 (Fz L d a)).
Proof. intros H. rewrite <- (smat_ext _ _ _ _ H). apply smat_moves. Qed.
Lemma two_ref L i : L = 2 -> i < L * L -> Fz L (false, (true, false)) (0, 0)%Z i = Fz L p0 (1, 0)%Z i.
Proof. intros -> Hi. do 4 (destruct i as [|i]; [reflexivity|]). lia. Qed.
Lemma two_half L i : L = 2 -> i < L * L -> Fz L (false, (true, true)) (0, 0)%Z i = Fz L p0 (1, 1)%Z i.
Proof. intros -> Hi. do 4 (destruct i as [|i]; [reflexivity|]). lia. Qed.

Section Generators.
Variables (L : nat) (uT uR uRot uS : bool) (fT fR fRot fS : C).
Hypothesis HL : 0 < L.
Notation orbit := (get_orbit_2D_square L uT uR uRot uS fT fR fRot fS).
Lemma orbit_requested : consistent_square L uT uR uRot uS fT fR fRot fS -> requested L uT uR uRot uS fT fR fRot fS orbit.
Proof.
  intros HC A c H. pose proof (zf_0 L uT fT HL) as Z0.
  assert (V : forall q d a, In d (pgroup uR uRot) -> (uT = true \/ a = (0, 0)%Z) -> A = smat (L * L) (sgz q) (Fz L d a) -> c = fac2 L uT uRot fT fR fRot fS q d a).
  { intros q d a Hd Ha E. now apply (orbit_2D_value L uT uR uRot uS fT fR fRot fS HL HC A). }
  assert (VT : uT = true -> zf L uT fT 1 = fT).
  { intros u. unfold zf. rewrite u. destruct HC as (KT & _). specialize (KT u). rewrite times_pow in KT.
    assert (L = 1 \/ 2 <= L) as [E1|E2] by lia.
    - rewrite E1 in *. cbn [Cpow] in KT. change (Z.to_nat (1 mod Z.of_nat 1)) with 0. cbn [Cpow]. rewrite <- KT. ring.
    - rewrite Z.mod_small by lia. change (Z.to_nat 1) with 1. cbn [Cpow]. ring. }
  assert (P0 : pfac uRot fR fRot p0 = C1). { unfold pfac, p0. cbn [kd xorb]. destruct uRot; cbn [Cpow]; ring. }
  repeat split.
  - intros Q. rewrite (V false p0 (0, 0)%Z); [|apply pgroup_id|auto|].
    + unfold fac2. cbn [fst snd Z.add]. rewrite Z0, P0. ring.
    + rewrite (identity_smat _ _ Q). apply smat_ext. intros i Hi. now rewrite Fz_id.
  - intros u Q. rewrite (V false p0 (1, 0)%Z); [|apply pgroup_id|auto|].
    + unfold fac2. cbn [fst snd]. change (1 + 0)%Z with 1%Z. rewrite P0, VT by assumption. ring.
    + rewrite (moves_coords _ _ _ Q). apply smat_ext. intros i Hi. now apply gback_y.
  - intros u Q. rewrite (V false p0 (0, 1)%Z); [|apply pgroup_id|auto|].
    + unfold fac2. cbn [fst snd]. change (0 + 1)%Z with 1%Z. rewrite P0, VT by assumption. ring.
    + rewrite (moves_coords _ _ _ Q). apply smat_ext. intros i Hi. now apply gback_x.
  - intros u Q. rewrite (V false (false, (true, false)) (0, 0)%Z); [|clear HC V; rewrite u; destruct uRot; cbn; tauto|auto|].
    + unfold fac2. cbn [fst snd Z.add]. rewrite Z0. unfold pfac. cbn [kd xorb]. destruct (Bool.bool_dec uRot true) as [w|w].
      * pose proof (c_Rot2 L uT uR uRot uS fT fR fRot fS HC u w) as K. rewrite w. cbn [Cpow]. ring [K].
      * apply not_true_is_false in w. rewrite w. cbn [Cpow]. ring.
    + rewrite (moves_coords _ _ _ Q). apply smat_ext. intros i Hi. now apply gref_y.
  - intros u Q. rewrite (V false (false, (false, true)) (0, 0)%Z); [|clear HC V; rewrite u; destruct uRot; cbn; tauto|auto|].
    + unfold fac2. cbn [fst snd Z.add]. rewrite Z0. unfold pfac. cbn [kd xorb]. replace (if uRot then 0 else 0) with 0 by (destruct uRot; reflexivity). cbn [Cpow]. ring.
    + rewrite (moves_coords _ _ _ Q). apply smat_ext. intros i Hi. now apply gref_x.
  - intros u Q. rewrite (V false (true, (true, false)) (0, 0)%Z); [|clear HC V; rewrite u; destruct uR; cbn; tauto|auto|].
    + unfold fac2. cbn [fst snd Z.add]. rewrite Z0. unfold pfac. rewrite u. cbn [kd xorb Cpow]. ring.
    + rewrite (moves_coords _ _ _ Q). apply smat_ext. intros i Hi. now apply gturn'.
  - intros u Q. rewrite (V true p0 (0, 0)%Z); [|apply pgroup_id|auto|].
    + unfold fac2. cbn [fst snd Z.add]. rewrite Z0, P0. ring.
    + rewrite (flips_smat _ _ Q). apply smat_ext. intros i Hi. now rewrite Fz_id.
Qed.

(** ** the conditions are necessary *)
Hypothesis HX : is_character (L * L) orbit.
Hypothesis HQ : requested L uT uR uRot uS fT fR fRot fS orbit.
Definition el (q : bool) (d : pt) (a : Z * Z) : mat := smat (L * L) (sgz q) (Fz L d a).
Definition X (q : bool) (d : pt) (a : Z * Z) : C := chi orbit (el q d a).
Definition ok (q : bool) (d : pt) (a : Z * Z) : Prop := (q = true -> uS = true) /\ In d (pgroup uR uRot) /\ (a = (0, 0)%Z \/ uT = true).
Lemma el_in q d a : ok q d a -> In (el q d a, X q d a) orbit.
Proof.
  intros (Hq & Hd & Ha). apply chi_in'. destruct (unique_mats (L * L) (raw_2D L uT uR uRot uS fT fR fRot fS) (raw_2D_square _ _ _ _ _ _ _ _ _ HL)) as [_ HI].
  apply HI. apply raw_2D_mats; [assumption|]. exists (sgz q), (Fz L d a). split; [|reflexivity]. exists q, d, a. auto.
Qed.
Lemma ok_comp q d a q' d' a' : ok q d a -> ok q' d' a' -> ok (xorb q q') (pcomp d' d) (acomp d a a').
Proof.
  intros (Hq & Hd & Ha) (Hq' & Hd' & Ha'). split; [now apply xorb_use|]. split; [now apply pgroup_closed|].
  destruct Ha as [-> |]; [|auto]. destruct Ha' as [-> |]; [|auto]. left. destruct d as ([], ([], [])); reflexivity.
Qed.
Lemma X_mul q d a q' d' a' : ok q d a -> ok q' d' a' -> X (xorb q q') (pcomp d' d) (acomp d a a') = Cmul (X q d a) (X q' d' a').
Proof.
  intros H H'. apply (HX (el q d a) _ (el q' d' a') _ (el (xorb q q') (pcomp d' d) (acomp d a a'))); try (now apply el_in); [apply el_in; now apply ok_comp|].
  unfold el. rewrite <- sgz_mul. rewrite (smat_ext (L * L) _ (Fz L (pcomp d' d) (acomp d a a')) (fun i => Fz L d' a' (Fz L d a i))) by (intros; now rewrite Fz_Fz).
  apply smat_product. intros; now apply Fz_range.
Qed.
Lemma X_ext q d a d' a' : (forall i, i < L * L -> Fz L d a i = Fz L d' a' i) -> X q d a = X q d' a'.
Proof. intros H. unfold X, el. now rewrite (smat_ext _ _ _ _ H). Qed.
Lemma X_id : X false p0 (0, 0)%Z = C1.
Proof.
  destruct (HQ _ _ (el_in false p0 (0, 0)%Z ltac:(split; [discriminate|]; split; [apply pgroup_id|auto]))) as (K & _). apply K. split; [apply smat_square|]. intros i j Hi Hj. unfold el. rewrite smat_entry by assumption. now rewrite Fz_id.
Qed.
Lemma ok_T a : uT = true -> ok false p0 a. Proof. intros u. split; [discriminate|]. split; [apply pgroup_id|auto]. Qed.
Lemma X_Ty : uT = true -> X false p0 (1, 0)%Z = fT.
Proof. intros u. destruct (HQ _ _ (el_in false p0 (1, 0)%Z (ok_T _ u))) as (_ & K & _). apply (K u). apply coords_moves. intros i Hi. now apply gback_y. Qed.
Lemma X_Tx : uT = true -> X false p0 (0, 1)%Z = fT.
Proof. intros u. destruct (HQ _ _ (el_in false p0 (0, 1)%Z (ok_T _ u))) as (_ & _ & K & _). apply (K u). apply coords_moves. intros i Hi. now apply gback_x. Qed.
Lemma ok_R r1 r2 : uR = true -> ok false (false, (r1, r2)) (0, 0)%Z.
Proof. intros u. split; [discriminate|]. split; [|auto]. clear HX HQ. rewrite u. destruct uRot, r1, r2; cbn; tauto. Qed.
Lemma X_Ry : uR = true -> X false (false, (true, false)) (0, 0)%Z = fR.
Proof. intros u. destruct (HQ _ _ (el_in false _ (0, 0)%Z (ok_R true false u))) as (_ & _ & _ & K & _). apply (K u). apply coords_moves. intros i Hi. now apply gref_y. Qed.
Lemma ok_Rot d : uRot = true -> In d rots -> ok false d (0, 0)%Z.
Proof.
  intros u Hd. split; [discriminate|]. split; [|auto]. clear HX HQ. rewrite u. destruct uR; destruct Hd as [<-|[<-|[<-|[<-|[]]]]]; cbn; tauto.
Qed.
Lemma X_Rot : uRot = true -> X false (true, (true, false)) (0, 0)%Z = fRot.
Proof. intros u. destruct (HQ _ _ (el_in false _ (0, 0)%Z (ok_Rot (true, (true, false)) u ltac:(cbn; auto)))) as (_ & _ & _ & _ & _ & K & _). apply (K u). apply coords_moves. intros i Hi. now apply gturn'. Qed.
Lemma X_S : uS = true -> X true p0 (0, 0)%Z = fS.
Proof.
  intros u. destruct (HQ _ _ (el_in true p0 (0, 0)%Z ltac:(split; [auto|]; split; [apply pgroup_id|auto]))) as (_ & _ & _ & _ & _ & _ & K). apply (K u). split; [apply smat_square|]. intros i j Hi Hj. unfold el. rewrite smat_entry by assumption. now rewrite Fz_id.
Qed.
Lemma X_half : uRot = true -> X false (false, (true, true)) (0, 0)%Z = Cmul fRot fRot.
Proof.
  intros u. pose proof (ok_Rot (true, (true, false)) u ltac:(cbn; auto)) as O. pose proof (X_mul _ _ _ _ _ _ O O) as E. rewrite !X_Rot in E by assumption. exact E.
Qed.
Lemma X_half4 : uRot = true -> Cmul (Cmul fRot fRot) (Cmul fRot fRot) = C1.
Proof.
  intros u. pose proof (ok_Rot (false, (true, true)) u ltac:(cbn; auto)) as O. pose proof (X_mul _ _ _ _ _ _ O O) as E. rewrite !X_half in E by assumption. rewrite <- E. exact X_id.
Qed.
Lemma X_R2 : uR = true -> Cmul fR fR = C1.
Proof. intros u. pose proof (ok_R true false u) as O. pose proof (X_mul _ _ _ _ _ _ O O) as E. rewrite !X_Ry in E by assumption. rewrite <- E. exact X_id. Qed.
Lemma X_T2 d w : uT = true -> ok false d (0, 0)%Z -> (d = (false, (true, false)) \/ d = (false, (true, true))) -> X false d (0, 0)%Z = w -> Cmul w w = C1 -> Cmul fT fT = C1.
Proof.
  intros u O Hd Ew Hw. pose proof (X_mul _ _ _ _ _ _ O (ok_T (1, 0)%Z u)) as E1. pose proof (X_mul _ _ _ _ _ _ (ok_T (-1, 0)%Z u) O) as E2. pose proof (X_mul _ _ _ _ _ _ (ok_T (-1, 0)%Z u) (ok_T (1, 0)%Z u)) as E3.
  rewrite X_Ty in E1, E3 by assumption. rewrite Ew in E1, E2.
  change (X (xorb false false) (pcomp p0 p0) (acomp p0 (-1, 0)%Z (1, 0)%Z)) with (X false p0 (0, 0)%Z) in E3. rewrite X_id in E3.
  assert (E12 : X (xorb false false) (pcomp p0 d) (acomp d (0, 0)%Z (1, 0)%Z) = X (xorb false false) (pcomp d p0) (acomp p0 (-1, 0)%Z (0, 0)%Z)) by (destruct Hd as [-> | ->]; reflexivity).
  rewrite E1, E2 in E12. set (v := X false p0 (-1, 0)%Z) in *.
  assert (Ev : fT = v). { transitivity (Cmul w (Cmul w fT)); [ring [Hw]|]. rewrite E12. ring [Hw]. }
  rewrite Ev in E3 |- *. now rewrite <- E3.
Qed.
Lemma X_pow k : uT = true -> X false p0 (Z.of_nat k, 0)%Z = Cpow fT k.
Proof.
  intros u. induction k as [|k IH]; [exact X_id|]. pose proof (X_mul _ _ _ _ _ _ (ok_T (Z.of_nat k, 0)%Z u) (ok_T (1, 0)%Z u)) as E. rewrite IH, X_Ty in E by assumption. cbn [Cpow].
  transitivity (Cmul (Cpow fT k) fT); [|ring]. rewrite <- E. unfold p0. cbn [xorb pcomp acomp fst snd sgz]. f_equal. f_equal; lia.
Qed.
Lemma necessary : consistent_square L uT uR uRot uS fT fR fRot fS.
Proof.
  assert (KT : uT = true -> times L fT = C1).
  { intros u. rewrite times_pow, <- X_pow by assumption. rewrite <- X_id. apply X_ext. intros i Hi. unfold Fz. f_equal. rewrite <- (gz_mod L p0 (Z.of_nat L, 0)%Z). cbn [fst snd]. now rewrite Z.mod_same, Z.mod_0_l by lia. }
  assert (KT2 : uT = true -> uR = true \/ uRot = true -> times 2 fT = C1).
  { intros u Hu. rewrite times_pow. cbn [Cpow]. transitivity (Cmul fT fT); [ring|]. destruct Hu as [w|w].
    - apply (X_T2 (false, (true, false)) fR u); [now apply ok_R|auto|now apply X_Ry|now apply X_R2].
    - apply (X_T2 (false, (true, true)) (Cmul fRot fRot) u); [apply ok_Rot; cbn; auto|auto|now apply X_half|now apply X_half4]. }
  assert (One : L = 1 -> forall q d a d' a', X q d a = X q d' a').
  { intros E1 q d a d' a'. apply X_ext. intros i Hi. pose proof (Fz_range L d a i HL). pose proof (Fz_range L d' a' i HL). nia. }
  repeat split; intros; rewrite ?times_pow; cbn [Cpow].
  - rewrite <- times_pow. auto.
  - transitivity (Cmul fR fR); [ring|now apply X_R2].
  - transitivity (Cmul (Cmul fRot fRot) (Cmul fRot fRot)); [ring|now apply X_half4].
  - rename H into u. pose proof (ok_T (0, 0)%Z) as _. assert (O : ok true p0 (0, 0)%Z) by (split; [auto|]; split; [apply pgroup_id|auto]).
    pose proof (X_mul _ _ _ _ _ _ O O) as E. rewrite X_S in E by assumption. transitivity (Cmul fS fS); [ring|]. rewrite <- E. exact X_id.
  - specialize (KT2 H H0). rewrite times_pow in KT2. exact KT2.
  - transitivity (Cmul fRot fRot); [ring|]. rename H into u, H0 into w.
    pose proof (X_R2 u) as K2. pose proof (X_half4 w) as K4.
    pose proof (ok_R true false u) as OR. pose proof (ok_Rot (true, (true, false)) w ltac:(cbn; auto)) as O1. pose proof (ok_Rot (false, (true, true)) w ltac:(cbn; auto)) as O2. pose proof (ok_Rot (true, (false, true)) w ltac:(cbn; auto)) as O3.
    pose proof (X_mul _ _ _ _ _ _ O1 OR) as E1. pose proof (X_mul _ _ _ _ _ _ OR O3) as E2. pose proof (X_mul _ _ _ _ _ _ O1 O2) as E3.
    rewrite X_Ry in E1, E2 by assumption. rewrite X_Rot in E1, E3 by assumption. rewrite X_half in E3 by assumption.
    change (X (xorb false false) (pcomp (false, (true, true)) (true, (true, false))) (acomp (true, (true, false)) (0, 0)%Z (0, 0)%Z)) with (X false (true, (false, true)) (0, 0)%Z) in E3. rewrite E3 in E2.
    assert (E12 : Cmul fRot fR = Cmul fR (Cmul fRot (Cmul fRot fRot))) by (rewrite <- E1, <- E2; reflexivity).
    transitivity (Cmul (Cmul fRot (Cmul fR (Cmul fRot fR))) C1); [ring [K2]|]. rewrite E12. ring [K2 K4].
  - rewrite <- X_Ry, <- X_id by assumption. auto.
  - rewrite <- X_Rot, <- X_id by assumption. auto.
  - rewrite <- X_Ry, <- X_Ty by assumption. apply X_ext. intros. now apply two_ref.
  - transitivity (Cmul fRot fRot); [ring|]. rename H into u, H0 into w, H1 into E2. rewrite <- (X_half w).
    pose proof (X_mul _ _ _ _ _ _ (ok_T (1, 0)%Z u) (ok_T (0, 1)%Z u)) as E. rewrite X_Ty, X_Tx in E by assumption.
    specialize (KT2 u (or_intror w)). rewrite times_pow in KT2. cbn [Cpow] in KT2. assert (KK : Cmul fT fT = C1) by (rewrite <- KT2; ring). rewrite KK in E. rewrite <- E.
    apply X_ext. intros. now apply two_half.
Qed.
End Generators.

(** ** order *)
Definition plist (uR uRot : bool) : list pt :=
  if uRot then (if uR then list_prod [false; true] (list_prod [false; true] [false; true]) else rots) else (if uR then refs else [p0]).
Lemma plist_in uR uRot d : In d (plist uR uRot) <-> In d (pgroup uR uRot).
Proof. destruct uR, uRot, d as ([], ([], [])); cbn; intuition congruence. Qed.
Lemma plist_NoDup uR uRot : NoDup (plist uR uRot).
Proof.
  assert (B : NoDup [false; true]) by (apply NoDup_cons; [cbn; intuition congruence|]; apply NoDup_cons; [intros []|apply NoDup_nil]).
  destruct uR, uRot; unfold plist; [repeat apply NoDup_list_prod; exact B| | |]; unfold refs, rots, p0; repeat (apply NoDup_cons; [cbn; intuition congruence|]); apply NoDup_nil.
Qed.
Definition canon2 (L : nat) (uT uR uRot uS : bool) : list (bool * (pt * (nat * nat))) :=
  list_prod (if uS then [false; true] else [false]) (list_prod (plist uR uRot) (if uT then list_prod (seq 0 L) (seq 0 L) else [(0, 0)])).
Definition cmat2 (L : nat) (p : bool * (pt * (nat * nat))) : mat :=
  smat (L * L) (sgz (fst p)) (Fz L (fst (snd p)) (Z.of_nat (fst (snd (snd p))), Z.of_nat (snd (snd (snd p))))).
Lemma canon2_in L uT uR uRot uS q d y x : In (q, (d, (y, x))) (canon2 L uT uR uRot uS) <->
  (q = true -> uS = true) /\ In d (pgroup uR uRot) /\ In (y, x) (if uT then list_prod (seq 0 L) (seq 0 L) else [(0, 0)]).
Proof. unfold canon2. rewrite !in_prod_iff, in_use, plist_in. tauto. Qed.
Lemma in_use2 L (uT : bool) y x : 0 < L -> In (y, x) (if uT then list_prod (seq 0 L) (seq 0 L) else [(0, 0)]) -> y < L /\ x < L.
Proof. intros HL. destruct uT; [rewrite in_prod_iff, !in_seq; lia|]. intros [H|[]]. inversion H. lia. Qed.
Lemma cz_three L r r' u u' : 3 <= L -> u < L -> u' < L -> (forall t, (0 <= t < Z.of_nat L)%Z -> cz L r (t - Z.of_nat u) = cz L r' (t - Z.of_nat u')) -> r = r' /\ u = u'.
Proof.
  intros HL Hu Hu' H. apply cz_two in H; [|lia]. destruct H as [[-> H]|(H & _)]; [|lia]. split; [reflexivity|]. rewrite !Z.mod_small in H by lia. lia.
Qed.
Lemma cmat2_NoDup L uT uR uRot uS : 3 <= L -> NoDup (map (cmat2 L) (canon2 L uT uR uRot uS)).
Proof.
  intros HL. assert (ND : NoDup (canon2 L uT uR uRot uS)).
  { unfold canon2. apply NoDup_list_prod; [destruct uS; repeat constructor; cbn; intuition congruence|]. apply NoDup_list_prod; [apply plist_NoDup|].
    destruct uT; [apply NoDup_list_prod; apply seq_NoDup|repeat constructor; intros []]. }
  assert (INJ : forall p p', In p (canon2 L uT uR uRot uS) -> In p' (canon2 L uT uR uRot uS) -> cmat2 L p = cmat2 L p' -> p = p').
  { intros (q, ((b, (r1, r2)), (y, x))) (q', ((b', (r1', r2')), (y', x'))) H H' E. apply canon2_in in H as (H1 & H2 & H3). apply canon2_in in H' as (H1' & H2' & H3'). unfold cmat2 in E. cbn [fst snd] in E.
    apply in_use2 in H3; [|lia]. apply in_use2 in H3'; [|lia]. apply smat_Fz in E as [<- Ef]; [|lia]. apply Fz_two in Ef as (<- & F1 & F2); [|lia].
    destruct b; cbn [sh1 sh2 fst snd] in F1, F2; (apply cz_three in F1; [|lia|lia|lia]); (apply cz_three in F2; [|lia|lia|lia]); destruct F1 as [-> ->], F2 as [-> ->]; reflexivity. }
  clear -ND INJ. induction ND as [|p l Hp ND IH]; [constructor|]. cbn. constructor.
  - intros H. apply in_map_iff in H as (p' & E & H). apply Hp. rewrite <- (INJ p' p); cbn; auto.
  - apply IH. intros; apply INJ; cbn; auto.
Qed.
Lemma canon2_length L uT uR uRot uS : 3 <= L -> length (canon2 L uT uR uRot uS) = (if uS then 2 else 1) * square_order L uT uR uRot.
Proof.
  intros HL. unfold canon2, square_order. rewrite !prod_length. replace (L =? 1) with false by (symmetry; apply Nat.eqb_neq; lia). replace (L =? 2) with false by (symmetry; apply Nat.eqb_neq; lia).
  assert (E : length (if uT then list_prod (seq 0 L) (seq 0 L) else [(0, 0)]) = if uT then L * L else 1) by (destruct uT; [now rewrite prod_length, !seq_length|reflexivity]). rewrite E.
  assert (E' : length (plist uR uRot) = if uRot then if uR then 8 else 4 else if uR then 4 else 1) by (destruct uR, uRot; reflexivity). rewrite E'.
  destruct uS; cbn [length]; rewrite (Nat.mul_comm (if uT then L * L else 1)); reflexivity.
Qed.
Lemma orbit_2D_count L uT uR uRot uS fT fR fRot fS : 0 < L -> length (get_orbit_2D_square L uT uR uRot uS fT fR fRot fS) = (if uS then 2 else 1) * square_order L uT uR uRot.
Proof.
  intros HL. assert (L = 1 \/ L = 2 \/ 3 <= L) as [->|[->|H3]] by lia.
  - destruct uT, uR, uRot, uS; lazy; reflexivity.
  - destruct uT, uR, uRot, uS; lazy; reflexivity.
  - rewrite <- canon2_length, <- (map_length fst), <- (map_length (cmat2 L)) by assumption.
    destruct (unique_mats (L * L) (raw_2D L uT uR uRot uS fT fR fRot fS) (raw_2D_square _ _ _ _ _ _ _ _ _ HL)) as [HN HI].
    apply Permutation_length, NoDup_Permutation; [exact HN|now apply cmat2_NoDup|]. intros A. rewrite (HI A), raw_2D_mats by assumption. split.
    + intros (sg & f & (q & d & (a1, a2) & H1 & H2 & Ha & -> & ->) & ->). apply in_map_iff.
      pose proof (Z.mod_pos_bound a1 (Z.of_nat L) ltac:(lia)). pose proof (Z.mod_pos_bound a2 (Z.of_nat L) ltac:(lia)).
      exists (q, (d, (Z.to_nat (a1 mod Z.of_nat L), Z.to_nat (a2 mod Z.of_nat L)))). split.
      * unfold cmat2. cbn [fst snd]. rewrite !Z2Nat.id by lia. apply smat_ext. intros i _. unfold Fz. f_equal. apply (gz_mod L d (a1, a2)).
      * apply canon2_in. repeat split; auto. destruct uT; [apply in_prod; apply in_seq; lia|]. destruct Ha as [Ha|]; [|discriminate]. inversion Ha; subst. rewrite Z.mod_0_l by lia. left. reflexivity.
    + intros H. apply in_map_iff in H as ((q, (d, (y, x))) & <- & H). apply canon2_in in H as (H1 & H2 & Hyx). eexists _, _. split; [|reflexivity].
      exists q, d, (Z.of_nat y, Z.of_nat x). repeat split; auto. destruct uT; [auto|]. destruct Hyx as [E|[]]. inversion E; subst. auto.
Qed.
