(** The directions of the symmetric POVM and their moments. *)
From Coq Require Import String List Reals Bool Arith Lia Lra Nsatz.
From Verif Require Import Base Cplx Povm_Model Povm_Spec Povm_Proofs.
Import ListNotations.
Local Open Scope R_scope.

Lemma rsumn3 f : rsumn 3 f = f 0%nat + f 1%nat + f 2%nat.
Proof. unfold rsumn. cbn [seq map]. rewrite !rsum_cons, rsum_nil. ring. Qed.
Lemma rsumn4 f : rsumn 4 f = f 0%nat + f 1%nat + f 2%nat + f 3%nat.
Proof. unfold rsumn. cbn [seq map]. rewrite !rsum_cons, rsum_nil. ring. Qed.
Lemma csumn2 f : csumn 2 f = (f 0%nat + f 1%nat)%C.
Proof. unfold csumn. cbn [seq map]. rewrite !csum_cons, csum_nil. ring. Qed.
Lemma csumn3 f : csumn 3 f = (f 0%nat + f 1%nat + f 2%nat)%C.
Proof. unfold csumn. cbn [seq map]. rewrite !csum_cons, csum_nil. ring. Qed.
Lemma csumn4 f : csumn 4 f = (f 0%nat + f 1%nat + f 2%nat + f 3%nat)%C.
Proof. unfold csumn. cbn [seq map]. rewrite !csum_cons, csum_nil. ring. Qed.

Definition dirs (theta phi : R) : rmat := rdot 3 sic_directions (rotator theta phi).

Ltac cases4 a H := destruct a as [|[|[|[|a]]]]; [| | | |lia]; clear H.
Ltac cases3 a H := destruct a as [|[|[|a]]]; [| | |lia]; clear H.
Ltac cases2 a H := destruct a as [|[|a]]; [| |lia]; clear H.
(** the rotation is orthogonal *)
Ltac trig theta phi :=
  pose proof (sin2_cos2 theta) as HT; pose proof (sin2_cos2 phi) as HP; unfold Rsqr in HT, HP;
  set (ct := cos theta) in *; set (st := sin theta) in *; set (cp := cos phi) in *; set (sp := sin phi) in *; clearbody ct st cp sp.
Lemma rot_rows theta phi i j : (i < 3)%nat -> (j < 3)%nat ->
  rsumn 3 (fun k => rotator theta phi i k * rotator theta phi j k) = if (i =? j)%nat then 1 else 0.
Proof.
  intros Hi Hj. cases3 i Hi; cases3 j Hj; cbn [Nat.eqb]; rewrite rsumn3; unfold rotator, rdot; rewrite !rsumn3; unfold transpose, rows; cbn [List.nth]; trig theta phi; nsatz.
Qed.
Lemma rot_cols theta phi i j : (i < 3)%nat -> (j < 3)%nat ->
  rsumn 3 (fun k => rotator theta phi k i * rotator theta phi k j) = if (i =? j)%nat then 1 else 0.
Proof.
  intros Hi Hj. cases3 i Hi; cases3 j Hj; cbn [Nat.eqb]; rewrite rsumn3; unfold rotator, rdot; rewrite !rsumn3; unfold transpose, rows; cbn [List.nth]; trig theta phi; nsatz.
Qed.
(** the directions before the rotation *)
Ltac roots :=
  unfold sic_directions, rows; cbn [List.nth]; pose proof (sqrt_sqrt 2 ltac:(lra)) as HQ; pose proof (sqrt_sqrt (2/3) ltac:(lra)) as HR;
  set (q := sqrt 2) in *; set (r := sqrt (2/3)) in *; clearbody q r.
Lemma sic_sum k : (k < 3)%nat -> rsumn 4 (fun a => sic_directions a k) = 0.
Proof. intros H. cases3 k H; rewrite rsumn4; roots; field. Qed.
Lemma sic_dot a b : (a < 4)%nat -> (b < 4)%nat -> rsumn 3 (fun k => sic_directions a k * sic_directions b k) = if (a =? b)%nat then 1 else -1/3.
Proof. intros Ha Hb. cases4 a Ha; cases4 b Hb; cbn [Nat.eqb]; rewrite rsumn3; roots; try (field_simplify; lra); nra. Qed.
Lemma sic_second k l : (k < 3)%nat -> (l < 3)%nat -> rsumn 4 (fun a => sic_directions a k * sic_directions a l) = if (k =? l)%nat then 4/3 else 0.
Proof. intros Hk Hl. cases3 k Hk; cases3 l Hl; cbn [Nat.eqb]; rewrite rsumn4; roots; nra. Qed.

Section Moments.
  Variables (theta phi : R).
  Let v := dirs theta phi.
  Let O := rotator theta phi.
  Let s := sic_directions.
  Lemma dirs_sum k : (k < 3)%nat -> rsumn 4 (fun a => v a k) = 0.
  Proof.
    intros H. unfold v, dirs, rdot. rewrite rsumn4, !rsumn3. pose proof (sic_sum 0 ltac:(lia)) as E0. pose proof (sic_sum 1 ltac:(lia)) as E1. pose proof (sic_sum 2 ltac:(lia)) as E2.
    rewrite rsumn4 in E0, E1, E2. fold s O in E0, E1, E2 |- *.
    replace 0 with (0 * O 0%nat k + 0 * O 1%nat k + 0 * O 2%nat k) by ring. rewrite <- E0 at 1. rewrite <- E1 at 1. rewrite <- E2 at 1. ring.
  Qed.
  Lemma dirs_dot a b : (a < 4)%nat -> (b < 4)%nat -> rsumn 3 (fun k => v a k * v b k) = if (a =? b)%nat then 1 else -1/3.
  Proof.
    intros Ha Hb. rewrite <- (sic_dot a b Ha Hb). unfold v, dirs, rdot. rewrite !rsumn3. fold s O.
    assert (E : forall i j, (i < 3)%nat -> (j < 3)%nat -> O i 0%nat * O j 0%nat + O i 1%nat * O j 1%nat + O i 2%nat * O j 2%nat = if (i =? j)%nat then 1 else 0).
    { intros i j Hi Hj. rewrite <- (rot_rows theta phi i j Hi Hj), rsumn3. reflexivity. }
    pose proof (E 0%nat 0%nat ltac:(lia) ltac:(lia)) as E00. pose proof (E 0%nat 1%nat ltac:(lia) ltac:(lia)) as E01. pose proof (E 0%nat 2%nat ltac:(lia) ltac:(lia)) as E02.
    pose proof (E 1%nat 1%nat ltac:(lia) ltac:(lia)) as E11. pose proof (E 1%nat 2%nat ltac:(lia) ltac:(lia)) as E12. pose proof (E 2%nat 2%nat ltac:(lia) ltac:(lia)) as E22. clear E. cbn [Nat.eqb] in *.
    generalize dependent (O 0%nat 0%nat). generalize dependent (O 0%nat 1%nat). generalize dependent (O 0%nat 2%nat). generalize dependent (O 1%nat 0%nat). generalize dependent (O 1%nat 1%nat). generalize dependent (O 1%nat 2%nat).
    generalize dependent (O 2%nat 0%nat). generalize dependent (O 2%nat 1%nat). generalize dependent (O 2%nat 2%nat). generalize (s a 0%nat) (s a 1%nat) (s a 2%nat) (s b 0%nat) (s b 1%nat) (s b 2%nat). intros. nsatz.
  Qed.
  Lemma dirs_second k l : (k < 3)%nat -> (l < 3)%nat -> rsumn 4 (fun a => v a k * v a l) = if (k =? l)%nat then 4/3 else 0.
  Proof.
    intros Hk Hl. pose proof (rot_cols theta phi k l Hk Hl) as E. rewrite rsumn3 in E. fold O in E.
    replace (if (k =? l)%nat then 4/3 else 0) with (4/3 * (if (k =? l)%nat then 1 else 0)) by (destruct (k =? l)%nat; field). rewrite <- E. clear E.
    unfold v, dirs, rdot. rewrite rsumn4, !rsumn3. fold s O.
    assert (E : forall i j, (i < 3)%nat -> (j < 3)%nat -> s 0%nat i * s 0%nat j + s 1%nat i * s 1%nat j + s 2%nat i * s 2%nat j + s 3%nat i * s 3%nat j = if (i =? j)%nat then 4/3 else 0).
    { intros i j Hi Hj. rewrite <- (sic_second i j Hi Hj), rsumn4. reflexivity. }
    pose proof (E 0%nat 0%nat ltac:(lia) ltac:(lia)) as E00. pose proof (E 0%nat 1%nat ltac:(lia) ltac:(lia)) as E01. pose proof (E 0%nat 2%nat ltac:(lia) ltac:(lia)) as E02.
    pose proof (E 1%nat 1%nat ltac:(lia) ltac:(lia)) as E11. pose proof (E 1%nat 2%nat ltac:(lia) ltac:(lia)) as E12. pose proof (E 2%nat 2%nat ltac:(lia) ltac:(lia)) as E22. clear E. cbn [Nat.eqb] in *.
    set (c := 4/3) in *. clearbody c.
    generalize dependent (s 0%nat 0%nat). generalize dependent (s 0%nat 1%nat). generalize dependent (s 0%nat 2%nat). generalize dependent (s 1%nat 0%nat). generalize dependent (s 1%nat 1%nat). generalize dependent (s 1%nat 2%nat).
    generalize dependent (s 2%nat 0%nat). generalize dependent (s 2%nat 1%nat). generalize dependent (s 2%nat 2%nat). generalize dependent (s 3%nat 0%nat). generalize dependent (s 3%nat 1%nat). generalize dependent (s 3%nat 2%nat).
    generalize (O 0%nat k) (O 1%nat k) (O 2%nat k) (O 0%nat l) (O 1%nat l) (O 2%nat l). intros. nsatz.
  Qed.
End Moments.

(** ** the operators *)
Lemma M_entry s a i j : povm_of_directions s a i j = Cscal (/ 4) (eye i j + (Cscal (s a 0%nat) (get_paulis 0 i j) + Cscal (s a 1%nat) (get_paulis 1 i j) + Cscal (s a 2%nat) (get_paulis 2 i j)))%C.
Proof. unfold povm_of_directions. now rewrite csumn3. Qed.
Ltac entry := rewrite ?M_entry; cbn [get_paulis mat2 eye Nat.eqb]; unfold Cscal, Cadd, Cmul, Copp, Cconj, C0, C1, Ci, RtoC; cbn [fst snd].
Lemma M_00 s a : povm_of_directions s a 0%nat 0%nat = ((1 + s a 2%nat) / 4, 0).
Proof. entry. apply C_eq; cbn; field. Qed.
Lemma M_01 s a : povm_of_directions s a 0%nat 1%nat = (s a 0%nat / 4, - s a 1%nat / 4).
Proof. entry. apply C_eq; cbn; field. Qed.
Lemma M_10 s a : povm_of_directions s a 1%nat 0%nat = (s a 0%nat / 4, s a 1%nat / 4).
Proof. entry. apply C_eq; cbn; field. Qed.
Lemma M_11 s a : povm_of_directions s a 1%nat 1%nat = ((1 - s a 2%nat) / 4, 0).
Proof. entry. apply C_eq; cbn; field. Qed.
Lemma M_hermitian s a : hermitian 2 (povm_of_directions s a).
Proof.
  intros i j Hi Hj. unfold dagger. cases2 i Hi; cases2 j Hj; rewrite ?M_00, ?M_01, ?M_10, ?M_11; unfold Cconj; cbn [fst snd]; apply C_eq; cbn [fst snd]; field.
Qed.
Lemma M_psd s a : rsumn 3 (fun k => s a k * s a k) = 1 -> psd 2 (povm_of_directions s a).
Proof.
  intros H v. rewrite rsumn3 in H. unfold expect. rewrite !csumn2, M_00, M_01, M_10, M_11.
  destruct (v 0%nat) as [p q]. destruct (v 1%nat) as [e f]. set (x := s a 0%nat) in *. set (y := s a 1%nat) in *. set (z := s a 2%nat) in *. clearbody x y z.
  unfold Cconj, Cmul, Cadd, Re, Im. cbn [fst snd]. split; [field|].
  set (A := p * p + q * q - (e * e + f * f)). set (B := 2 * (p * e + q * f)). set (D := 2 * (p * f - q * e)). set (N := p * p + q * q + (e * e + f * f)).
  assert (S2 : A * A + B * B + D * D = N * N) by (unfold A, B, D, N; ring).
  assert (CS : (z * A + x * B + y * D) * (z * A + x * B + y * D) <= N * N).
  { rewrite <- S2. assert (E : (A * A + B * B + D * D) * (x * x + y * y + z * z) - (z * A + x * B + y * D) * (z * A + x * B + y * D) = (z * B - x * A) * (z * B - x * A) + (z * D - y * A) * (z * D - y * A) + (x * D - y * B) * (x * D - y * B)) by ring.
    rewrite H in E. pose proof (Rle_0_sqr (z * B - x * A)). pose proof (Rle_0_sqr (z * D - y * A)). pose proof (Rle_0_sqr (x * D - y * B)). unfold Rsqr in *. lra. }
  assert (N0 : 0 <= N) by (unfold N; nra).
  assert (L : - N <= z * A + x * B + y * D).
  { apply Rnot_lt_le. intros L. assert (N * N < (z * A + x * B + y * D) * (z * A + x * B + y * D)) by nra. lra. }
  match goal with |- 0 <= ?t => replace t with ((N + (z * A + x * B + y * D)) / 4) end; [lra|]. unfold N, A, B, D. field.
Qed.
Lemma M_overlap s a b : overlap 2 (povm_of_directions s) a b = RtoC ((1 + rsumn 3 (fun k => s a k * s b k)) / 8).
Proof.
  unfold overlap. rewrite !csumn2, rsumn3, !M_00, !M_01, !M_10, !M_11. unfold Cadd, Cmul, RtoC. cbn [fst snd]. apply C_eq; cbn [fst snd]; field.
Qed.

Section Sic.
  Variables (theta phi : R).
  Let v := dirs theta phi.
  Let M := povm_of_directions v.
  Lemma sic_psd a : (a < 4)%nat -> psd 2 (M a).
  Proof. intros H. apply M_psd. unfold v. rewrite dirs_dot by assumption. now rewrite Nat.eqb_refl. Qed.
  Lemma sic_complete : complete 2 4 M.
  Proof.
    intros i j Hi Hj. unfold combo. rewrite csumn4. pose proof (dirs_sum theta phi 0 ltac:(lia)) as E0. pose proof (dirs_sum theta phi 1 ltac:(lia)) as E1. pose proof (dirs_sum theta phi 2 ltac:(lia)) as E2.
    rewrite rsumn4 in E0, E1, E2. fold v in E0, E1, E2. unfold M, ident. cases2 i Hi; cases2 j Hj; cbn [Nat.eqb]; rewrite ?M_00, ?M_01, ?M_10, ?M_11; unfold Cadd, Cmul, C1, C0; cbn [fst snd]; apply C_eq; cbn [fst snd]; lra.
  Qed.
  Lemma sic_overlap a b : (a < 4)%nat -> (b < 4)%nat -> overlap 2 M a b = RtoC (if (a =? b)%nat then 1/4 else 1/12).
  Proof. intros Ha Hb. unfold M. rewrite M_overlap. unfold v. rewrite dirs_dot by assumption. f_equal. destruct (a =? b)%nat; field. Qed.
  (** the inverse of the overlap matrix *)
  Definition sic_inv : cmat := fun a b => RtoC (if (a =? b)%nat then 5 else -1).
  Lemma sic_inverse : inverse 4 (overlap 2 M) sic_inv.
  Proof.
    split; intros a c Ha Hc; unfold mul, ident; rewrite csumn4; rewrite !sic_overlap by lia; unfold sic_inv; cases4 a Ha; cases4 c Hc; cbn [Nat.eqb];
      unfold RtoC, Cmul, Cadd, C1, C0; cbn [fst snd]; apply C_eq; cbn [fst snd]; lra.
  Qed.
  Lemma sic_inverse_unique B : inverse 4 (overlap 2 M) B -> forall a b, (a < 4)%nat -> (b < 4)%nat -> B a b = sic_inv a b.
  Proof.
    intros [HB _] a b Ha Hb. destruct sic_inverse as [_ HS].
    transitivity (mul 4 (mul 4 sic_inv (overlap 2 M)) B a b).
    - unfold mul at 1. rewrite (csumn_ext 4 _ (fun k => ((if (a =? k)%nat then C1 else C0) * B k b)%C)); [now rewrite csumn_delta|]. intros k Hk. now rewrite (HS a k Ha Hk).
    - transitivity (mul 4 sic_inv (mul 4 (overlap 2 M) B) a b).
      + unfold mul. rewrite (csumn_ext 4 _ (fun k => csumn 4 (fun l => (sic_inv a l * overlap 2 M l k * B k b)%C))).
        * rewrite csumn_swap. apply csumn_ext. intros l _. rewrite <- csumn_scal. apply csumn_ext. intros k _. ring.
        * intros k _. rewrite <- csumn_scal_r. reflexivity.
      + unfold mul at 1. rewrite (csumn_ext 4 _ (fun k => (sic_inv a k * (if (k =? b)%nat then C1 else C0))%C)); [now rewrite csumn_delta'|]. intros k Hk. now rewrite (HB k b Hk Hb).
  Qed.
  Lemma sic_square i j k l : csumn 4 (fun a => (M a i j * M a k l)%C)
    = (RtoC (/ 4) * (eye i j * eye k l + RtoC (/ 3) * (get_paulis 0 i j * get_paulis 0 k l + get_paulis 1 i j * get_paulis 1 k l + get_paulis 2 i j * get_paulis 2 k l)))%C.
  Proof.
    set (w := fun a k => RtoC (v a k)).
    assert (S1 : forall k, (k < 3)%nat -> (w 0%nat k + w 1%nat k + w 2%nat k + w 3%nat k)%C = C0).
    { intros k' Hk'. unfold w. rewrite <- !RtoC_add. unfold v. rewrite <- (rsumn4 (fun a => dirs theta phi a k')), dirs_sum by assumption. reflexivity. }
    assert (S2 : forall k l, (k < 3)%nat -> (l < 3)%nat -> (w 0%nat k * w 0%nat l + w 1%nat k * w 1%nat l + w 2%nat k * w 2%nat l + w 3%nat k * w 3%nat l)%C = RtoC (if (k =? l)%nat then 4/3 else 0)).
    { intros k' l' Hk' Hl'. unfold w. rewrite <- !RtoC_mul, <- !RtoC_add. unfold v. rewrite <- (rsumn4 (fun a => dirs theta phi a k' * dirs theta phi a l')), dirs_second by assumption. reflexivity. }
    rewrite csumn4. unfold M. rewrite !M_entry, !Cscal_RtoC. change (RtoC (v ?a ?k)) with (w a k).
    set (p0 := get_paulis 0 i j). set (p1 := get_paulis 1 i j). set (p2 := get_paulis 2 i j). set (q0 := get_paulis 0 k l). set (q1 := get_paulis 1 k l). set (q2 := get_paulis 2 k l).
    set (e := eye i j). set (f := eye k l). set (t := RtoC (/ 4)).
    transitivity (t * t * ((C1 + C1 + C1 + C1) * (e * f)
       + e * (q0 * (w 0%nat 0%nat + w 1%nat 0%nat + w 2%nat 0%nat + w 3%nat 0%nat) + q1 * (w 0%nat 1%nat + w 1%nat 1%nat + w 2%nat 1%nat + w 3%nat 1%nat) + q2 * (w 0%nat 2%nat + w 1%nat 2%nat + w 2%nat 2%nat + w 3%nat 2%nat))
       + f * (p0 * (w 0%nat 0%nat + w 1%nat 0%nat + w 2%nat 0%nat + w 3%nat 0%nat) + p1 * (w 0%nat 1%nat + w 1%nat 1%nat + w 2%nat 1%nat + w 3%nat 1%nat) + p2 * (w 0%nat 2%nat + w 1%nat 2%nat + w 2%nat 2%nat + w 3%nat 2%nat))
       + (p0 * q0 * (w 0%nat 0%nat * w 0%nat 0%nat + w 1%nat 0%nat * w 1%nat 0%nat + w 2%nat 0%nat * w 2%nat 0%nat + w 3%nat 0%nat * w 3%nat 0%nat)
        + p1 * q1 * (w 0%nat 1%nat * w 0%nat 1%nat + w 1%nat 1%nat * w 1%nat 1%nat + w 2%nat 1%nat * w 2%nat 1%nat + w 3%nat 1%nat * w 3%nat 1%nat)
        + p2 * q2 * (w 0%nat 2%nat * w 0%nat 2%nat + w 1%nat 2%nat * w 1%nat 2%nat + w 2%nat 2%nat * w 2%nat 2%nat + w 3%nat 2%nat * w 3%nat 2%nat)
        + (p0 * q1 + p1 * q0) * (w 0%nat 0%nat * w 0%nat 1%nat + w 1%nat 0%nat * w 1%nat 1%nat + w 2%nat 0%nat * w 2%nat 1%nat + w 3%nat 0%nat * w 3%nat 1%nat)
        + (p0 * q2 + p2 * q0) * (w 0%nat 0%nat * w 0%nat 2%nat + w 1%nat 0%nat * w 1%nat 2%nat + w 2%nat 0%nat * w 2%nat 2%nat + w 3%nat 0%nat * w 3%nat 2%nat)
        + (p1 * q2 + p2 * q1) * (w 0%nat 1%nat * w 0%nat 2%nat + w 1%nat 1%nat * w 1%nat 2%nat + w 2%nat 1%nat * w 2%nat 2%nat + w 3%nat 1%nat * w 3%nat 2%nat))))%C.
    - generalize (w 0%nat 0%nat) (w 0%nat 1%nat) (w 0%nat 2%nat) (w 1%nat 0%nat) (w 1%nat 1%nat) (w 1%nat 2%nat) (w 2%nat 0%nat) (w 2%nat 1%nat) (w 2%nat 2%nat) (w 3%nat 0%nat) (w 3%nat 1%nat) (w 3%nat 2%nat).
      clearbody p0 p1 p2 q0 q1 q2 e f t. intros. ring.
    - rewrite !S1, !S2 by lia. cbn [Nat.eqb]. change (RtoC 0) with C0. clearbody p0 p1 p2 q0 q1 q2 e f.
      transitivity (t * t * (C1 + C1 + C1 + C1) * (e * f) + t * t * RtoC (4/3) * (p0 * q0 + p1 * q1 + p2 * q2))%C; [ring|].
      assert (E1 : (t * t * (C1 + C1 + C1 + C1))%C = t) by (unfold t, RtoC, Cmul, Cadd, C1; apply C_eq; cbn; field).
      assert (E2 : (t * t * RtoC (4/3))%C = (t * RtoC (/ 3))%C) by (unfold t, RtoC, Cmul, Cadd, C1; apply C_eq; cbn; field).
      rewrite E1, E2. ring.
  Qed.
  Lemma sic_frame0 : frame 2 4 M sic_inv.
  Proof.
    intros i j k l Hi Hj Hk Hl.
    assert (E : csumn 4 (fun a => csumn 4 (fun b => (sic_inv a b * M a i j * M b k l)%C)) = (RtoC 6 * csumn 4 (fun a => (M a i j * M a k l)%C) - csumn 4 (fun a => M a i j) * csumn 4 (fun b => M b k l))%C).
    { rewrite !csumn4. unfold sic_inv. cbn [Nat.eqb]. replace (RtoC 5) with (RtoC 6 - C1)%C by (unfold RtoC, Csub, Cadd, Copp, C1; apply C_eq; cbn; lra).
      replace (RtoC (-1)) with (- C1)%C by (unfold RtoC, Copp, C1; apply C_eq; cbn; lra). ring. }
    rewrite E. clear E.
    assert (C : forall i j, (i < 2)%nat -> (j < 2)%nat -> csumn 4 (fun a => M a i j) = ident i j).
    { intros i' j' Hi' Hj'. rewrite <- (sic_complete i' j' Hi' Hj'). unfold combo. apply csumn_ext. intros. ring. }
    rewrite !C by assumption. rewrite sic_square.
    unfold ident. cases2 i Hi; cases2 j Hj; cases2 k Hk; cases2 l Hl; cbn [Nat.eqb get_paulis mat2 eye]; unfold Csub, Copp, Cadd, Cmul, Cscal, RtoC, Ci, C1, C0; cbn [fst snd]; apply C_eq; cbn [fst snd]; field.
  Qed.
End Sic.
