(** Uniqueness of the factors of the square-lattice orbits; they form a character. *)
From Coq Require Import ZArith List Reals Lra Lia Bool Arith Permutation.
From Verif Require Import Base Cplx Stats_Model BranchFree_Model Dist Sampler_Model Sampler_Spec Sampler2_Proofs Exact_Proofs
  Sym_Model Sym_Spec Sym_Proofs Sym2_Proofs Sym3_Proofs Sym4_Proofs Sym5_Proofs Square_Spec Square_Proofs.
Import ListNotations.

Lemma mod_eq_divide n u v : (0 < n -> u mod n = v mod n -> exists k, u = v + k * n)%Z.
Proof. intros Hn H. exists (u / n - v / n)%Z. rewrite (Z.div_mod u n), (Z.div_mod v n) at 1 by lia. rewrite H. ring. Qed.
Lemma mod_add_k n u v k : (u = v + k * n -> u mod n = v mod n)%Z.
Proof. intros ->. apply Z_mod_plus_full. Qed.
Lemma cz_inj L r t u : 0 < L -> cz L r t = cz L r u -> (t mod Z.of_nat L = u mod Z.of_nat L)%Z.
Proof.
  intros HL H. unfold cz in H. apply mod_eq_divide in H as [k Hk]; [|lia]. destruct r; cbn [sgz shz] in Hk; [apply (mod_add_k _ _ _ (- k))|apply (mod_add_k _ _ _ k)]; lia.
Qed.
(** two affine maps of a ring *)
Lemma cz_two L r r' u u' : 2 <= L -> (forall t, (0 <= t < Z.of_nat L)%Z -> cz L r (t - u) = cz L r' (t - u')) ->
  r = r' /\ (u mod Z.of_nat L = u' mod Z.of_nat L)%Z \/ L = 2 /\ r = negb r' /\ (u mod 2 = (u' + 1) mod 2)%Z.
Proof.
  intros HL H. pose proof (H 0%Z ltac:(lia)) as E0. pose proof (H 1%Z ltac:(lia)) as E1. clear H.
  destruct (Bool.bool_dec r r') as [->|N].
  - left. split; [reflexivity|]. apply cz_inj in E0; [|lia]. apply mod_eq_divide in E0 as [k Hk]; [|lia]. apply (mod_add_k _ _ _ (- k)). lia.
  - right. assert (Hr : r = negb r') by (destruct r, r'; cbn; congruence). unfold cz in *. apply mod_eq_divide in E0 as [k Hk]; [|lia]. apply mod_eq_divide in E1 as [m Hm]; [|lia].
    assert (HLz : ((m - k) * Z.of_nat L = 2 \/ (m - k) * Z.of_nat L = -2)%Z) by (rewrite Z.mul_sub_distr_r; destruct r, r'; cbn [sgz shz negb] in *; try discriminate; lia).
    assert (L2 : L = 2).
    { assert (2 <= Z.of_nat L)%Z by lia. set (w := (m - k)%Z) in *. assert (w <= -2 \/ w = -1 \/ w = 0 \/ w = 1 \/ 2 <= w)%Z as [W|[W|[W|[W|W]]]] by lia; try (rewrite W in HLz; lia); exfalso; clear -HLz W H; nia. }
    subst L. split; [reflexivity|]. split; [assumption|]. change (Z.of_nat 2) with 2%Z in *.
    destruct r, r'; cbn [sgz shz negb] in *; try discriminate.
    + apply (mod_add_k _ _ _ (k - u')). lia.
    + apply (mod_add_k _ _ _ (- k - u')). lia.
Qed.
Lemma Fz_gz L d a d' a' : 0 < L -> (forall i, i < L * L -> Fz L d a i = Fz L d' a' i) -> forall p, onlat L p -> gz L d a p = gz L d' a' p.
Proof.
  intros HL H p Hp. pose proof (H (iz L p) (iz_range L p Hp)) as E. unfold Fz in E. rewrite zi_iz in E by assumption. apply (f_equal (zi L)) in E. now rewrite !zi_iz in E by (now apply gz_onlat).
Qed.
(** shifts of the first and of the second component *)
Definition sh1 (b : bool) (a : Z * Z) : Z := if b then snd a else fst a.
Definition sh2 (b : bool) (a : Z * Z) : Z := if b then fst a else snd a.
Lemma Fz_two L b r1 r2 a b' r1' r2' a' : 2 <= L -> (forall i, i < L * L -> Fz L (b, (r1, r2)) a i = Fz L (b', (r1', r2')) a' i) ->
  b = b' /\ (forall t, (0 <= t < Z.of_nat L)%Z -> cz L r1 (t - sh1 b a) = cz L r1' (t - sh1 b a')) /\ (forall t, (0 <= t < Z.of_nat L)%Z -> cz L r2 (t - sh2 b a) = cz L r2' (t - sh2 b a')).
Proof.
  intros HL H. assert (G := Fz_gz L _ _ _ _ ltac:(lia) H). clear H.
  assert (Hb : b = b').
  { pose proof (G (0, 0)%Z ltac:(split; cbn; lia)) as E0. pose proof (G (0, 1)%Z ltac:(split; cbn; lia)) as E1. apply (f_equal fst) in E0, E1. cbn [gz fst snd] in E0, E1.
    destruct b, b'; try reflexivity; exfalso; rewrite E0 in E1 || rewrite <- E0 in E1; rewrite ?E0 in E1;
    [assert (E : cz L r1 (0 - snd a) = cz L r1 (1 - snd a)) by congruence|assert (E : cz L r1' (0 - snd a') = cz L r1' (1 - snd a')) by congruence]; apply cz_inj in E; [|lia| |lia];
    apply mod_eq_divide in E as [k Hk]; try lia; assert (k * Z.of_nat L = -1)%Z by lia; assert (k = 0 \/ k <= -1 \/ 1 <= k)%Z as [W|[W|W]] by lia; [subst k; lia|nia|nia|subst k; lia|nia|nia]. }
  subst b'. split; [reflexivity|]. split; intros t Ht.
  - pose proof (G (if b then (0, t)%Z else (t, 0)%Z) ltac:(destruct b; split; cbn; lia)) as E. apply (f_equal fst) in E. destruct b; exact E.
  - pose proof (G (if b then (t, 0)%Z else (0, t)%Z) ltac:(destruct b; split; cbn; lia)) as E. apply (f_equal snd) in E. destruct b; exact E.
Qed.
Lemma smat_Fz L q d a q' d' a' : 0 < L -> smat (L * L) (sgz q) (Fz L d a) = smat (L * L) (sgz q') (Fz L d' a') -> q = q' /\ forall i, i < L * L -> Fz L d a i = Fz L d' a' i.
Proof.
  intros HL E. apply smat_inj in E; [|nia|destruct q; discriminate|intros; now apply Fz_range]. destruct E as [Es Ef]. split; [|assumption]. clear -Es. destruct q, q'; try reflexivity; discriminate Es.
Qed.

Section Unique.
Variables (L : nat) (uT uR uRot uS : bool) (fT fR fRot fS : C).
Hypothesis HL : 0 < L.
Hypothesis HC : consistent_square L uT uR uRot uS fT fR fRot fS.
Notation zf' := (zf L uT fT).
Notation pfac' := (pfac uRot fR fRot).
Notation fac' := (fac2 L uT uRot fT fR fRot fS).

Lemma zf_sh b a : zf' (fst a + snd a) = Cmul (zf' (sh1 b a)) (zf' (sh2 b a)).
Proof. rewrite (zf_add L uT uR uRot uS fT fR fRot fS HL HC). destruct b; cbn [sh1 sh2]; ring. Qed.
Lemma pgroup_noref b r1 r2 : uR = false -> In (b, (r1, r2)) (pgroup uR uRot) -> xorb b (xorb r1 r2) = false.
Proof. intros E. clear HC. rewrite E. destruct uRot; cbn; intros H; repeat (destruct H as [H|H]; [inversion H; reflexivity|]); destruct H. Qed.
Lemma pgroup_norot b r1 r2 : uRot = false -> In (b, (r1, r2)) (pgroup uR uRot) -> b = false.
Proof. intros E. clear HC. rewrite E. destruct uR; cbn; intros H; repeat (destruct H as [H|H]; [inversion H; reflexivity|]); destruct H. Qed.
Lemma pgroup_none b r1 r2 : uR = false -> uRot = false -> In (b, (r1, r2)) (pgroup uR uRot) -> r1 = false /\ r2 = false.
Proof. intros E E'. clear HC. rewrite E, E'. cbn. intros [H|[]]. inversion H. auto. Qed.

Lemma unique_one q d a d' a' : L = 1 -> In d (pgroup uR uRot) -> In d' (pgroup uR uRot) -> fac' q d a = fac' q d' a'.
Proof.
  intros E1 Hd Hd'. destruct HC as (KT & _ & _ & _ & _ & _ & K1 & K2 & _). unfold fac2.
  assert (ZF : forall k, zf' k = C1). { intros k. unfold zf. rewrite E1. change (Z.of_nat 1) with 1%Z. rewrite Z.mod_1_r. clear HC. destruct uT; reflexivity. }
  assert (PF : forall d, In d (pgroup uR uRot) -> pfac' d = C1).
  { intros (b, (r1, r2)) H. unfold pfac. assert (X : (if xorb b (xorb r1 r2) then fR else C1) = C1).
    { destruct (Bool.bool_dec uR true) as [u|u]; [rewrite (K1 u E1); now destruct (xorb b (xorb r1 r2))|]. rewrite pgroup_noref; [reflexivity|now apply not_true_is_false|assumption]. }
    rewrite X. assert (Y : forall n, Cpow fRot (if uRot then n else 0) = C1).
    { intros n. destruct (Bool.bool_dec uRot true) as [u|u]; [rewrite u, (K2 u E1); apply Cpow_1|]. apply not_true_is_false in u. rewrite u. reflexivity. }
    rewrite Y. ring. }
  rewrite !ZF, !PF by assumption. reflexivity.
Qed.
(** two by two sites, with translations *)
Lemma zf_two k k' : L = 2 -> uT = true -> (k mod 2 = (k' + 1) mod 2)%Z -> zf' k = Cmul fT (zf' k').
Proof.
  intros E2 ET H. assert (E : zf' k = zf' (k' + 1)) by (apply zf_mod; rewrite E2; exact H). rewrite E, (zf_add L uT uR uRot uS fT fR fRot fS HL HC). unfold zf at 2. rewrite ET, E2. change (Z.to_nat (1 mod Z.of_nat 2)) with 1. cbn [Cpow]. ring.
Qed.
Lemma pfac_two b r1 r2 : L = 2 -> uT = true -> In (b, (r1, r2)) (pgroup uR uRot) -> pfac' (b, (r1, r2)) = Cmul (if b then fRot else C1) (if xorb b (xorb r1 r2) then fT else C1).
Proof.
  intros E2 ET H. destruct HC as (_ & _ & _ & _ & _ & _ & _ & _ & K9 & K10). unfold pfac.
  assert (X : (if xorb b (xorb r1 r2) then fR else C1) = (if xorb b (xorb r1 r2) then fT else C1)).
  { destruct (Bool.bool_dec uR true) as [u|u]; [now rewrite (K9 ET u E2)|]. apply not_true_is_false in u. now rewrite (pgroup_noref b r1 r2 u H). }
  rewrite X. f_equal. destruct (Bool.bool_dec uRot true) as [u|u].
  - specialize (K10 ET u E2). rewrite times_pow in K10. cbn [Cpow] in K10. assert (KK : Cmul fRot fRot = C1) by (rewrite <- K10; ring). rewrite u. destruct b, r1; cbn [kd Cpow]; try ring; ring [KK].
  - apply not_true_is_false in u. rewrite u. cbn [Cpow]. now rewrite (pgroup_norot b r1 r2 u H).
Qed.
Lemma fT_two : L = 2 -> uT = true -> Cmul fT fT = C1.
Proof. intros E2 ET. pose proof (c_T L uT uR uRot uS fT fR fRot fS HC ET) as K. rewrite E2 in K. cbn [Cpow] in K. rewrite <- K. ring. Qed.

Lemma fac2_unique q d a q' d' a' : In d (pgroup uR uRot) -> In d' (pgroup uR uRot) -> (uT = true \/ a = (0, 0)%Z) -> (uT = true \/ a' = (0, 0)%Z) ->
  smat (L * L) (sgz q) (Fz L d a) = smat (L * L) (sgz q') (Fz L d' a') -> fac' q d a = fac' q' d' a'.
Proof.
  intros Hd Hd' Ha Ha' E. apply smat_Fz in E as [<- Ef]; [|assumption]. assert (L = 1 \/ 2 <= L) as [H1|H2] by lia; [now apply unique_one|].
  destruct d as (b, (r1, r2)), d' as (b', (r1', r2')). apply Fz_two in Ef as (<- & F1 & F2); [|assumption]. apply cz_two in F1; [|assumption]. apply cz_two in F2; [|assumption].
  unfold fac2. f_equal. rewrite (zf_sh b a), (zf_sh b a').
  assert (N2 : L = 2 -> uT = false -> forall u u', (a = (0,0)%Z -> u = 0%Z) -> (a' = (0,0)%Z -> u' = 0%Z) -> (u mod 2 = (u' + 1) mod 2)%Z -> False).
  { intros _ ET u u' K K' M. destruct Ha as [Ha|Ha]; [congruence|]. destruct Ha' as [Ha'|Ha']; [congruence|]. rewrite K, K' in M by assumption. discriminate M. }
  assert (Z1 : a = (0, 0)%Z -> sh1 b a = 0%Z) by (intros ->; destruct b; reflexivity). assert (Z1' : a' = (0, 0)%Z -> sh1 b a' = 0%Z) by (intros ->; destruct b; reflexivity).
  assert (Z2 : a = (0, 0)%Z -> sh2 b a = 0%Z) by (intros ->; destruct b; reflexivity). assert (Z2' : a' = (0, 0)%Z -> sh2 b a' = 0%Z) by (intros ->; destruct b; reflexivity).
  destruct F1 as [[<- M1]|(E2 & R1 & M1)], F2 as [[<- M2]|(E2' & R2 & M2)].
  - now rewrite (zf_mod L uT fT _ _ M1), (zf_mod L uT fT _ _ M2).
  - destruct (Bool.bool_dec uT true) as [u|u]; [|exfalso; apply not_true_is_false in u; now apply (N2 E2' u _ _ Z2 Z2')].
    rewrite (zf_mod L uT fT _ _ M1), (zf_two _ _ E2' u M2), !pfac_two by assumption. pose proof (fT_two E2' u) as K. subst r2. destruct b, r1, r2'; cbn [negb xorb]; ring [K].
  - destruct (Bool.bool_dec uT true) as [u|u]; [|exfalso; apply not_true_is_false in u; now apply (N2 E2 u _ _ Z1 Z1')].
    rewrite (zf_mod L uT fT _ _ M2), (zf_two _ _ E2 u M1), !pfac_two by assumption. pose proof (fT_two E2 u) as K. subst r1. destruct b, r1', r2; cbn [negb xorb]; ring [K].
  - destruct (Bool.bool_dec uT true) as [u|u]; [|exfalso; apply not_true_is_false in u; now apply (N2 E2 u _ _ Z1 Z1')].
    rewrite (zf_two _ _ E2 u M1), (zf_two _ _ E2 u M2), !pfac_two by assumption. pose proof (fT_two E2 u) as K. subst r1 r2. destruct b, r1', r2'; cbn [negb xorb]; ring [K].
Qed.
Lemma orbit_2D_factor A c : In (A, c) (get_orbit_2D_square L uT uR uRot uS fT fR fRot fS) ->
  exists q d a, (q = true -> uS = true) /\ In d (pgroup uR uRot) /\ (uT = true \/ a = (0, 0)%Z) /\ A = smat (L * L) (sgz q) (Fz L d a) /\ c = fac' q d a.
Proof.
  intros H. apply (raw_fac L uT uR uRot uS fT fR fRot fS HL HC). destruct (unique_spec (raw_2D L uT uR uRot uS fT fR fRot fS)) as (_ & U1 & _). now apply U1.
Qed.
(** factor of a given element *)
Lemma orbit_2D_value A c q d a : In (A, c) (get_orbit_2D_square L uT uR uRot uS fT fR fRot fS) -> In d (pgroup uR uRot) -> (uT = true \/ a = (0, 0)%Z) ->
  A = smat (L * L) (sgz q) (Fz L d a) -> c = fac' q d a.
Proof.
  intros H Hd Ha E. apply orbit_2D_factor in H as (q' & d' & a' & Hq' & Hd' & Ha' & E' & ->). apply fac2_unique; auto. congruence.
Qed.
Lemma orbit_2D_character : is_character (L * L) (get_orbit_2D_square L uT uR uRot uS fT fR fRot fS).
Proof.
  intros A ca B cb D cd HA HB HD HP.
  apply orbit_2D_factor in HA as (q & d & a & Hq & Hd & Ha & -> & ->). apply orbit_2D_factor in HB as (q' & d' & a' & Hq' & Hd' & Ha' & -> & ->).
  rewrite <- (fac2_mul L uT uR uRot uS fT fR fRot fS HL HC) by assumption. apply (orbit_2D_value D); [assumption|now apply pgroup_closed| |].
  - destruct Ha as [| ->]; [auto|]. destruct Ha' as [| ->]; [auto|]. right. destruct d as ([], ([], [])); reflexivity.
  - eapply is_product_unique; [exact HP|]. rewrite <- sgz_mul. rewrite (smat_ext (L * L) _ (Fz L (pcomp d' d) (acomp d a a')) (fun i => Fz L d' a' (Fz L d a i))) by (intros; now rewrite Fz_Fz).
    apply smat_product. intros; now apply Fz_range.
Qed.
End Unique.
