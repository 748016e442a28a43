(** The symmetry orbits of rings and square lattices are groups. *)
From Coq Require Import ZArith List Reals Lra Lia Bool Arith Permutation.
From Verif Require Import Base Cplx Stats_Model BranchFree_Model Dist Sampler_Model Sampler_Spec Sampler2_Proofs Sym_Model Sym_Spec Sym_Proofs.
Import ListNotations.

Lemma group_of n (G : list mat) (P : Z -> (nat -> nat) -> Prop) :
  (forall A, In A G <-> exists sg f, P sg f /\ A = smat n sg f) -> NoDup G ->
  (forall sg f, P sg f -> (sg = 1 \/ sg = -1)%Z /\ forall i, i < n -> f i < n) ->
  (exists f, P 1%Z f /\ forall i, i < n -> f i = i) ->
  (forall sg f tu g, P sg f -> P tu g -> exists h, P (sg * tu)%Z h /\ forall i, i < n -> h i = g (f i)) ->
  (forall sg f, P sg f -> exists g, P sg g /\ forall i, i < n -> g (f i) = i) -> is_group n G.
Proof.
  intros HG HN HP (e & He & Ie) HC HI.
  assert (Inj : forall sg f, P sg f -> forall i j, i < n -> j < n -> f i = f j -> i = j).
  { intros sg f Hf i j Hi Hj E. destruct (HI _ _ Hf) as (g & _ & Hg). rewrite <- (Hg i Hi), <- (Hg j Hj). now rewrite E. }
  assert (Id : identity n (smat n 1 e)).
  { split; [apply smat_square|]. intros i j Hi Hj. rewrite smat_entry by assumption. now rewrite Ie. }
  repeat split.
  - apply Forall_forall. intros A HA. apply HG in HA as (sg & f & Hf & ->). destruct (HP _ _ Hf) as [H1 H2]. apply smat_signed; auto. apply (Inj sg); auto.
  - exact HN.
  - exists (smat n 1 e). split; [apply HG; eauto|exact Id].
  - intros A B HA HB. apply HG in HA as (sg & f & Hf & ->). apply HG in HB as (tu & g & Hg & ->). destruct (HC _ _ _ _ Hf Hg) as (h & Hh & E).
    exists (smat n (sg * tu) h). split; [apply HG; eauto|]. rewrite (smat_ext n _ h _ E). apply smat_product. apply (HP _ _ Hf).
  - intros A HA. apply HG in HA as (sg & f & Hf & ->). destruct (HI _ _ Hf) as (g & Hg & E). exists (smat n sg g), (smat n 1 e).
    assert (S1 : (sg * sg = 1)%Z) by (destruct (HP _ _ Hf) as [[-> | ->] _]; reflexivity).
    assert (E2 : forall i, i < n -> f (g i) = i).
    { intros i Hi. apply (Inj _ _ Hg); [apply (HP _ _ Hf), (HP _ _ Hg), Hi|exact Hi|]. apply E. apply (HP _ _ Hg), Hi. }
    split; [apply HG; eauto|]. split; [exact Id|]. rewrite <- S1. split.
    + rewrite (smat_ext n _ e (fun i => g (f i))); [apply smat_product, (HP _ _ Hf)|]. intros i Hi. now rewrite Ie, E.
    + rewrite (smat_ext n _ e (fun i => f (g i))); [apply smat_product, (HP _ _ Hg)|]. intros i Hi. now rewrite Ie, E2.
Qed.

Lemma roll_seq {A} (f : nat -> A) n k d : roll k (map f (seq 0 n)) d = map (fun i => f ((i + (n - k mod n)) mod n)) (seq 0 n).
Proof.
  unfold roll. rewrite map_length, seq_length. apply map_ext_in. intros i Hi. apply in_seq in Hi. apply nth_map_seq. apply Nat.mod_upper_bound. lia.
Qed.
Lemma rev_seq {A} (f : nat -> A) n : rev (map f (seq 0 n)) = map (fun i => f (n - 1 - i)) (seq 0 n).
Proof.
  apply nth_ext with (f 0) (f 0); [now rewrite rev_length, !map_length|]. intros i Hi. rewrite rev_length, map_length, seq_length in Hi.
  rewrite rev_nth by (now rewrite map_length, seq_length). rewrite map_length, seq_length, !nth_map_seq by lia. f_equal. lia.
Qed.

(** ** affine maps of a ring *)
Definition sgz (r : bool) : Z := if r then (-1)%Z else 1%Z.
Definition shz (r : bool) : Z := if r then 1%Z else 0%Z.
(** reflect if [r], after shifting *)
Definition cz (L : nat) (r : bool) (t : Z) : Z := ((sgz r * t - shz r) mod Z.of_nat L)%Z.
Lemma cz_range L r t : 0 < L -> (0 <= cz L r t < Z.of_nat L)%Z.
Proof. intros. apply Z.mod_pos_bound. lia. Qed.
Lemma cz_eqm L r t u : (t mod Z.of_nat L = u mod Z.of_nat L)%Z -> cz L r t = cz L r u.
Proof.
  unfold cz. intros H. rewrite <- (Zminus_mod_idemp_l (sgz r * t)), <- (Zminus_mod_idemp_l (sgz r * u)). rewrite <- (Zmult_mod_idemp_r t), <- (Zmult_mod_idemp_r u). now rewrite H.
Qed.
Lemma cz_cz L r r' a t : cz L r' (cz L r t - a) = cz L (xorb r r') (t - sgz r * a).
Proof.
  unfold cz at 2. rewrite (cz_eqm L r' ((sgz r * t - shz r) mod Z.of_nat L - a) (sgz r * t - shz r - a)) by (now rewrite Zminus_mod_idemp_l).
  unfold cz. f_equal. destruct r, r'; cbn [sgz shz xorb]; ring.
Qed.
Lemma cz_id L i : (0 <= i < Z.of_nat L)%Z -> cz L false i = i.
Proof. intros H. unfold cz. cbn [sgz shz]. replace (1 * i - 0)%Z with i by ring. apply Z.mod_small. exact H. Qed.

Definition fz (L : nat) (r : bool) (a : Z) (i : nat) : nat := Z.to_nat (cz L r (Z.of_nat i - a)).
Lemma fz_range L r a i : 0 < L -> fz L r a i < L.
Proof. intros H. unfold fz. pose proof (cz_range L r (Z.of_nat i - a) H). lia. Qed.
Lemma fz_fz L r a r' a' i : 0 < L -> fz L r' a' (fz L r a i) = fz L (xorb r r') (a + sgz r * a') i.
Proof.
  intros H. unfold fz at 2. unfold fz at 1. rewrite Z2Nat.id by (apply cz_range, H). rewrite cz_cz. unfold fz. f_equal. f_equal. ring.
Qed.
Lemma fz_id L i : i < L -> fz L false 0 i = i.
Proof. intros H. unfold fz. rewrite cz_id by lia. lia. Qed.
Lemma fz_mod L r a i : fz L r (a mod Z.of_nat L) i = fz L r a i.
Proof. unfold fz. f_equal. apply cz_eqm. now rewrite Zminus_mod_idemp_r. Qed.
Lemma roll_index L k i : 0 < L -> (i + (L - k mod L)) mod L = fz L false (Z.of_nat k) i.
Proof.
  intros H. unfold fz, cz. cbn [sgz shz]. rewrite <- (Nat2Z.id ((i + (L - k mod L)) mod L)). f_equal.
  pose proof (Nat.mod_upper_bound k L ltac:(lia)). rewrite Nat2Z.inj_mod, Nat2Z.inj_add, Nat2Z.inj_sub, Nat2Z.inj_mod by lia.
  replace (Z.of_nat i + (Z.of_nat L - Z.of_nat k mod Z.of_nat L))%Z with ((Z.of_nat i - Z.of_nat k mod Z.of_nat L) + 1 * Z.of_nat L)%Z by ring.
  rewrite Z_mod_plus_full, Zminus_mod_idemp_r. f_equal. ring.
Qed.
Lemma rev_index L i : i < L -> L - 1 - i = fz L true 0 i.
Proof.
  intros H. unfold fz, cz. cbn [sgz shz]. rewrite <- (Nat2Z.id (L - 1 - i)). f_equal.
  apply Z.mod_unique with (-1)%Z; lia.
Qed.

(** ** one dimension *)
Lemma reflection_1D_in L use f m c : 0 < L -> In (m, c) (reflection_1D L use f) <-> exists r : bool, (r = true -> use = true) /\ m = map (fz L r 0) (seq 0 L) /\ c = if r then f else C1.
Proof.
  intros HL. unfold reflection_1D, get_1D_index.
  assert (E0 : seq 0 L = map (fz L false 0) (seq 0 L)) by (rewrite <- (map_id (seq 0 L)) at 1; apply map_ext_in; intros i Hi; apply in_seq in Hi; rewrite fz_id; [reflexivity|lia]).
  assert (E1 : rev (seq 0 L) = map (fz L true 0) (seq 0 L)).
  { rewrite <- (map_id (seq 0 L)) at 1. rewrite rev_seq. apply map_ext_in. intros i Hi. apply in_seq in Hi. apply rev_index. lia. }
  cbn [In]. split.
  - intros [E|H].
    + exists false. inversion E. split; [discriminate|]. split; [congruence|reflexivity].
    + destruct use; [|destruct H]. destruct H as [E|[]]. exists true. inversion E. auto.
  - intros (r & Hr & -> & ->). destruct r.
    + rewrite Hr by reflexivity. right. left. now rewrite E1.
    + left. now rewrite <- E0.
Qed.
Lemma translation_1D_in L use f m c : 0 < L -> In (m, c) (translation_1D L use f) <-> exists a, a < L /\ (a = 0 \/ use = true) /\ m = map (fz L false (Z.of_nat a)) (seq 0 L) /\ c = Cpow f a.
Proof.
  intros HL. unfold translation_1D, get_1D_index.
  assert (E0 : seq 0 L = map (fz L false (Z.of_nat 0)) (seq 0 L)) by (rewrite <- (map_id (seq 0 L)) at 1; apply map_ext_in; intros i Hi; apply in_seq in Hi; rewrite fz_id; [reflexivity|lia]).
  assert (E1 : forall x, roll x (seq 0 L) 0 = map (fz L false (Z.of_nat x)) (seq 0 L)).
  { intros x. rewrite <- (map_id (seq 0 L)) at 1. rewrite roll_seq. apply map_ext. intros i. now apply roll_index. }
  cbn [In]. split.
  - intros [E|H].
    + exists 0. inversion E. split; [lia|]. split; [auto|]. split; [congruence|reflexivity].
    + destruct use; [|destruct H]. apply in_map_iff in H as (x & E & Hx). apply filter_In in Hx as [Hx _]. apply in_seq in Hx. inversion E. exists x. split; [lia|]. split; [auto|]. split; [apply E1|reflexivity].
  - intros (a & Ha & Hu & -> & ->). destruct (Nat.eqb_spec a 0) as [->|Hn].
    + left. now rewrite <- E0.
    + right. destruct Hu as [Hu|Hu]; [contradiction|]. subst use. apply in_map_iff. exists a. split; [now rewrite E1|]. apply filter_In. split; [apply in_seq; lia|]. apply Nat.eqb_neq in Hn. now rewrite Hn.
Qed.
Lemma map_matrix_fz n g : map_matrix n (map g (seq 0 n)) = smat n 1 g.
Proof. rewrite map_matrix_smat by (now rewrite map_length, seq_length). apply smat_ext. intros i Hi. now apply nth_map_seq. Qed.
Definition raw_1D L (uT uR uS : bool) fT fR fS := add_spinflip uS fS (get_orbits_from_maps_1D L (translation_1D L uT fT) (reflection_1D L uR fR)).
Lemma orbits_1D_in L uT uR fT fR A c : 0 < L -> In (A, c) (get_orbits_from_maps_1D L (translation_1D L uT fT) (reflection_1D L uR fR)) <->
  exists a r, a < L /\ (a = 0 \/ uT = true) /\ (r = true -> uR = true) /\ A = smat L 1 (fz L r (Z.of_nat a)) /\ c = Cmul (Cpow fT a) (if r then fR else C1).
Proof.
  intros HL. unfold get_orbits_from_maps_1D. rewrite in_flat_map.
  assert (M : forall a r, mat_mul (map_matrix L (map (fz L false (Z.of_nat a)) (seq 0 L))) (map_matrix L (map (fz L r 0) (seq 0 L))) = smat L 1 (fz L r (Z.of_nat a))).
  { intros a r. rewrite !map_matrix_fz, smat_mul by (intros; now apply fz_range). apply smat_ext. intros i Hi. rewrite fz_fz by assumption. cbn [xorb sgz]. destruct r; cbn [xorb]; f_equal; ring. }
  split.
  - intros ((t, ct) & Ht & H). apply in_map_iff in H as ((rm, cr) & E & Hr). apply translation_1D_in in Ht as (a & Ha & Hu & -> & ->); [|assumption]. apply reflection_1D_in in Hr as (r & Hr & -> & ->); [|assumption].
    cbn [fst snd] in E. rewrite M in E. inversion E. exists a, r. auto.
  - intros (a & r & Ha & Hu & Hr & -> & ->). exists (map (fz L false (Z.of_nat a)) (seq 0 L), Cpow fT a). split; [apply translation_1D_in; [assumption|exists a; auto]|].
    apply in_map_iff. exists (map (fz L r 0) (seq 0 L), if r then fR else C1). split; [cbn [fst snd]; now rewrite M|]. apply reflection_1D_in; [assumption|exists r; auto].
Qed.
Lemma raw_1D_in L uT uR uS fT fR fS A c : 0 < L -> In (A, c) (raw_1D L uT uR uS fT fR fS) <->
  exists a r (q : bool), a < L /\ (a = 0 \/ uT = true) /\ (r = true -> uR = true) /\ (q = true -> uS = true) /\ A = smat L (sgz q) (fz L r (Z.of_nat a))
   /\ c = if q then Cmul fS (Cmul (Cpow fT a) (if r then fR else C1)) else Cmul (Cpow fT a) (if r then fR else C1).
Proof.
  intros HL. unfold raw_1D, add_spinflip. split.
  - intros H. assert (HH : In (A, c) (get_orbits_from_maps_1D L (translation_1D L uT fT) (reflection_1D L uR fR)) \/ (uS = true /\ In (A, c) (map (fun of => (mat_opp (fst of), Cmul fS (snd of))) (get_orbits_from_maps_1D L (translation_1D L uT fT) (reflection_1D L uR fR))))).
    { destruct uS; [apply in_app_iff in H as [H|H]; auto|auto]. }
    destruct HH as [HH|[HS HH]].
    + apply orbits_1D_in in HH as (a & r & H1 & H2 & H3 & -> & ->); [|assumption]. exists a, r, false. repeat split; auto. discriminate.
    + apply in_map_iff in HH as ((A', c') & E & HH). apply orbits_1D_in in HH as (a & r & H1 & H2 & H3 & -> & ->); [|assumption]. cbn [fst snd] in E. rewrite mat_opp_smat in E. inversion E. exists a, r, true. repeat split; auto.
  - intros (a & r & q & H1 & H2 & H3 & H4 & -> & ->).
    assert (HB : In (smat L 1 (fz L r (Z.of_nat a)), Cmul (Cpow fT a) (if r then fR else C1)) (get_orbits_from_maps_1D L (translation_1D L uT fT) (reflection_1D L uR fR))) by (apply orbits_1D_in; [assumption|exists a, r; auto]).
    destruct q.
    + rewrite H4 by reflexivity. apply in_app_iff. right. apply in_map_iff. eexists. split; [|exact HB]. cbn [fst snd]. now rewrite mat_opp_smat.
    + destruct uS; [apply in_app_iff; left|]; exact HB.
Qed.
Lemma raw_1D_square L uT uR uS fT fR fS : 0 < L -> Forall (fun x => square L (fst x)) (raw_1D L uT uR uS fT fR fS).
Proof. intros HL. apply Forall_forall. intros (A, c) H. apply raw_1D_in in H as (a & r & q & _ & _ & _ & _ & -> & _); [|assumption]. apply smat_square. Qed.

Definition P1 (L : nat) (uT uR uS : bool) (sg : Z) (f : nat -> nat) : Prop :=
  exists q r a, (q = true -> uS = true) /\ (r = true -> uR = true) /\ (a = 0%Z \/ uT = true) /\ sg = sgz q /\ f = fz L r a.
Lemma raw_1D_mats L uT uR uS fT fR fS A : 0 < L -> In A (map fst (raw_1D L uT uR uS fT fR fS)) <-> exists sg f, P1 L uT uR uS sg f /\ A = smat L sg f.
Proof.
  intros HL. rewrite in_map_iff. split.
  - intros ((A', c) & E & H). cbn in E. subst A'. apply raw_1D_in in H as (a & r & q & H1 & H2 & H3 & H4 & -> & _); [|assumption].
    exists (sgz q), (fz L r (Z.of_nat a)). split; [|reflexivity]. exists q, r, (Z.of_nat a). repeat split; auto. destruct H2; [left; lia|auto].
  - intros (sg & f & (q & r & a & H1 & H2 & H3 & -> & ->) & ->). eexists (_, _). split; [reflexivity|]. apply raw_1D_in; [assumption|].
    exists (Z.to_nat (a mod Z.of_nat L)), r, q. pose proof (Z.mod_pos_bound a (Z.of_nat L) ltac:(lia)). split; [lia|]. split.
    { destruct H3 as [->|]; [left|auto]. now rewrite Z.mod_0_l by lia. }
    split; [assumption|]. split; [assumption|]. split; [|reflexivity]. rewrite Z2Nat.id by lia. apply smat_ext. intros i Hi. symmetry. apply fz_mod.
Qed.
Lemma sgz_mul q q' : (sgz q * sgz q')%Z = sgz (xorb q q'). Proof. now destruct q, q'. Qed.
Lemma sgz_unit q : (sgz q = 1 \/ sgz q = -1)%Z. Proof. destruct q; auto. Qed.
Lemma xorb_use a b u : (a = true -> u = true) -> (b = true -> u = true) -> xorb a b = true -> u = true.
Proof. destruct a, b; cbn; auto; discriminate. Qed.
Lemma orbit_1D_group L uT uR uS fT fR fS : 0 < L -> is_group L (map fst (get_orbit_1D L uT uR uS fT fR fS)).
Proof.
  intros HL. destruct (unique_mats L (raw_1D L uT uR uS fT fR fS) (raw_1D_square _ _ _ _ _ _ _ HL)) as [HN HI].
  apply (group_of L _ (P1 L uT uR uS)).
  - intros A. rewrite <- (raw_1D_mats L uT uR uS fT fR fS A HL). apply HI.
  - exact HN.
  - intros sg f (q & r & a & _ & _ & _ & -> & ->). split; [apply sgz_unit|]. intros i _. now apply fz_range.
  - exists (fz L false 0). split; [|intros; now apply fz_id]. exists false, false, 0%Z. repeat split; auto; discriminate.
  - intros sg f tu g (q & r & a & H1 & H2 & H3 & -> & ->) (q' & r' & a' & H1' & H2' & H3' & -> & ->).
    exists (fz L (xorb r r') (a + sgz r * a')). split; [|intros i Hi; now rewrite fz_fz].
    exists (xorb q q'), (xorb r r'), (a + sgz r * a')%Z. split; [now apply xorb_use|]. split; [now apply xorb_use|]. split; [|split; [apply sgz_mul|reflexivity]].
    destruct H3 as [->|]; [|auto]. destruct H3' as [->|]; [|auto]. left. lia.
  - intros sg f (q & r & a & H1 & H2 & H3 & -> & ->). exists (fz L r (- sgz r * a)). split.
    + exists q, r, (- sgz r * a)%Z. repeat split; auto. destruct H3 as [->|]; [left; lia|auto].
    + intros i Hi. rewrite fz_fz by assumption. rewrite xorb_nilpotent. replace (a + sgz r * (- sgz r * a))%Z with 0%Z by (destruct r; cbn [sgz]; ring). now apply fz_id.
Qed.

(** ** number of elements *)
Lemma fz_inj_a L a b r : a < L -> b < L -> fz L r (Z.of_nat a) 0 = fz L r (Z.of_nat b) 0 -> a = b.
Proof.
  intros Ha Hb H. unfold fz in H. apply Z2Nat.inj in H; try (apply cz_range; lia). unfold cz in H.
  destruct r; cbn [sgz shz] in H.
  - assert ((-1 * (Z.of_nat 0 - Z.of_nat a) - 1 - (-1 * (Z.of_nat 0 - Z.of_nat b) - 1)) mod Z.of_nat L = 0)%Z by (rewrite Zminus_mod, H, Z.sub_diag; reflexivity).
    apply Z.mod_divide in H0; [|lia]. destruct H0 as [k Hk]. assert (k = 0)%Z by nia. nia.
  - assert ((1 * (Z.of_nat 0 - Z.of_nat a) - 0 - (1 * (Z.of_nat 0 - Z.of_nat b) - 0)) mod Z.of_nat L = 0)%Z by (rewrite Zminus_mod, H, Z.sub_diag; reflexivity).
    apply Z.mod_divide in H0; [|lia]. destruct H0 as [k Hk]. assert (k = 0)%Z by nia. nia.
Qed.
Lemma fz_mixed L a b : 3 <= L -> (forall i, i < L -> fz L false (Z.of_nat a) i = fz L true (Z.of_nat b) i) -> False.
Proof.
  intros HL H. pose proof (H 0 ltac:(lia)) as E0. pose proof (H 1 ltac:(lia)) as E1. clear H. unfold fz in *.
  apply Z2Nat.inj in E0; try (apply cz_range; lia). apply Z2Nat.inj in E1; try (apply cz_range; lia). unfold cz in *. cbn [sgz shz] in *.
  set (u := (1 * (Z.of_nat 0 - Z.of_nat a) - 0)%Z) in *. set (v := (-1 * (Z.of_nat 0 - Z.of_nat b) - 1)%Z) in *.
  replace (1 * (Z.of_nat 1 - Z.of_nat a) - 0)%Z with (u + 1)%Z in E1 by (unfold u; lia). replace (-1 * (Z.of_nat 1 - Z.of_nat b) - 1)%Z with (v - 1)%Z in E1 by (unfold v; lia).
  assert (D0 : ((u - v) mod Z.of_nat L = 0)%Z) by (rewrite Zminus_mod, E0, Z.sub_diag; reflexivity).
  assert (D1 : ((u + 1 - (v - 1)) mod Z.of_nat L = 0)%Z) by (rewrite Zminus_mod, E1, Z.sub_diag; reflexivity).
  apply Z.mod_divide in D0; [|lia]. apply Z.mod_divide in D1; [|lia]. destruct D0 as [k Hk], D1 as [m Hm]. assert ((m - k) * Z.of_nat L = 2)%Z by (clear E0 E1; rewrite Z.mul_sub_distr_r; lia). assert (HLz : (3 <= Z.of_nat L)%Z) by lia. clear -H HLz. assert (m - k <= 0 \/ 1 <= m - k)%Z as [Hx|Hx] by lia; nia.
Qed.
(** canonical parameters *)
Definition canon (L : nat) (uT uR uS : bool) : list (bool * (bool * nat)) :=
  list_prod (if uS then [false; true] else [false])
   (list_prod (if uR && (if uT then 3 <=? L else 2 <=? L) then [false; true] else [false]) (if uT then seq 0 L else [0])).
Definition cmat L (p : bool * (bool * nat)) : mat := smat L (sgz (fst p)) (fz L (fst (snd p)) (Z.of_nat (snd (snd p)))).
Lemma NoDup_list_prod {A B} (l : list A) (m : list B) : NoDup l -> NoDup m -> NoDup (list_prod l m).
Proof.
  intros Hl Hm. induction Hl as [|x l Hx Hl IH]; [constructor|]. cbn. apply NoDup_app'; [apply NoDup_map_inj; [intros ? ? E; now inversion E|assumption]|assumption|].
  intros (a, b) H1 H2. apply in_map_iff in H1 as (b' & E & _). inversion E; subst. apply in_prod_iff in H2. tauto.
Qed.
Lemma fz_small L a i : 0 < L -> L <= 2 -> fz L true a i = fz L false (1 - a) i.
Proof.
  intros HL H2. unfold fz. f_equal. unfold cz. cbn [sgz shz].
  assert (HD : exists k, (-1 * (Z.of_nat i - a) - 1 - (1 * (Z.of_nat i - (1 - a)) - 0) = k * Z.of_nat L)%Z).
  { assert (L = 1 \/ L = 2) as [-> | ->] by lia; [exists (-2 * Z.of_nat i)%Z|exists (- Z.of_nat i)%Z]; lia. }
  destruct HD as [k Hk]. replace (-1 * (Z.of_nat i - a) - 1)%Z with ((1 * (Z.of_nat i - (1 - a)) - 0) + k * Z.of_nat L)%Z by lia. apply Z_mod_plus_full.
Qed.
Lemma in_use (u b : bool) : In b (if u then [false; true] else [false]) <-> (b = true -> u = true).
Proof. destruct u, b; cbn; intuition congruence. Qed.
Lemma canon_in L uT uR uS q r a : In (q, (r, a)) (canon L uT uR uS) <-> (q = true -> uS = true) /\ (r = true -> uR && (if uT then 3 <=? L else 2 <=? L) = true) /\ In a (if uT then seq 0 L else [0]).
Proof. unfold canon. rewrite !in_prod_iff, !in_use. tauto. Qed.
Lemma canon_length L uT uR uS : length (canon L uT uR uS) = (if uS then 2 else 1) * ring_order L uT uR.
Proof.
  unfold canon, ring_order. rewrite !prod_length. destruct uS, uT; cbn [length]; rewrite ?seq_length;
  destruct uR; cbn [andb]; try (destruct (3 <=? L)); try (destruct (2 <=? L)); cbn [length]; lia.
Qed.
Lemma cmat_NoDup L uT uR uS : 0 < L -> NoDup (map (cmat L) (canon L uT uR uS)).
Proof.
  intros HL. assert (ND : NoDup (canon L uT uR uS)).
  { unfold canon. apply NoDup_list_prod; [destruct uS; repeat constructor; cbn; intuition congruence|]. apply NoDup_list_prod; [destruct (uR && _); repeat constructor; cbn; intuition congruence|].
    destruct uT; [apply seq_NoDup|repeat constructor; intros []]. }
  assert (INJ : forall p p', In p (canon L uT uR uS) -> In p' (canon L uT uR uS) -> cmat L p = cmat L p' -> p = p').
  { intros (q, (r, a)) (q', (r', a')) H H' E. apply canon_in in H as (H1 & H2 & H3). apply canon_in in H' as (H1' & H2' & H3'). unfold cmat in E. cbn [fst snd] in E.
    apply smat_inj in E; [|assumption|destruct q; discriminate|intros; now apply fz_range]. destruct E as [Es Ef].
    assert (q = q') by (destruct q, q'; cbn in Es; congruence || discriminate). subst q'.
    assert (Ha : a < L) by (destruct uT; [apply in_seq in H3; lia|destruct H3 as [<-|[]]; lia]).
    assert (Ha' : a' < L) by (destruct uT; [apply in_seq in H3'; lia|destruct H3' as [<-|[]]; lia]).
    assert (Rq : r = r').
    { assert (X : forall a b, In a (if uT then seq 0 L else [0]) -> In b (if uT then seq 0 L else [0]) -> (forall i, i < L -> fz L false (Z.of_nat a) i = fz L true (Z.of_nat b) i) ->
         uR && (if uT then 3 <=? L else 2 <=? L) = true -> False).
      { intros u v Hu Hv Ef' HR. apply andb_prop in HR as [_ HR]. destruct uT; apply Nat.leb_le in HR; [eapply fz_mixed; eauto|]. destruct Hu as [<-|[]], Hv as [<-|[]].
        specialize (Ef' 0 ltac:(lia)). change (Z.of_nat 0) with 0%Z in Ef'. rewrite fz_id in Ef' by lia. rewrite <- rev_index in Ef' by lia. lia. }
      destruct r, r'; try reflexivity; exfalso; [apply (X a' a); auto; intros i Hi; symmetry; auto|apply (X a a'); auto]. }
    subst r'. f_equal. f_equal. apply (fz_inj_a L a a' r); auto. }
  clear -ND INJ. induction ND as [|p l Hp ND IH]; [constructor|]. cbn. constructor.
  - intros H. apply in_map_iff in H as (p' & E & H). apply Hp. rewrite <- (INJ p' p); cbn; auto.
  - apply IH. intros; apply INJ; cbn; auto.
Qed.
Lemma cmat_covers L uT uR uS sg f : 0 < L -> P1 L uT uR uS sg f -> In (smat L sg f) (map (cmat L) (canon L uT uR uS)).
Proof.
  intros HL (q & r & a & H1 & H2 & H3 & -> & ->).
  assert (G : forall r b, (r = true -> uR && (if uT then 3 <=? L else 2 <=? L) = true) -> (b = 0%Z \/ uT = true) -> (forall i, i < L -> True) -> In (smat L (sgz q) (fz L r b)) (map (cmat L) (canon L uT uR uS))).
  { intros r0 b Hr Hb _. apply in_map_iff. pose proof (Z.mod_pos_bound b (Z.of_nat L) ltac:(lia)). exists (q, (r0, Z.to_nat (b mod Z.of_nat L))). split.
    - unfold cmat. cbn [fst snd]. rewrite Z2Nat.id by lia. apply smat_ext. intros. apply fz_mod.
    - apply canon_in. split; [assumption|]. split; [assumption|]. destruct uT; [apply in_seq; lia|]. destruct Hb as [->|]; [|discriminate]. rewrite Z.mod_0_l by lia. left. reflexivity. }
  destruct r; [|apply G; auto; discriminate]. specialize (H2 eq_refl). destruct uT eqn:ET.
  - destruct (3 <=? L) eqn:E3.
    + apply (G true a); auto. intros _. rewrite H2. reflexivity.
    + apply Nat.leb_gt in E3. rewrite (smat_ext L _ (fz L true a) (fz L false (1 - a))) by (intros; apply fz_small; lia). apply G; auto. discriminate.
  - destruct (2 <=? L) eqn:E2.
    + apply (G true a); auto. intros _. rewrite H2. reflexivity.
    + apply Nat.leb_gt in E2. assert (L = 1) by lia. subst L. rewrite (smat_ext 1 _ (fz 1 true a) (fz 1 false 0)); [apply G; auto; discriminate|]. intros i Hi. pose proof (fz_range 1 true a i ltac:(lia)). pose proof (fz_range 1 false 0 i ltac:(lia)). lia.
Qed.
Lemma orbit_1D_count L uT uR uS fT fR fS : 0 < L -> length (get_orbit_1D L uT uR uS fT fR fS) = (if uS then 2 else 1) * ring_order L uT uR.
Proof.
  intros HL. rewrite <- canon_length, <- (map_length fst), <- (map_length (cmat L)).
  destruct (unique_mats L (raw_1D L uT uR uS fT fR fS) (raw_1D_square _ _ _ _ _ _ _ HL)) as [HN HI].
  apply Permutation_length, NoDup_Permutation; [exact HN|now apply cmat_NoDup|]. intros A. rewrite (HI A), raw_1D_mats by assumption. split.
  - intros (sg & f & H & ->). now apply cmat_covers.
  - intros H. apply in_map_iff in H as ((q, (r, a)) & <- & H). apply canon_in in H as (H1 & H2 & H3). exists (sgz q), (fz L r (Z.of_nat a)). split; [|reflexivity].
    exists q, r, (Z.of_nat a). repeat split; auto; [intros E; specialize (H2 E); now apply andb_prop in H2|]. destruct uT; [auto|]. destruct H3 as [<-|[]]. auto.
Qed.
