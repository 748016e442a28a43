(** Finite Markov chains: convergence of irreducible, aperiodic chains. *)
From Coq Require Import ZArith List Reals Bool Arith Lia Lra.
From Verif Require Import Base Cplx BranchFree_Model Dist Sampler_Model Sampler_Spec Sampler_Proofs.
Import ListNotations.
Local Open Scope R_scope.

(** ** distributions with weights that are not negative *)
Definition nonneg {A} (m : dist A) : Prop := Forall (fun wa => 0 <= fst wa) m.

Lemma nonneg_ret {A} (a : A) : nonneg (ret a).
Proof. constructor; [cbn; lra|constructor]. Qed.
Lemma nonneg_bind {A B} (m : dist A) (g : A -> dist B) : nonneg m -> (forall a, outcome m a -> nonneg (g a)) -> nonneg (dbind m g).
Proof.
  intros Hm Hg. unfold dbind. apply Forall_forall. intros vb H. apply in_flat_map in H as ([w a] & Hin & H). apply in_map_iff in H as ([v b] & <- & Hb).
  cbn [fst snd] in *. unfold nonneg in Hm. rewrite Forall_forall in Hm. pose proof (Hm _ Hin) as H1. cbn in H1.
  assert (nonneg (g a)) as H2. { apply Hg. apply (in_map snd) in Hin. exact Hin. }
  unfold nonneg in H2. rewrite Forall_forall in H2. pose proof (H2 _ Hb) as H3. cbn in H3. now apply Rmult_le_pos.
Qed.
Lemma nonneg_uniform {A} (l : list A) : nonneg (uniform l).
Proof.
  unfold uniform. apply Forall_map. apply Forall_forall. intros a Ha. cbn [fst]. left. apply Rinv_0_lt_compat. apply lt_0_INR. destruct l; [destruct Ha|cbn; lia].
Qed.
Lemma nonneg_mapD {A B} (g : A -> dist B) l : (forall a, In a l -> nonneg (g a)) -> nonneg (mapD g l).
Proof.
  induction l as [|a l IH]; intros H; cbn [mapD]; [apply nonneg_ret|]. apply nonneg_bind; [apply H; now left|]. intros b _.
  apply nonneg_bind; [apply IH; intros; apply H; now right|]. intros; apply nonneg_ret.
Qed.
Lemma nonneg_bernoulli p : 0 <= p -> nonneg (bernoulli p).
Proof.
  intros H. unfold bernoulli. pose proof (Rmin_l 1 p). assert (0 <= Rmin 1 p) by (apply Rmin_glb; lra).
  constructor; [cbn [fst]; lra|]. constructor; [cbn [fst]; lra|constructor].
Qed.

Lemma E_le {A} (m : dist A) f g : nonneg m -> (forall a, outcome m a -> f a <= g a) -> E m f <= E m g.
Proof.
  intros Hm H. unfold E. apply rsum_map_le. intros [w a] Hin. cbn [fst snd]. unfold nonneg in Hm. rewrite Forall_forall in Hm. pose proof (Hm _ Hin) as H1. cbn in H1.
  apply Rmult_le_compat_l; [assumption|]. apply H. apply (in_map snd) in Hin. exact Hin.
Qed.
Lemma E_pos {A} (m : dist A) f : nonneg m -> (forall a, outcome m a -> 0 <= f a) -> 0 <= E m f.
Proof. intros Hm H. replace 0 with (E m (fun _ => 0)) by (rewrite E_const; ring). now apply E_le. Qed.
Lemma E_between {A} (m : dist A) f a b : nonneg m -> mass m = 1 -> (forall x, outcome m x -> a <= f x <= b) -> a <= E m f <= b.
Proof.
  intros Hn Hm H. split.
  - replace a with (E m (fun _ => a)) by (rewrite E_const, Hm; ring). apply E_le; [assumption|]. intros; now apply H.
  - replace b with (E m (fun _ => b)) by (rewrite E_const, Hm; ring). apply E_le; [assumption|]. intros; now apply H.
Qed.

(** ** a chain on a finite space *)
Definition kernel_on (space : list config) (K : config -> dist config) : Prop :=
  NoDup space /\ forall s, In s space -> nonneg (K s) /\ mass (K s) = 1 /\ forall t, outcome (K s) t -> In t space.

Section Chain.
Variable space : list config.
Variable K : config -> dist config.
Hypothesis HK : kernel_on space K.

Lemma it_closed n s t : In s space -> outcome (iterD n K s) t -> In t space.
Proof.
  revert s. induction n as [|n IH]; intros s Hs H; cbn [iterD] in H; [apply outcome_ret in H; now subst|].
  apply outcome_bind in H as (u & Hu & H). apply (IH u); [|assumption]. exact (proj2 (proj2 (proj2 HK s Hs)) u Hu).
Qed.
Lemma it_nonneg n s : In s space -> nonneg (iterD n K s).
Proof.
  revert s. induction n as [|n IH]; intros s Hs; cbn [iterD]; [apply nonneg_ret|]. apply nonneg_bind; [exact (proj1 (proj2 HK s Hs))|].
  intros u Hu. apply IH. exact (proj2 (proj2 (proj2 HK s Hs)) u Hu).
Qed.
Lemma it_mass n s : In s space -> mass (iterD n K s) = 1.
Proof.
  revert s. induction n as [|n IH]; intros s Hs; cbn [iterD]; [apply mass_ret|]. rewrite mass_bind; [exact (proj1 (proj2 (proj2 HK s Hs)))|].
  intros u Hu. apply IH. exact (proj2 (proj2 (proj2 HK s Hs)) u Hu).
Qed.

Definition Pn (n : nat) (x y : config) : R := Pr (iterD n K x) y.
Definition reach (n : nat) (x y : config) : Prop := 0 < Pn n x y.

Lemma Pn_nonneg n x y : In x space -> 0 <= Pn n x y.
Proof. intros Hx. apply E_pos; [now apply it_nonneg|]. intros s _. destruct (config_eq_dec s y); lra. Qed.

Lemma Pn_add n m x y z : In x space -> In y space -> Pn n x y * Pn m y z <= Pn (n + m) x z.
Proof.
  intros Hx Hy. unfold Pn, Pr. rewrite iterD_add, Rmult_comm, <- E_scal. apply E_le; [now apply it_nonneg|].
  intros s Hs. apply it_closed in Hs; [|assumption]. destruct (config_eq_dec s y) as [->|Hne]; [rewrite Rmult_1_r; apply Rle_refl|]. rewrite Rmult_0_r.
  apply (Pn_nonneg m s z Hs).
Qed.
Lemma reach_0 x : reach 0 x x.
Proof. unfold reach, Pn, Pr. cbn [iterD]. rewrite E_ret. destruct (config_eq_dec x x); [lra|congruence]. Qed.
Lemma reach_add n m x y z : In x space -> In y space -> reach n x y -> reach m y z -> reach (n + m) x z.
Proof. unfold reach. intros Hx Hy H1 H2. pose proof (Pn_add n m x y z Hx Hy). pose proof (Rmult_lt_0_compat _ _ H1 H2). lra. Qed.
Lemma reach_1 x y : 0 < Pr (K x) y -> reach 1 x y.
Proof.
  unfold reach, Pn, Pr. cbn [iterD]. rewrite E_bind. intros H. erewrite E_ext; [exact H|]. intros a _. cbn beta. now rewrite E_ret.
Qed.

(** irreducible and aperiodic *)
Definition irreducible : Prop := forall x y, In x space -> In y space -> exists n, reach n x y.
Definition aperiodic_at (z : config) : Prop := exists l0, forall l, (l0 <= l)%nat -> reach l z z.

Lemma bounded_choice (P : config -> nat -> Prop) l : (forall x, In x l -> exists n, P x n) -> exists M, forall x, In x l -> exists n, (n <= M)%nat /\ P x n.
Proof.
  induction l as [|a l IH]; intros H; [exists O; intros x []|]. destruct IH as (M & HM); [intros; apply H; now right|].
  destruct (H a ltac:(now left)) as (n & Hn). exists (Nat.max n M). intros x [<-|Hx]; [exists n; split; [lia|assumption]|].
  destruct (HM x Hx) as (k & Hk & Pk). exists k. split; [lia|assumption].
Qed.
Lemma positive_min (g : config -> R) l : (forall x, In x l -> 0 < g x) -> exists d, 0 < d /\ forall x, In x l -> d <= g x.
Proof.
  induction l as [|a l IH]; intros H; [exists 1; split; [lra|intros x []]|]. destruct IH as (d & Hd & H'); [intros; apply H; now right|].
  pose proof (H a ltac:(now left)) as Ha. exists (Rmin d (g a)). split; [now apply Rmin_pos|]. intros x [<-|Hx]; [apply Rmin_r|].
  eapply Rle_trans; [apply Rmin_l|]. now apply H'.
Qed.

Lemma minorization z : In z space -> irreducible -> aperiodic_at z -> exists m d, 0 < d /\ forall x y, In x space -> In y space -> d <= Pn m x y.
Proof.
  intros Hz Hi (l0 & Hl).
  destruct (bounded_choice (fun x n => reach n x z) space) as (M1 & H1); [intros x Hx; now apply Hi|].
  destruct (bounded_choice (fun y n => reach n z y) space) as (M2 & H2); [intros y Hy; now apply Hi|].
  set (m := (M1 + l0 + M2)%nat). exists m.
  assert (A : forall x y, In x space -> In y space -> reach m x y).
  { intros x y Hx Hy. destruct (H1 x Hx) as (a & La & Ra). destruct (H2 y Hy) as (b & Lb & Rb).
    replace m with (a + ((m - a - b) + b))%nat by (unfold m; lia). apply (reach_add _ _ x z y); try assumption. apply (reach_add _ _ z z y); try assumption. apply Hl. unfold m; lia. }
  assert (B : forall x, In x space -> exists d, 0 < d /\ forall y, In y space -> d <= Pn m x y).
  { intros x Hx. apply positive_min. intros y Hy. now apply A. }
  assert (G : forall l, (forall x, In x l -> In x space) -> exists d, 0 < d /\ forall x y, In x l -> In y space -> d <= Pn m x y).
  { induction l as [|a l IH]; intros Hl'; [exists 1; split; [lra|intros x y []]|]. destruct IH as (d & Hd & H'); [intros; apply Hl'; now right|].
    destruct (B a (Hl' a ltac:(now left))) as (e & He & H''). exists (Rmin d e). split; [now apply Rmin_pos|]. intros x y [<-|Hx] Hy.
    - eapply Rle_trans; [apply Rmin_r|]. now apply H''.
    - eapply Rle_trans; [apply Rmin_l|]. now apply H'. }
  apply G. auto.
Qed.

Lemma sum_Pn m x : In x space -> rsum (map (fun y => Pn m x y) space) = 1.
Proof.
  intros Hx. rewrite <- (it_mass m x Hx), mass_E. rewrite (E_by_Pr space (iterD m K x) (fun _ => 1)); [|apply HK|intros t; now apply it_closed].
  apply rsum_ext. intros y _. unfold Pn. ring.
Qed.

Section Doeblin.
Variables (m : nat) (d : R).
Hypothesis Hd : 0 < d.
Hypothesis HM : forall x y, In x space -> In y space -> d <= Pn m x y.
Let r := 1 - d * INR (length space).

Lemma squeeze f a b x : In x space -> (forall y, In y space -> a <= f y <= b) ->
  d * rsum (map f space) + r * a <= E (iterD m K x) f <= d * rsum (map f space) + r * b.
Proof.
  intros Hx Hf. rewrite (E_by_Pr space (iterD m K x) f); [|apply HK|intros t; now apply it_closed]. fold (Pn m x).
  assert (S : forall c, rsum (map (fun y => (Pn m x y - d) * c) space) = r * c).
  { intros c. rewrite (rsum_ext _ (fun y => c * Pn m x y + (- (d * c)) * 1) space) by (intros; ring).
    rewrite rsum_map_add, !rsum_scal, sum_Pn, rsum_const by assumption. unfold r. ring. }
  assert (D : rsum (map (fun t => Pr (iterD m K x) t * f t) space) = d * rsum (map f space) + rsum (map (fun y => (Pn m x y - d) * f y) space)).
  { rewrite <- rsum_scal, <- rsum_map_add. apply rsum_ext. intros t _. unfold Pn. ring. }
  rewrite D, <- (S a), <- (S b). split; apply Rplus_le_compat_l, rsum_map_le; intros y Hy; apply Rmult_le_compat_l; try (now apply Hf); specialize (HM x y Hx Hy); lra.
Qed.

Lemma it_between f a b n x : In x space -> (forall y, In y space -> a <= f y <= b) -> a <= E (iterD n K x) f <= b.
Proof. intros Hx Hf. apply E_between; [now apply it_nonneg|now apply it_mass|]. intros y Hy. apply Hf. now apply (it_closed n x). Qed.

Lemma narrow f A B : (forall y, In y space -> A <= f y <= B) -> forall j, exists a b, b - a = r ^ j * (B - A) /\
  forall n x, (m * j <= n)%nat -> In x space -> a <= E (iterD n K x) f <= b.
Proof.
  intros Hf. induction j as [|j (a & b & Hab & IH)].
  - exists A, B. split; [cbn; ring|]. intros n x _ Hx. now apply it_between.
  - set (g := fun y => E (iterD (m * j) K y) f). exists (d * rsum (map g space) + r * a), (d * rsum (map g space) + r * b). split.
    + rewrite <- tech_pow_Rmult. replace (r * r ^ j * (B - A)) with (r * (b - a)) by (rewrite Hab; ring). ring.
    + intros n x Hn Hx. replace n with ((n - m * S j) + (m + m * j))%nat by (rewrite Nat.mul_succ_r in *; lia). rewrite iterD_add. apply it_between; [assumption|]. intros y Hy.
      rewrite iterD_add. apply squeeze; [assumption|]. intros w Hw. apply IH; [apply Nat.le_refl|assumption].
Qed.

Lemma r_range : space <> [] -> 0 <= r < 1.
Proof.
  intros Hne. assert (exists x, In x space) as (x & Hx) by (clear -Hne; destruct space as [|x l]; [congruence|exists x; now left]).
  assert (L : 0 < INR (length space)) by (apply lt_0_INR; clear -Hne; destruct space; [congruence|cbn; lia]). unfold r. split.
  - pose proof (sum_Pn m x Hx) as S. assert (rsum (map (fun _ : config => d) space) <= 1) as H. { rewrite <- S. apply rsum_map_le. intros y Hy. now apply HM. }
    rewrite rsum_const in H. lra.
  - pose proof (Rmult_lt_0_compat _ _ Hd L). lra.
Qed.
End Doeblin.

(** ** convergence to an invariant distribution *)
Variable pi : config -> R.
Hypothesis Hpi : forall s, In s space -> 0 <= pi s.
Hypothesis Hpi1 : rsum (map pi space) = 1.
Hypothesis Hinv : forall f, rsum (map (fun s => pi s * E (K s) f) space) = rsum (map (fun s => pi s * f s) space).

Lemma inv_iter n f : rsum (map (fun s => pi s * E (iterD n K s) f) space) = rsum (map (fun s => pi s * f s) space).
Proof.
  induction n as [|n IH]; [apply rsum_ext; intros; cbn [iterD]; now rewrite E_ret|].
  rewrite <- IH, <- (Hinv (fun y => E (iterD n K y) f)). apply rsum_ext. intros s _. cbn [iterD]. now rewrite E_bind.
Qed.

Theorem ergodic z f eps : In z space -> irreducible -> aperiodic_at z -> 0 < eps ->
  exists n0, forall n x, (n0 <= n)%nat -> In x space -> Rabs (E (iterD n K x) f - rsum (map (fun s => pi s * f s) space)) <= eps.
Proof.
  intros Hz Hi Ha He. destruct (minorization z Hz Hi Ha) as (m & d & Hd & HM).
  assert (Hne : space <> []) by (intros E; rewrite E in Hz; destruct Hz).
  assert (exists B, 0 <= B /\ forall y, In y space -> - B <= f y <= B) as (B & HB0 & HB).
  { clear -space. induction space as [|a l (B & H0 & H)]; [exists 0; split; [lra|intros y []]|]. exists (B + Rabs (f a)). pose proof (Rabs_pos (f a)). split; [lra|].
    intros y [<-|Hy]; [|specialize (H y Hy); lra]. pose proof (Rle_abs (f a)). pose proof (Rle_abs (- f a)). rewrite Rabs_Ropp in *. lra. }
  set (r := 1 - d * INR (length space)). pose proof (r_range m d Hd HM Hne) as Hr. fold r in Hr.
  destruct (pow_lt_1_zero r ltac:(rewrite Rabs_right; lra) (eps / (2 * B + 1)) ltac:(apply Rdiv_lt_0_compat; lra)) as (j & Hj).
  specialize (Hj j ltac:(lia)). rewrite Rabs_right in Hj by (apply Rle_ge, pow_le; lra).
  destruct (narrow m d HM f (- B) B HB j) as (a & b & Hab & HN). exists (m * j)%nat. intros n x Hn Hx.
  pose proof (HN n x Hn Hx) as H1. fold r in Hab.
  assert (a <= rsum (map (fun s => pi s * f s) space) <= b) as H2.
  { rewrite <- (inv_iter n f). split.
    - replace a with (rsum (map (fun s => pi s * a) space)) by (rewrite rsum_scal_r, Hpi1; ring). apply rsum_map_le. intros s Hs. apply Rmult_le_compat_l; [now apply Hpi|]. now apply HN.
    - replace b with (rsum (map (fun s => pi s * b) space)) by (rewrite rsum_scal_r, Hpi1; ring). apply rsum_map_le. intros s Hs. apply Rmult_le_compat_l; [now apply Hpi|]. now apply HN. }
  assert (b - a <= eps).
  { rewrite Hab. replace (B - - B) with (2 * B) by ring. apply Rle_trans with (eps / (2 * B + 1) * (2 * B)); [apply Rmult_le_compat_r; lra|].
    unfold Rdiv. rewrite Rmult_assoc. rewrite <- (Rmult_1_r eps) at 2. apply Rmult_le_compat_l; [lra|]. apply Rmult_le_reg_l with (2 * B + 1); [lra|]. rewrite <- Rmult_assoc, Rinv_r by lra. lra. }
  apply Rabs_le. lra.
Qed.
End Chain.
