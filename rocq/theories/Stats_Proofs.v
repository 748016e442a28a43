From Coq Require Import ZArith List Reals Lra Lia Permutation FunctionalExtensionality.
From Verif Require Import Base Cplx Mpi_Model Mpi_Spec Mpi_Proofs Stats_Model Stats_Spec.
Import ListNotations.

(** ** flattening *)
Lemma flat_lmap {A B} (f : A -> B) x : flat (lmap f x) = map f (flat x).
Proof. unfold flat, lmap. now rewrite !concat_map. Qed.

Lemma map2_app {A B D} (f : A -> B -> D) a a' b b' :
  length a = length b -> map2 f (a ++ a') (b ++ b') = map2 f a b ++ map2 f a' b'.
Proof. intros H. unfold map2. now rewrite combine_app, map_app. Qed.

Lemma map2_nil_r {A B D} (f : A -> B -> D) a : map2 f a [] = [].
Proof. unfold map2. destruct a; reflexivity. Qed.

Lemma map2_length {A B D} (f : A -> B -> D) a b : length a = length b -> length (map2 f a b) = length a.
Proof. intros H. unfold map2. rewrite map_length, combine_length. lia. Qed.

Lemma concat_map2 {A B D} (f : A -> B -> D) x y :
  Forall2 (fun a b => length a = length b) x y ->
  concat (map2 (map2 f) x y) = map2 f (concat x) (concat y).
Proof.
  induction 1 as [|a b x y H _ IH]; [reflexivity|].
  cbn [concat]. rewrite map2_app by assumption. now rewrite <- IH.
Qed.

Lemma flat_lmap2 {A B D} (f : A -> B -> D) x y :
  shape_eq x y -> flat (lmap2 f x y) = map2 f (flat x) (flat y).
Proof.
  intros H. unfold flat, lmap2. induction H as [|a b x y H _ IH]; [reflexivity|].
  cbn [concat combine]. unfold map2 at 1. cbn [combine map concat fst snd].
  fold (map2 (map2 (map2 f)) x y). rewrite !concat_app, IH, concat_map2 by assumption.
  rewrite map2_app; [reflexivity|].
  clear -H. induction H as [|c d a b E _ IH]; [reflexivity|]. cbn. rewrite !app_length. lia.
Qed.

Lemma shape_len {A B} (x : layout A) (y : layout B) : shape_eq x y -> length (flat x) = length (flat y).
Proof.
  unfold flat, shape_eq. intros H. induction H as [|a b x y H _ IH]; [reflexivity|]. cbn. rewrite !concat_app, !app_length, IH.
  f_equal. clear -H. induction H as [|c d a b E _ IH]; [reflexivity|]. cbn. rewrite !app_length. lia.
Qed.

Lemma shape_refl {A} (x : layout A) : shape_eq x x.
Proof.
  unfold shape_eq. induction x as [|a x IH]; constructor; [|assumption].
  induction a; constructor; auto.
Qed.

Lemma Forall2_trans_len {A B D} (P : A -> B -> Prop) (Q : B -> D -> Prop) (S : A -> D -> Prop) :
  (forall a b d, P a b -> Q b d -> S a d) ->
  forall x y z, Forall2 P x y -> Forall2 Q y z -> Forall2 S x z.
Proof.
  intros HH x y z H. revert z. induction H as [|a b x y H _ IH]; intros z Hz; inversion Hz; subst; constructor; eauto.
Qed.

Lemma shape_trans {A B D} (x : layout A) (y : layout B) (z : layout D) :
  shape_eq x y -> shape_eq y z -> shape_eq x z.
Proof.
  apply Forall2_trans_len. intros a b d. apply Forall2_trans_len. intros; congruence.
Qed.

Lemma shape_sym {A B} (x : layout A) (y : layout B) : shape_eq x y -> shape_eq y x.
Proof.
  intros H. apply Forall2_flip in H. eapply Forall2_imp; [|exact H].
  intros a b K. apply Forall2_flip in K. eapply Forall2_imp; [|exact K]. cbn. auto.
Qed.

Lemma shape_lmap {A B} (f : A -> B) x : shape_eq (lmap f x) x.
Proof.
  unfold shape_eq. induction x as [|a x IH]; constructor; [|exact IH].
  induction a as [|c a IHa]; constructor; [apply map_length|exact IHa].
Qed.

Lemma shape_lmap2 {A B D} (f : A -> B -> D) x y : shape_eq x y -> shape_eq (lmap2 f x y) y.
Proof.
  unfold shape_eq. induction 1 as [|a b x y H _ IH]; constructor; [|exact IH].
  cbn [fst snd]. clear IH. induction H as [|c d a b E _ IH]; constructor; [|exact IH].
  change (length (map2 f c d) = length d). rewrite map2_length; assumption.
Qed.

Lemma gsum_flat x : gsum x = csum (flat x).
Proof.
  unfold gsum, flat. rewrite !csum_concat, concat_map, csum_concat, map_map. reflexivity.
Qed.

(** the value of the model of mpi_wrapper.global_sum *)
Lemma gsum_is_global_sum (x : layout C) : Forall (fun d => d <> []) x ->
  global_sum (map Ok x) = map (fun _ => Ok (gsum x)) x.
Proof. intros H. rewrite gsum_flat. exact (global_sum_ok x H). Qed.

Lemma map_map2 {A B D E} (g : D -> E) (f : A -> B -> D) x y : map g (map2 f x y) = map2 (fun a b => g (f a b)) x y.
Proof. unfold map2. now rewrite map_map. Qed.
Lemma map2_ext {A B D} (f g : A -> B -> D) x y : (forall a b, f a b = g a b) -> map2 f x y = map2 g x y.
Proof. intros H. unfold map2. apply map_ext. intros []. apply H. Qed.

Lemma gsum_dev {A B} (f : A -> B -> C) x y :
  gsum (map2 (map2 (fun d v => [csum (map2 f d v)])) x y) = gsum (lmap2 f x y).
Proof.
  unfold gsum, lmap2. rewrite !map_map2. apply (f_equal csum). apply map2_ext. intros a b.
  rewrite !map_map2. apply (f_equal csum). apply map2_ext. intros c d.
  unfold csum at 1. cbn [big fold_right]. rewrite CaddC. apply Cadd0l.
Qed.

(** ** common indexing: a list T of (weight, sample, sample) *)
Lemma map2_map {T A B D} (f : A -> B -> D) (g : T -> A) (h : T -> B) l :
  map2 f (map g l) (map h l) = map (fun t => f (g t) (h t)) l.
Proof. unfold map2. induction l as [|t l IH]; [reflexivity|]. cbn. now rewrite IH. Qed.

Lemma combine_fst {A B} (x : list A) (y : list B) : length x = length y -> map fst (combine x y) = x.
Proof. revert y. induction x as [|a x IH]; intros [|b y] H; try discriminate; [reflexivity|]. cbn. f_equal. apply IH. now inversion H. Qed.
Lemma combine_snd {A B} (x : list A) (y : list B) : length x = length y -> map snd (combine x y) = y.
Proof. revert y. induction x as [|a x IH]; intros [|b y] H; try discriminate; [reflexivity|]. cbn. f_equal. apply IH. now inversion H. Qed.
Lemma combine_map {T A B} (g : T -> A) (h : T -> B) l : combine (map g l) (map h l) = map (fun t => (g t, h t)) l.
Proof. induction l as [|t l IH]; [reflexivity|]. cbn. now rewrite IH. Qed.

Lemma pairs_index {A} (w : layout R) (x : layout A) : shape_eq x w ->
  flat w = map fst (wpairs w x) /\ flat x = map snd (wpairs w x).
Proof.
  intros H. apply shape_len in H. unfold wpairs.
  split; symmetry; [apply combine_fst|apply combine_snd]; congruence.
Qed.

Lemma triples_index {A B} (w : layout R) (x : layout A) (y : layout B) : shape_eq x w -> shape_eq y w ->
  flat w = map fst (wtriples w x y) /\ flat x = map (fun t => fst (snd t)) (wtriples w x y)
  /\ flat y = map (fun t => snd (snd t)) (wtriples w x y).
Proof.
  intros H K. apply shape_len in H. apply shape_len in K. unfold wtriples.
  assert (length (combine (flat x) (flat y)) = length (flat w)) as E by (rewrite combine_length; lia).
  split; [|split].
  - symmetry. apply combine_fst. congruence.
  - rewrite <- (map_map snd fst), combine_snd by congruence. symmetry. apply combine_fst. congruence.
  - rewrite <- (map_map snd snd), combine_snd by congruence. symmetry. apply combine_snd. congruence.
Qed.

Lemma wpairs_triples_l {A B} (w : layout R) (x : layout A) (y : layout B) : shape_eq x w -> shape_eq y w ->
  wpairs w x = map (fun t => (fst t, fst (snd t))) (wtriples w x y).
Proof.
  intros H K. destruct (triples_index w x y H K) as (E1 & E2 & _). unfold wpairs. rewrite E1, E2 at 1. apply combine_map.
Qed.
Lemma wpairs_triples_r {A B} (w : layout R) (x : layout A) (y : layout B) : shape_eq x w -> shape_eq y w ->
  wpairs w y = map (fun t => (fst t, snd (snd t))) (wtriples w x y).
Proof.
  intros H K. destruct (triples_index w x y H K) as (E1 & _ & E3). unfold wpairs. rewrite E1, E3 at 1. apply combine_map.
Qed.

Lemma init_w {I} obs w : so_w (@init I obs w) = w. Proof. reflexivity. Qed.

Lemma init_mean {I} (obs : layout (I -> C)) w i : shape_eq obs w ->
  so_mean (init obs w) i = expect (wpairs w obs) (fun x => x i).
Proof.
  intros H. cbn. unfold dev_mean. rewrite gsum_dev, gsum_flat, flat_lmap2 by assumption.
  destruct (pairs_index w obs H) as [E1 E2]. rewrite E1, E2 at 1. rewrite map2_map. unfold expect.
  apply csum_ext. intros [p x] _. cbn. now rewrite Cscal_RtoC.
Qed.

Lemma init_data_shape {I} (obs : layout (I -> C)) w : shape_eq obs w -> shape_eq (so_data (init obs w)) w.
Proof. intros H. cbn. unfold data_prep. now apply shape_lmap2. Qed.

Lemma init_data_flat {I} (obs : layout (I -> C)) w : shape_eq obs w ->
  flat (so_data (init obs w))
  = map (fun px i => (RtoC (sqrt (fst px)) * (snd px i - so_mean (init obs w) i))%C) (wpairs w obs).
Proof.
  intros H. cbn [init so_data so_mean]. unfold data_prep. rewrite flat_lmap2 by assumption.
  destruct (pairs_index w obs H) as [E1 E2]. rewrite E1, E2 at 1. now rewrite map2_map.
Qed.

(** algebra of centred sums *)
Lemma expect_map {A B} (h : A -> B) xs f : expect (map (fun px => (fst px, h (snd px))) xs) f = expect xs (fun a => f (h a)).
Proof. unfold expect. now rewrite map_map. Qed.
Lemma expect_add {A} xs (f g : A -> C) : expect xs (fun a => (f a + g a)%C) = (expect xs f + expect xs g)%C.
Proof. unfold expect. rewrite <- csum_map_add. apply csum_ext. intros [p x] _. cbn. rewrite !Cscal_RtoC. ring. Qed.
Lemma expect_sub {A} xs (f g : A -> C) : expect xs (fun a => (f a - g a)%C) = (expect xs f - expect xs g)%C.
Proof. unfold expect. rewrite <- csum_sub. apply csum_ext. intros [p x] _. cbn. rewrite !Cscal_RtoC. ring. Qed.
Lemma expect_scal {A} xs c (f : A -> C) : expect xs (fun a => (c * f a)%C) = (c * expect xs f)%C.
Proof. unfold expect. rewrite <- csum_scal. apply csum_ext. intros [p x] _. cbn. rewrite !Cscal_RtoC. ring. Qed.
Lemma expect_scal_r {A} xs c (f : A -> C) : expect xs (fun a => (f a * c)%C) = (expect xs f * c)%C.
Proof. unfold expect. rewrite <- csum_scal_r. apply csum_ext. intros [p x] _. cbn. rewrite !Cscal_RtoC. ring. Qed.
Lemma expect_conj {A} xs (f : A -> C) : expect xs (fun a => Cconj (f a)) = Cconj (expect xs f).
Proof. unfold expect. rewrite csum_conj, map_map. apply csum_ext. intros [p x] _. cbn. now rewrite Cconj_scal. Qed.
Lemma expect_const {A} (xs : list (R * A)) c : expect xs (fun _ => c) = (RtoC (rsum (map fst xs)) * c)%C.
Proof.
  unfold expect. rewrite <- csum_RtoC, map_map, <- csum_scal_r. apply csum_ext. intros [p x] _. cbn. now rewrite Cscal_RtoC.
Qed.
Lemma expect_ext {A} xs (f g : A -> C) : (forall px, In px xs -> f (snd px) = g (snd px)) -> expect xs f = expect xs g.
Proof. intros H. unfold expect. apply csum_ext. intros px Hp. now rewrite H. Qed.
Lemma expect_perm {A} xs ys (f : A -> C) : Permutation xs ys -> expect xs f = expect ys f.
Proof. intros H. unfold expect. apply csum_perm. now apply Permutation_map. Qed.

Lemma cov_centred {A} (xs : list (R * A)) f g : rsum (map fst xs) = 1%R ->
  expect xs (fun a => (Cconj (f a - expect xs f) * (g a - expect xs g))%C) = cov xs f g.
Proof.
  intros H1. unfold cov.
  transitivity (expect xs (fun a => (Cconj (f a) * g a - Cconj (f a) * expect xs g
                   - Cconj (expect xs f) * g a + Cconj (expect xs f) * expect xs g)%C)).
  { apply expect_ext. intros px _. rewrite Cconj_sub. ring. }
  rewrite expect_add, !expect_sub, expect_scal_r, expect_scal, expect_const, expect_conj, H1, RtoC_1. ring.
Qed.

Lemma variance_cov {A} (xs : list (R * A)) f : rsum (map fst xs) = 1%R -> RtoC (variance xs f) = cov xs f f.
Proof.
  intros H1. rewrite <- cov_centred by assumption. unfold variance, expect at 1. rewrite <- csum_RtoC, map_map.
  apply csum_ext. intros [p x] _. cbn [fst snd]. rewrite Cmul_conj, Cscal_RtoC, RtoC_mul. reflexivity.
Qed.

Lemma variance_nonneg {A} (xs : list (R * A)) f : (forall p, In p (map fst xs) -> (0 <= p)%R) -> (0 <= variance xs f)%R.
Proof.
  intros H. unfold variance. apply rsum_map_nonneg. intros [p x] Hx. cbn.
  apply Rmult_le_pos; [|apply Cnorm2_ge]. apply H. apply in_map_iff. exists (p, x). auto.
Qed.

Lemma cov_map {A B} (h : A -> B) xs f g : cov (map (fun px => (fst px, h (snd px))) xs) f g = cov xs (fun a => f (h a)) (fun a => g (h a)).
Proof. unfold cov. now rewrite !expect_map. Qed.

Lemma weights_triples {A B} (w : layout R) (x : layout A) (y : layout B) : shape_eq x w -> shape_eq y w ->
  map fst (wtriples w x y) = flat w.
Proof. intros H K. symmetry. now apply triples_index. Qed.

Lemma in_triples_w {A B} (w : layout R) (x : layout A) (y : layout B) t : shape_eq x w -> shape_eq y w ->
  In t (wtriples w x y) -> In (fst t) (flat w).
Proof. intros H K Ht. rewrite <- (weights_triples w x y H K). now apply in_map. Qed.

Lemma sqrt_RtoC_sq p : (0 <= p)%R -> (RtoC (sqrt p) * RtoC (sqrt p))%C = RtoC p.
Proof. intros H. rewrite <- RtoC_mul, sqrt_sqrt by assumption. reflexivity. Qed.

(** data of two objects over the same triples *)
Lemma init_data_triples_l {I J} (a : layout (I -> C)) (b : layout (J -> C)) w : shape_eq a w -> shape_eq b w ->
  flat (so_data (init a w))
  = map (fun t i => (RtoC (sqrt (fst t)) * (fst (snd t) i - expect (wtriples w a b) (fun ab => fst ab i)))%C) (wtriples w a b).
Proof.
  intros Ha Hb. rewrite init_data_flat, (wpairs_triples_l w a b), map_map by assumption.
  apply map_ext. intros t. extensionality i. cbn [fst snd]. rewrite init_mean, (wpairs_triples_l w a b) by assumption.
  now rewrite expect_map.
Qed.
Lemma init_data_triples_r {I J} (a : layout (I -> C)) (b : layout (J -> C)) w : shape_eq a w -> shape_eq b w ->
  flat (so_data (init b w))
  = map (fun t i => (RtoC (sqrt (fst t)) * (snd (snd t) i - expect (wtriples w a b) (fun ab => snd ab i)))%C) (wtriples w a b).
Proof.
  intros Ha Hb. rewrite init_data_flat, (wpairs_triples_r w a b), map_map by assumption.
  apply map_ext. intros t. extensionality i. cbn [fst snd]. rewrite init_mean, (wpairs_triples_r w a b) by assumption.
  now rewrite expect_map.
Qed.

Lemma covar_shape {I J} (a : layout (I -> C)) (b : layout (J -> C)) w : shape_eq a w -> shape_eq b w ->
  shape_eq (so_data (init a w)) (so_data (init b w)).
Proof. intros. eapply shape_trans; [now apply init_data_shape|]. apply shape_sym. now apply init_data_shape. Qed.

Lemma covar_ok {I J} (a : layout (I -> C)) (b : layout (J -> C)) w i j :
  shape_eq a w -> shape_eq b w -> weights_ok (flat w) ->
  covar (init a w) (init b w) (i, j)
  = cov (wtriples w a b) (fun ab => fst ab i) (fun ab => snd ab j).
Proof.
  intros Ha Hb [Hp H1]. unfold covar.
  rewrite (gsum_dev (fun x y => (Cconj (x (fst (i, j))) * y (snd (i, j)))%C)).
  rewrite gsum_flat, flat_lmap2 by (now apply covar_shape).
  rewrite (init_data_triples_l a b), (init_data_triples_r a b), map2_map by assumption.
  rewrite <- cov_centred by (now rewrite weights_triples). cbn [fst snd]. unfold expect at 3.
  apply csum_ext. intros t Ht. cbn [fst snd].
  rewrite Cscal_RtoC, Cconj_mul, Cconj_RtoC.
  rewrite <- (sqrt_RtoC_sq (fst t)) by (apply Hp; eapply in_triples_w; eassumption). ring.
Qed.

Lemma var_ok {I} (a : layout (I -> C)) w i :
  shape_eq a w -> weights_ok (flat w) -> var (init a w) i = variance (wpairs w a) (fun x => x i).
Proof.
  intros Ha [Hp H1]. unfold var. rewrite gsum_flat, flat_lmap, init_data_flat, map_map by assumption.
  unfold variance. rewrite Re_csum, !map_map. apply rsum_ext. intros px Hpx. unfold Re, RtoC at 1. cbn [fst].
  rewrite Cabs_sq, Cnorm2_mul, Cnorm2_RtoC, init_mean by assumption.
  rewrite sqrt_sqrt; [reflexivity|]. apply Hp. destruct (pairs_index w a Ha) as [E _]. rewrite E. now apply in_map.
Qed.

(** ** Hermitian and positive *)
Lemma cov_herm {A} (xs : list (R * A)) f g : cov xs f g = Cconj (cov xs g f).
Proof.
  unfold cov. rewrite Cconj_sub, Cconj_mul, Cconj_conj. f_equal; [|ring].
  rewrite <- (expect_conj xs (fun a => (Cconj (g a) * f a)%C)).
  apply expect_ext. intros px _. rewrite Cconj_mul, Cconj_conj. ring.
Qed.

Lemma expect_csum {A K} (xs : list (R * A)) (c : K -> C) (f : K -> A -> C) L :
  expect xs (fun a => csum (map (fun k => (c k * f k a)%C) L)) = csum (map (fun k => (c k * expect xs (f k))%C) L).
Proof.
  induction L as [|k L IH]; cbn [map].
  - rewrite csum_nil. transitivity (expect xs (fun a => (C0 * C0)%C)).
    + apply expect_ext. intros. cbn. Cring.
    + rewrite expect_scal. ring.
  - rewrite csum_cons, <- IH, <- expect_scal, <- expect_add. apply expect_ext. intros; now rewrite csum_cons.
Qed.

Lemma cov_csum_r {A K} (xs : list (R * A)) h (c : K -> C) (f : K -> A -> C) L :
  cov xs h (fun a => csum (map (fun k => (c k * f k a)%C) L)) = csum (map (fun k => (c k * cov xs h (f k))%C) L).
Proof.
  unfold cov. rewrite expect_csum.
  rewrite (expect_ext xs _ (fun a => csum (map (fun k => (c k * (Cconj (h a) * f k a))%C) L))).
  - rewrite expect_csum. rewrite <- csum_scal, <- csum_sub. apply csum_ext. intros; ring.
  - intros px _. rewrite <- csum_scal. apply csum_ext. intros; ring.
Qed.

Lemma cov_psd {A K} (xs : list (R * A)) (c : K -> C) (f : K -> A -> C) L : rsum (map fst xs) = 1%R ->
  csum (map (fun i => csum (map (fun j => (Cconj (c i) * cov xs (f i) (f j) * c j)%C) L)) L)
  = RtoC (variance xs (fun a => csum (map (fun k => (c k * f k a)%C) L))).
Proof.
  intros H. rewrite variance_cov by assumption. rewrite cov_herm, cov_csum_r, csum_conj, map_map. apply csum_ext. intros i _.
  rewrite cov_herm, Cconj_mul, Cconj_conj, cov_csum_r, <- csum_scal. apply csum_ext. intros j _. ring.
Qed.

Lemma wpairs_dup {A} (w : layout R) (x : layout A) : shape_eq x w ->
  wtriples w x x = map (fun px => (fst px, (snd px, snd px))) (wpairs w x).
Proof.
  intros H. unfold wtriples. destruct (pairs_index w x H) as [E1 E2]. rewrite E1 at 1. rewrite E2.
  rewrite !combine_map. reflexivity.
Qed.

Lemma covar_self_ok {I} (a : layout (I -> C)) w i j : shape_eq a w -> weights_ok (flat w) ->
  covar (init a w) (init a w) (i, j) = cov (wpairs w a) (fun x => x i) (fun x => x j).
Proof.
  intros Ha Hw. rewrite covar_ok, wpairs_dup by assumption.
  rewrite (cov_map (fun x => (x, x)) (wpairs w a)). reflexivity.
Qed.

Lemma weights_pairs {A} (w : layout R) (x : layout A) : shape_eq x w -> map fst (wpairs w x) = flat w.
Proof. intros H. symmetry. now apply pairs_index. Qed.

(** ** covar_data *)
Lemma variance_alt {A} (xs : list (R * A)) f : rsum (map fst xs) = 1%R ->
  variance xs f = (rsum (map (fun px => fst px * Cnorm2 (f (snd px))) xs) - Cnorm2 (expect xs f))%R.
Proof.
  intros H. apply RtoC_inj. rewrite variance_cov by assumption. unfold cov. rewrite RtoC_sub, Cmul_conj, <- csum_RtoC, map_map.
  f_equal. unfold expect. apply csum_ext. intros px _. now rewrite Cmul_conj, Cscal_RtoC, RtoC_mul.
Qed.

Lemma variance_map {A B} (h : A -> B) xs f : variance (map (fun px => (fst px, h (snd px))) xs) f = variance xs (fun a => f (h a)).
Proof. unfold variance. now rewrite map_map, expect_map. Qed.

Definition cd_obs {I J} (a : sobs I) (b : sobs J) : layout (I * J -> C) :=
  lmap2 (fun (xy : (I -> C) * (J -> C)) (p : R) (ij : I * J) =>
           (Cconj (fst xy (fst ij)) * snd xy (snd ij) / RtoC p)%C)
        (lmap2 pair (so_data a) (so_data b)) (so_w a).

Section CovarData.
  Context {I J : Type} (a : layout (I -> C)) (b : layout (J -> C)) (w : layout R).
  Hypothesis Ha : shape_eq a w. Hypothesis Hb : shape_eq b w.
  Hypothesis Hpos : forall p, In p (flat w) -> (0 < p)%R.
  Hypothesis H1 : rsum (flat w) = 1%R.

  Let T := wtriples w a b.
  Let ma (i : I) := expect T (fun ab => fst ab i).
  Let mb (j : J) := expect T (fun ab => snd ab j).
  Let prod (ab : (I -> C) * (J -> C)) (ij : I * J) : C :=
    (Cconj (fst ab (fst ij) - ma (fst ij)) * (snd ab (snd ij) - mb (snd ij)))%C.

  Lemma cd_pair_shape : shape_eq (lmap2 pair (so_data (init a w)) (so_data (init b w))) w.
  Proof using Ha Hb.
    eapply shape_trans; [apply shape_lmap2; now apply covar_shape|]. now apply init_data_shape.
  Qed.

  Lemma cd_pair_flat :
    flat (lmap2 pair (so_data (init a w)) (so_data (init b w)))
    = map (fun t => ((fun i => (RtoC (sqrt (fst t)) * (fst (snd t) i - ma i))%C),
                     (fun j => (RtoC (sqrt (fst t)) * (snd (snd t) j - mb j))%C))) T.
  Proof using Ha Hb.
    rewrite flat_lmap2 by (now apply covar_shape).
    rewrite (init_data_triples_l a b), (init_data_triples_r a b), map2_map by assumption. reflexivity.
  Qed.

  Lemma T_w : flat w = map fst T.
  Proof using Ha Hb. now apply triples_index. Qed.

  Lemma T_pos t : In t T -> (0 < fst t)%R.
  Proof using Ha Hb Hpos. intros Ht. apply Hpos. rewrite T_w. now apply in_map. Qed.

  Lemma T_sum : rsum (map fst T) = 1%R.
  Proof using Ha Hb H1. now rewrite <- T_w. Qed.

  Lemma cd_shape : shape_eq (cd_obs (init a w) (init b w)) w.
  Proof using Ha Hb. unfold cd_obs. rewrite init_w. apply shape_lmap2, cd_pair_shape. Qed.

  Lemma cd_flat : flat (cd_obs (init a w) (init b w)) = map (fun t ij => prod (snd t) ij) T.
  Proof using Ha Hb Hpos.
    unfold cd_obs. rewrite init_w, flat_lmap2 by apply cd_pair_shape.
    rewrite cd_pair_flat, T_w, map2_map. apply map_ext_in. intros t Ht. extensionality ij. destruct ij as [i j].
    unfold prod. cbn [fst snd]. pose proof (T_pos t Ht) as Hp.
    assert (RtoC (fst t) <> C0) by (intros E; apply (f_equal fst) in E; cbn in E; lra).
    rewrite Cconj_mul, Cconj_RtoC.
    transitivity ((RtoC (sqrt (fst t)) * RtoC (sqrt (fst t))) * (Cconj (fst (snd t) i - ma i) * (snd (snd t) j - mb j)) / RtoC (fst t))%C.
    { unfold Cdiv. ring. }
    rewrite sqrt_RtoC_sq by lra. field. assumption.
  Qed.

  Lemma cd_pairs : wpairs w (cd_obs (init a w) (init b w)) = map (fun t => (fst t, prod (snd t))) T.
  Proof using Ha Hb Hpos.
    unfold wpairs. rewrite cd_flat, T_w, combine_map. reflexivity.
  Qed.

  Lemma w_ok : weights_ok (flat w).
  Proof using Hpos H1. split; [|assumption]. intros p Hp. left. now apply Hpos. Qed.

  Lemma covar_data_mean i j : mean (covar_data (init a w) (init b w)) (i, j) = covar (init a w) (init b w) (i, j).
  Proof using Ha Hb Hpos H1.
    unfold mean, covar_data. fold (cd_obs (init a w) (init b w)). rewrite init_w, init_mean by apply cd_shape.
    rewrite cd_pairs, (expect_map (fun ab => prod ab)). rewrite covar_ok by (assumption || apply w_ok).
    rewrite <- cov_centred by apply T_sum. reflexivity.
  Qed.

  Lemma covar_data_var i j :
    var (covar_data (init a w) (init b w)) (i, j)
    = variance T (fun ab => Cconj (fst ab i - ma i) * (snd ab j - mb j))%C.
  Proof using Ha Hb Hpos H1.
    unfold covar_data. fold (cd_obs (init a w) (init b w)). rewrite init_w, var_ok by (apply cd_shape || apply w_ok).
    rewrite cd_pairs, (variance_map (fun ab => prod ab)). reflexivity.
  Qed.

  Lemma covar_var_ok i j :
    covar_var (init a w) (init b w) (i, j)
    = variance T (fun ab => Cconj (fst ab i - ma i) * (snd ab j - mb j))%C.
  Proof using Ha Hb Hpos H1.
    rewrite variance_alt by apply T_sum. unfold covar_var. rewrite Cabs_sq. f_equal.
    - rewrite (gsum_dev (fun (xy : (I -> C) * (J -> C)) (p : R) =>
                   RtoC (Cabs (Cconj (fst xy (fst (i, j))) * snd xy (snd (i, j)))%C
                         * Cabs (Cconj (fst xy (fst (i, j))) * snd xy (snd (i, j)))%C / p))).
      rewrite gsum_flat, init_w, flat_lmap2 by apply cd_pair_shape.
      rewrite cd_pair_flat, T_w, map2_map, Re_csum, map_map. apply rsum_ext. intros t Ht.
      unfold Re, RtoC at 1. cbn [fst snd]. rewrite Cabs_sq, Cconj_mul, Cconj_RtoC, !Cnorm2_mul, !Cnorm2_RtoC, sqrt_sqrt.
      + pose proof (T_pos t Ht). field. lra.
      + left. now apply T_pos.
    - f_equal. rewrite covar_ok by (assumption || apply w_ok). rewrite <- cov_centred by apply T_sum. reflexivity.
  Qed.
End CovarData.

(** ** select *)
Lemma map2_map_l {A B D E} (f : A -> B -> D) (g : E -> A) x y : map2 f (map g x) y = map2 (fun a b => f (g a) b) x y.
Proof. unfold map2. revert y. induction x as [|a x IH]; intros [|b y]; try reflexivity. cbn. now rewrite IH. Qed.
Lemma lmap2_lmap_l {A B D E} (f : A -> B -> D) (g : E -> A) x y : lmap2 f (lmap g x) y = lmap2 (fun a b => f (g a) b) x y.
Proof.
  unfold lmap2, lmap. rewrite map2_map_l. apply map2_ext. intros. rewrite map2_map_l. apply map2_ext. intros. apply map2_map_l.
Qed.
Lemma lmap_lmap2 {A B D E} (g : D -> E) (f : A -> B -> D) x y : lmap g (lmap2 f x y) = lmap2 (fun a b => g (f a b)) x y.
Proof.
  unfold lmap2, lmap. rewrite map_map2. apply map2_ext. intros. rewrite map_map2. apply map2_ext. intros. apply map_map2.
Qed.

Lemma select_ok {I J} (ix : J -> I) (obs : layout (I -> C)) w :
  select ix (init obs w) = init (lmap (fun (x : I -> C) j => x (ix j)) obs) w.
Proof.
  unfold select, init. cbn [so_w so_data so_mean].
  assert (E : forall j, gsum (dev_mean obs w (ix j)) = gsum (dev_mean (lmap (fun (x : I -> C) j => x (ix j)) obs) w j)).
  { intros j. unfold dev_mean. rewrite !gsum_dev, lmap2_lmap_l. reflexivity. }
  f_equal.
  - unfold data_prep. rewrite lmap_lmap2, lmap2_lmap_l. f_equal. extensionality x. extensionality p. extensionality j.
    now rewrite E.
  - extensionality j. apply E.
Qed.

(** ** transform *)
Lemma map2_cancel {A B D} (f : A -> B -> D) (g : D -> B -> A) x y :
  Forall2 (fun a b => g (f a b) b = a) x y -> map2 g (map2 f x y) y = x.
Proof.
  induction 1 as [|a b x y H _ IH]; [reflexivity|]. unfold map2 in *. cbn. now rewrite H, IH.
Qed.

Lemma Forall2_len_all {A B} (P : B -> Prop) (x : list A) (y : list B) :
  length x = length y -> (forall b, In b y -> P b) -> Forall2 (fun _ b => P b) x y.
Proof.
  revert y. induction x as [|a x IH]; intros [|b y] H HP; try discriminate; constructor.
  - apply HP. now left.
  - apply IH; [now inversion H|]. intros c Hc. apply HP. now right.
Qed.

Lemma shape_all {A B} (P : B -> Prop) (x : layout A) (y : layout B) :
  shape_eq x y -> (forall b, In b (flat y) -> P b) -> Forall2 (Forall2 (Forall2 (fun _ b => P b))) x y.
Proof.
  unfold shape_eq, flat. induction 1 as [|a b x y H _ IH]; intros HP; constructor.
  - assert (K : forall c, In c (concat b) -> P c).
    { intros c Hc. apply HP. cbn. rewrite concat_app. apply in_or_app. now left. }
    clear -H K. induction H as [|c d a b E _ IH]; constructor.
    + apply Forall2_len_all; [assumption|]. intros e He. apply K. cbn. apply in_or_app. now left.
    + apply IH. intros e He. apply K. cbn. apply in_or_app. now right.
  - apply IH. intros c Hc. apply HP. cbn. rewrite concat_app. apply in_or_app. now right.
Qed.

Lemma lmap2_cancel {A B D} (P : B -> Prop) (f : A -> B -> D) (g : D -> B -> A) x y :
  shape_eq x y -> (forall b, In b (flat y) -> P b) -> (forall a b, P b -> g (f a b) b = a) ->
  lmap2 g (lmap2 f x y) y = x.
Proof.
  intros H HP E. unfold lmap2. apply map2_cancel. eapply Forall2_imp; [|apply (shape_all P _ _ H HP)].
  intros a b K. apply map2_cancel. eapply Forall2_imp; [|exact K]. intros c d K'. apply map2_cancel.
  eapply Forall2_imp; [|exact K']. cbn. auto.
Qed.

Lemma trafo_arg_ok {I} (obs : layout (I -> C)) w :
  shape_eq obs w -> (forall p, In p (flat w) -> (0 < p)%R) -> trafo_arg (init obs w) = obs.
Proof.
  intros H HP. unfold trafo_arg. cbn [init so_w so_data so_mean]. unfold data_prep.
  apply (lmap2_cancel (fun p => (0 < p)%R)); [assumption|assumption|].
  intros x p Hp. extensionality i.
  assert (RtoC (sqrt p) <> C0) by (intros E; apply (f_equal fst) in E; cbn in E; pose proof (sqrt_lt_R0 p Hp); lra).
  field. assumption.
Qed.

Lemma transform_ok {I J} (g : (I -> C) -> J -> C) (obs : layout (I -> C)) w :
  shape_eq obs w -> (forall p, In p (flat w) -> (0 < p)%R) ->
  transform (map g) (init obs w) = init (lmap g obs) w.
Proof. intros H HP. unfold transform. rewrite trafo_arg_ok by assumption. reflexivity. Qed.

Lemma transform_linear_ok {I A L} (K : list nat) (v : A -> nat -> C) (g : (I -> C) -> nat * L -> C) (obs : layout (I -> C)) w :
  shape_eq obs w -> (forall p, In p (flat w) -> (0 < p)%R) ->
  transform_linear K v (map g) (init obs w)
  = init (lmap (fun x al => csum (map (fun k => (v (fst al) k * g x (k, snd al))%C) K)) obs) w.
Proof.
  intros H HP. unfold transform_linear. rewrite trafo_arg_ok by assumption.
  apply (f_equal (fun o => init o w)). unfold lmap. apply map_ext. intros r. apply map_ext. intros d. unfold matmul_batched. now rewrite map_map.
Qed.

(** ** subset *)
Lemma nth_error_map2 {A B D} (f : A -> B -> D) x y i : length x = length y ->
  nth_error (map2 f x y) i = match nth_error x i, nth_error y i with Some a, Some b => Some (f a b) | _, _ => None end.
Proof.
  unfold map2. revert y i. induction x as [|a x IH]; intros [|b y] i H; try discriminate.
  - now destruct i.
  - destruct i; [reflexivity|]. cbn. apply IH. now inversion H.
Qed.

Lemma nth_error_None_iff_len {A B} (x : list A) (y : list B) i : length x = length y ->
  nth_error x i = None -> nth_error y i = None.
Proof. intros H K. apply nth_error_None in K. apply nth_error_None. lia. Qed.

Lemma pick_map2 {A B D} (f : A -> B -> D) x y ids : length x = length y ->
  pick (map2 f x y) ids = map2 f (pick x ids) (pick y ids).
Proof.
  intros H. unfold pick. induction ids as [|i ids IH]; [reflexivity|]. cbn [flat_map].
  rewrite (nth_error_map2 f x y) by assumption.
  destruct (nth_error x (Z.to_nat i)) eqn:E1, (nth_error y (Z.to_nat i)) eqn:E2.
  - rewrite map2_app by reflexivity. now rewrite IH.
  - apply nth_error_None in E2. assert (nth_error x (Z.to_nat i) = None) by (apply nth_error_None; lia). congruence.
  - apply nth_error_None in E1. assert (nth_error y (Z.to_nat i) = None) by (apply nth_error_None; lia). congruence.
  - exact IH.
Qed.

Lemma pick_len {A B} (x : list A) (y : list B) ids : length x = length y -> length (pick x ids) = length (pick y ids).
Proof.
  intros H. unfold pick. induction ids as [|i ids IH]; [reflexivity|]. cbn [flat_map]. rewrite !app_length, IH. f_equal.
  destruct (nth_error x (Z.to_nat i)) eqn:E1, (nth_error y (Z.to_nat i)) eqn:E2; try reflexivity.
  - apply nth_error_None in E2. assert (nth_error x (Z.to_nat i) = None) by (apply nth_error_None; lia). congruence.
  - apply nth_error_None in E1. assert (nth_error y (Z.to_nat i) = None) by (apply nth_error_None; lia). congruence.
Qed.

Lemma slice_map2 {A B D} (f : A -> B -> D) st en sp x y x1 y1 : length x = length y ->
  slice st en sp x = Ok x1 -> slice st en sp y = Ok y1 ->
  slice st en sp (map2 f x y) = Ok (map2 f x1 y1) /\ length x1 = length y1.
Proof.
  intros H. unfold slice. rewrite map2_length, <- H by assumption.
  destruct (slice_indices st en sp (Z.of_nat (length x))) as [ids|e]; cbn; intros E1 E2; [|discriminate].
  inversion E1. inversion E2. subst. split; [now rewrite pick_map2|now apply pick_len].
Qed.

Lemma mapM_cons_inv {A B} (f : A -> result B) a l r : mapM f (a :: l) = Ok r ->
  exists b bs, f a = Ok b /\ mapM f l = Ok bs /\ r = b :: bs.
Proof.
  cbn. destruct (f a); cbn; [|discriminate]. destruct (mapM f l); cbn; [|discriminate]. intros E; inversion E. eauto.
Qed.

Lemma mapM_map2 {A B D} (SA : A -> result A) (SB : B -> result B) (SD : D -> result D) (Q : A -> B -> Prop) (f : A -> B -> D) x y x1 y1 :
  Forall2 Q x y ->
  (forall a b a1 b1, Q a b -> SA a = Ok a1 -> SB b = Ok b1 -> SD (f a b) = Ok (f a1 b1) /\ Q a1 b1) ->
  mapM SA x = Ok x1 -> mapM SB y = Ok y1 ->
  mapM SD (map2 f x y) = Ok (map2 f x1 y1) /\ Forall2 Q x1 y1.
Proof.
  intros H HS. revert x1 y1. induction H as [|a b x y H _ IH]; intros x1 y1 E1 E2.
  - cbn in *. inversion E1; inversion E2; subst. split; [reflexivity|constructor].
  - apply mapM_cons_inv in E1 as (a1 & r1 & Ea & Er & ->). apply mapM_cons_inv in E2 as (b1 & r2 & Eb & Er2 & ->).
    destruct (HS _ _ _ _ H Ea Eb) as [E Q1]. destruct (IH _ _ Er Er2) as [E' Q2]. split; [|now constructor].
    change (map2 f (a :: x) (b :: y)) with (f a b :: map2 f x y). cbn. rewrite E. cbn. rewrite E'. reflexivity.
Qed.

Lemma get_subset_lmap2 {A B D} (f : A -> B -> D) st en sp x y x1 y1 : shape_eq x y ->
  get_subset st en sp x = Ok x1 -> get_subset st en sp y = Ok y1 ->
  get_subset st en sp (lmap2 f x y) = Ok (lmap2 f x1 y1) /\ shape_eq x1 y1.
Proof.
  unfold get_subset, lmap2, shape_eq. intros H E1 E2.
  eapply mapM_map2; [exact H| |exact E1|exact E2]. cbv beta. clear. intros a b a1 b1 H E1 E2.
  eapply mapM_map2; [exact H| |exact E1|exact E2]. cbv beta. clear. intros a b a1 b1 H E1 E2. now apply slice_map2.
Qed.

Lemma lmap2_lmap_r {A B D E} (f : A -> B -> D) (g : E -> B) x y : lmap2 f x (lmap g y) = lmap2 (fun a b => f a (g b)) x y.
Proof.
  assert (M : forall X Y Z W (f : X -> Y -> Z) (g : W -> Y) x y, map2 f x (map g y) = map2 (fun a b => f a (g b)) x y).
  { clear. intros. unfold map2. revert y. induction x as [|a x IH]; intros [|b y]; try reflexivity. cbn. now rewrite IH. }
  unfold lmap2, lmap. rewrite M. apply map2_ext. intros. rewrite M. apply map2_ext. intros. apply M.
Qed.

Lemma lmap2_lmap2_same {A B D E} (g : D -> B -> E) (f : A -> B -> D) x y :
  lmap2 g (lmap2 f x y) y = lmap2 (fun a b => g (f a b) b) x y.
Proof.
  assert (M : forall X Y Z W (g : Z -> Y -> W) (f : X -> Y -> Z) x y, map2 g (map2 f x y) y = map2 (fun a b => g (f a b) b) x y).
  { clear. intros. unfold map2. revert y. induction x as [|a x IH]; intros [|b y]; try reflexivity. cbn. now rewrite IH. }
  unfold lmap2. rewrite M. apply map2_ext. intros. rewrite M. apply map2_ext. intros. apply M.
Qed.

Lemma map2_ext_in {A B D} (P : B -> Prop) (f g : A -> B -> D) x y :
  (forall b, In b y -> P b) -> (forall a b, P b -> f a b = g a b) -> map2 f x y = map2 g x y.
Proof.
  intros HP E. unfold map2. apply map_ext_in. intros [a b] Hin. apply in_combine_r in Hin. cbn. auto.
Qed.

Lemma lmap2_ext_in {A B D} (P : B -> Prop) (f g : A -> B -> D) x y :
  (forall b, In b (flat y) -> P b) -> (forall a b, P b -> f a b = g a b) -> lmap2 f x y = lmap2 g x y.
Proof.
  intros HP E. unfold lmap2.
  apply (map2_ext_in (fun b => forall c, In c (concat b) -> P c)).
  { intros b Hb c Hc. apply HP. unfold flat. apply in_concat in Hc as (d & Hd & Hc). apply in_concat. exists d. split; [|assumption].
    apply in_concat. eauto. }
  intros a b Hb. apply (map2_ext_in (fun d => forall c, In c d -> P c)).
  { intros d Hd c Hc. apply Hb. apply in_concat. eauto. }
  intros c d Hd. now apply (map2_ext_in P).
Qed.

Lemma pick_incl {A} (l : list A) ids x : In x (pick l ids) -> In x l.
Proof.
  unfold pick. intros H. apply in_flat_map in H as (i & _ & Hx). destruct (nth_error l (Z.to_nat i)) eqn:E; [|contradiction].
  destruct Hx as [<-|[]]. eapply nth_error_In; eassumption.
Qed.

Lemma mapM_in {A B} (f : A -> result B) l r b : mapM f l = Ok r -> In b r -> exists a, In a l /\ f a = Ok b.
Proof.
  revert r. induction l as [|a l IH]; intros r E Hb.
  - inversion E; subst. contradiction.
  - apply mapM_cons_inv in E as (b0 & bs & Ea & Er & ->). destruct Hb as [<-|Hb]; [exists a; cbn; auto|].
    destruct (IH _ Er Hb) as (a' & H1 & H2). exists a'. cbn; auto.
Qed.

Lemma get_subset_incl {A} st en sp (x x1 : layout A) a : get_subset st en sp x = Ok x1 -> In a (flat x1) -> In a (flat x).
Proof.
  unfold get_subset, flat. intros E Ha. apply in_concat in Ha as (b & Hb & Ha). apply in_concat in Hb as (r & Hr & Hb).
  destruct (mapM_in _ _ _ _ E Hr) as (r0 & Hr0 & E0). destruct (mapM_in _ _ _ _ E0 Hb) as (b0 & Hb0 & E1).
  apply in_concat. exists b0. split.
  - apply in_concat. eauto.
  - unfold slice in E1. destruct (slice_indices _ _ _ _) as [ids|]; cbn in E1; [|discriminate]. inversion E1; subst.
    eapply pick_incl; eassumption.
Qed.

Lemma expect_lmap_scale {A} (w : layout R) (x : layout A) c f : shape_eq x w ->
  expect (wpairs (lmap (fun p => (p * c)%R) w) x) f = (RtoC c * expect (wpairs w x) f)%C.
Proof.
  intros H. unfold wpairs. rewrite flat_lmap. destruct (pairs_index w x H) as [E1 E2]. rewrite E1, E2 at 1.
  rewrite map_map, combine_map. unfold expect. rewrite map_map, <- csum_scal. apply csum_ext. intros px _. cbn.
  rewrite !Cscal_RtoC, RtoC_mul. ring.
Qed.

Lemma subset_ok {I} (obs o1 : layout (I -> C)) w w1 st en sp :
  shape_eq obs w -> (forall p, In p (flat w) -> (0 <= p)%R) ->
  get_subset st en sp w = Ok w1 -> get_subset st en sp obs = Ok o1 -> (0 < rsum (flat w1))%R ->
  subset st en sp (init obs w) = Ok (init o1 (lmap (fun p => (p / rsum (flat w1))%R) w1)).
Proof.
  intros H HP Ew Eo HN. set (N := rsum (flat w1)) in *.
  assert (HP1 : forall p, In p (flat w1) -> (0 <= p)%R) by (intros p Hp; apply HP; eapply get_subset_incl; eassumption).
  unfold subset. rewrite init_w, Ew. cbn [bind].
  assert (EN : Re (gsum (lmap RtoC w1)) = N) by (rewrite gsum_flat, flat_lmap, csum_RtoC; reflexivity).
  rewrite EN. cbn [init so_data so_mean]. set (m0 := fun i => gsum (dev_mean obs w i)).
  destruct (get_subset_lmap2 (fun (x : I -> C) (p : R) (i : I) => (RtoC (sqrt p) * (x i - m0 i))%C) st en sp obs w o1 w1 H Eo Ew) as [Ed Hs].
  unfold data_prep at 1. rewrite Ed. cbn [bind].
  set (w2 := lmap (fun p => (p / N)%R) w1).
  assert (HN0 : RtoC (sqrt N) <> C0) by (intros E; apply (f_equal fst) in E; cbn in E; pose proof (sqrt_lt_R0 N HN); lra).
  assert (Hs2 : shape_eq o1 w2) by (eapply shape_trans; [exact Hs|apply shape_sym, shape_lmap]).
  (* the rescaled data in terms of the new weights *)
  assert (Ed2 : lmap (fun (x : I -> C) i => (x i / RtoC (sqrt N))%C)
                  (lmap2 (fun (x : I -> C) (p : R) (i : I) => (RtoC (sqrt p) * (x i - m0 i))%C) o1 w1)
                = lmap2 (fun (x : I -> C) (p : R) (i : I) => (RtoC (sqrt p) * (x i - m0 i))%C) o1 w2).
  { unfold w2. rewrite lmap_lmap2, lmap2_lmap_r. apply (lmap2_ext_in (fun p => (0 <= p)%R)); [assumption|].
    intros x p Hp. extensionality i. rewrite sqrt_div_alt by assumption. unfold Rdiv. rewrite RtoC_mul.
    assert (RtoC (/ sqrt N) = Cinv (RtoC (sqrt N))) as ->.
    { pose proof (sqrt_lt_R0 N HN). unfold Cinv, RtoC, Cnorm2. apply C_eq; cbn; field; lra. }
    unfold Cdiv. ring. }
  rewrite Ed2.
  assert (W1 : rsum (flat w2) = 1%R).
  { unfold w2. rewrite flat_lmap. unfold Rdiv. rewrite rsum_scal_r, map_id. fold N. field. lra. }
  assert (HP2 : forall p, In p (flat w2) -> (0 <= p)%R).
  { intros p Hp. unfold w2 in Hp. rewrite flat_lmap in Hp. apply in_map_iff in Hp as (q & <- & Hq).
    apply Rmult_le_pos; [auto|]. left. now apply Rinv_0_lt_compat. }
  assert (Em : forall i, (gsum (subset_mean_helper (lmap2 (fun (x : I -> C) (p : R) (i : I) => (RtoC (sqrt p) * (x i - m0 i))%C) o1 w2) w2 i) + m0 i)%C
               = so_mean (init o1 w2) i).
  { intros i. unfold subset_mean_helper.
    transitivity (gsum (lmap2 (fun (x : I -> C) (p : R) => (RtoC (sqrt p) * x i)%C)
        (lmap2 (fun (x : I -> C) (p : R) (i : I) => (RtoC (sqrt p) * (x i - m0 i))%C) o1 w2) w2) + m0 i)%C.
    { f_equal. rewrite <- gsum_dev. apply (f_equal gsum). apply map2_ext. intros. apply map2_ext. intros. rewrite CaddC, Cadd0l. reflexivity. }
    rewrite lmap2_lmap2_same.
    rewrite (lmap2_ext_in (fun p => (0 <= p)%R) _ (fun (x : I -> C) p => (RtoC p * (x i - m0 i))%C)).
    2: exact HP2.
    2: { intros x p Hp. rewrite <- (sqrt_RtoC_sq p Hp). ring. }
    rewrite gsum_flat, flat_lmap2 by assumption.
    rewrite init_mean by assumption. destruct (pairs_index w2 o1 Hs2) as [E1 E2]. rewrite E1, E2 at 1. rewrite map2_map.
    transitivity (expect (wpairs w2 o1) (fun x => (x i - m0 i)%C) + m0 i)%C.
    { f_equal. unfold expect. apply csum_ext. intros; now rewrite Cscal_RtoC. }
    rewrite expect_sub, expect_const, weights_pairs, W1, RtoC_1 by assumption. ring. }
  apply f_equal. unfold init at 1. fold w2. f_equal.
  - unfold data_prep. rewrite lmap2_lmap2_same. apply f_equal3; [|reflexivity|reflexivity].
    extensionality x. extensionality p. extensionality i. rewrite Em. cbn [init so_mean]. cbv beta. change (gsum (dev_mean obs w i)) with (m0 i). ring.
  - extensionality i. apply Em.
Qed.

Lemma get_subset_total {A} st en sp (x : layout A) : sp <> Some 0%Z -> exists x1, get_subset st en sp x = Ok x1.
Proof.
  intros H. assert (S : forall l : list A, exists l1, slice st en sp l = Ok l1).
  { intros l. unfold slice, slice_indices. destruct (Z.eqb_spec (match sp with Some v => v | None => 1 end) 0) as [E|_].
    - destruct sp; [subst; congruence|discriminate].
    - destruct (0 <? _)%Z; cbn; eauto. }
  assert (M : forall X Y (f : X -> result Y), (forall a, exists b, f a = Ok b) -> forall l, exists r, mapM f l = Ok r).
  { intros X Y f Hf l. induction l as [|a l [r IH]]; [now exists []|]. destruct (Hf a) as [b Hb]. cbn. rewrite Hb, IH. cbn. eauto. }
  unfold get_subset. apply M. intros r. now apply M.
Qed.

(** non-negative start, positive step: exactly the indices start, start+step, ... *)
Lemma slice_indices_spec a b st n ids : (0 <= a)%Z -> (0 <= b)%Z -> (0 < st)%Z -> (0 <= n)%Z ->
  slice_indices (Some a) (Some b) (Some st) n = Ok ids ->
  forall i, In i ids <-> (a <= i < Z.min b n)%Z /\ ((i - a) mod st = 0)%Z.
Proof.
  intros Ha Hb Hst Hn. unfold slice_indices, slice_bound.
  destruct (Z.eqb_spec st 0); [lia|]. destruct (Z.ltb_spec 0 st); [|lia].
  destruct (Z.ltb_spec a 0); [lia|]. destruct (Z.ltb_spec b 0); [lia|]. intros E i. inversion E as [E']; clear E E'.
  rewrite in_map_iff. split.
  - intros (k & <- & Hk). apply in_seq in Hk. destruct (Z.ltb_spec (Z.min a n) (Z.min b n)) as [L|L].
    + assert (Ea : Z.min a n = a) by lia. rewrite Ea in *.
      assert ((Z.of_nat k <= (Z.min b n - a - 1) / st)%Z) as Hk' by lia.
      assert (st * ((Z.min b n - a - 1) / st) <= Z.min b n - a - 1)%Z by (apply Z.mul_div_le; lia).
      split; [nia|]. replace (a + Z.of_nat k * st - a)%Z with (Z.of_nat k * st)%Z by lia. apply Z.mod_mul. lia.
    + cbn in Hk. lia.
  - intros (Hi & Hm). destruct (Z.ltb_spec (Z.min a n) (Z.min b n)) as [L|L]; [|lia].
    assert (Ea : Z.min a n = a) by lia. rewrite Ea in *.
    exists (Z.to_nat ((i - a) / st)). assert (0 <= (i - a) / st)%Z by (apply Z.div_pos; lia).
    rewrite Z2Nat.id by assumption. split.
    + pose proof (Z.div_mod (i - a) st). lia.
    + apply in_seq. assert ((i - a) / st <= (Z.min b n - a - 1) / st)%Z by (apply Z.div_le_mono; lia). lia.
Qed.

(** ** derivative of expectation values *)
Local Open Scope R_scope.
Lemma deriv_rsum {S} (l : list S) (f : S -> R -> R) (d : S -> R) t :
  (forall s, In s l -> derivable_pt_lim (f s) t (d s)) ->
  derivable_pt_lim (fun x => rsum (map (fun s => f s x) l)) t (rsum (map d l)).
Proof.
  induction l as [|a l IH]; intros H.
  - cbn. apply derivable_pt_lim_const.
  - cbn [map]. rewrite rsum_cons.
    apply (derivable_pt_lim_plus (f a) (fun x => rsum (map (fun s => f s x) l))).
    + apply H. now left.
    + apply IH. intros. apply H. now right.
Qed.

Lemma deriv_ext f g t d : (forall x, f x = g x) -> derivable_pt_lim f t d -> derivable_pt_lim g t d.
Proof. intros E. replace g with f; [auto|]. now extensionality x. Qed.

Lemma rsum_exp_pos {S} (l : list S) f : l <> [] -> (0 < rsum (map (fun x : S => exp (f x)) l))%R.
Proof. intros H. apply rsum_map_pos; [assumption|]. intros. apply exp_pos. Qed.

(** real-valued observable O(s, t) with Born weights exp(2 L(s,t)) / Z *)
Lemma deriv_born {S} (l : list S) (L O : S -> R -> R) (dL dO : S -> R) t : l <> [] ->
  (forall s, In s l -> derivable_pt_lim (L s) t (dL s)) ->
  (forall s, In s l -> derivable_pt_lim (O s) t (dO s)) ->
  derivable_pt_lim (fun x => rsum (map (fun s => born l (fun u => L u x) s * O s x) l)) t
    (rsum (map (fun s => born l (fun u => L u t) s * (2 * dL s * O s t)) l)
     - rsum (map (fun s => born l (fun u => L u t) s * (2 * dL s)) l) * rsum (map (fun s => born l (fun u => L u t) s * O s t) l)
     + rsum (map (fun s => born l (fun u => L u t) s * dO s) l)).
Proof.
  intros Hl HL HO.
  assert (De : forall s, In s l -> derivable_pt_lim (fun x => exp (2 * L s x)) t (exp (2 * L s t) * (2 * dL s))).
  { intros s Hs.
    apply (derivable_pt_lim_comp (fun x => 2 * L s x)%R exp).
    - apply (derivable_pt_lim_scal (L s) 2). now apply HL.
    - apply derivable_pt_lim_exp. }
  assert (DN : derivable_pt_lim (fun x => rsum (map (fun s => exp (2 * L s x) * O s x) l)) t
                 (rsum (map (fun s => exp (2 * L s t) * (2 * dL s) * O s t + exp (2 * L s t) * dO s) l))).
  { apply (deriv_rsum l (fun s x => exp (2 * L s x) * O s x)%R). intros s Hs.
    apply (derivable_pt_lim_mult (fun x => exp (2 * L s x)) (O s)); auto. }
  assert (DZ : derivable_pt_lim (fun x => rsum (map (fun s => exp (2 * L s x)) l)) t
                 (rsum (map (fun s => exp (2 * L s t) * (2 * dL s)) l))).
  { apply (deriv_rsum l (fun s x => exp (2 * L s x))%R). auto. }
  pose proof (rsum_exp_pos l (fun s => 2 * L s t)%R Hl) as HZ.
  set (Z := rsum (map (fun s => exp (2 * L s t)) l)) in *.
  pose proof (derivable_pt_lim_div _ _ t _ _ DN DZ (Rgt_not_eq _ _ HZ)) as D.
  assert (B : forall g, rsum (map (fun s => born l (fun u => L u t) s * g s)%R l) = (rsum (map (fun s => exp (2 * L s t) * g s) l) / Z)%R).
  { intros g. unfold Rdiv. rewrite <- rsum_scal_r. apply rsum_ext. intros s _. unfold born. fold Z. field. lra. }
  rewrite !B. apply (deriv_ext (fun x => rsum (map (fun s => exp (2 * L s x) * O s x) l) / rsum (map (fun s => exp (2 * L s x)) l))%R).
  - intros x. unfold Rdiv at 1. rewrite <- rsum_scal_r. apply rsum_ext. intros s _. unfold born, Rdiv. ring.
  - unfold div_fct in D. match type of D with derivable_pt_lim _ _ ?d => match goal with |- derivable_pt_lim _ _ ?e => replace e with d; [exact D|] end end.
    fold Z. unfold Rsqr.
    rewrite (rsum_map_add (fun s => exp (2 * L s t) * (2 * dL s) * O s t)%R (fun s => exp (2 * L s t) * dO s)%R).
    rewrite (rsum_ext (fun s => exp (2 * L s t) * (2 * dL s * O s t))%R (fun s => exp (2 * L s t) * (2 * dL s) * O s t)%R) by (intros; ring).
    field. lra.
Qed.

Lemma upd_same theta k : upd theta k (theta k) = theta.
Proof. extensionality j. unfold upd. destruct (Nat.eqb_spec j k); subst; reflexivity. Qed.

Lemma Re_expect {A} (xs : list (R * A)) f : Re (expect xs f) = rsum (map (fun px => (fst px * Re (f (snd px)))%R) xs).
Proof. unfold expect. rewrite Re_csum, map_map. reflexivity. Qed.
Lemma Im_expect {A} (xs : list (R * A)) f : Im (expect xs f) = rsum (map (fun px => (fst px * Im (f (snd px)))%R) xs).
Proof. unfold expect. rewrite Im_csum, map_map. reflexivity. Qed.

Lemma born_weights_ok {S} (l : list S) lr : l <> [] -> weights_ok (map (born l lr) l).
Proof.
  intros H. pose proof (rsum_exp_pos l (fun s => 2 * lr s)%R H) as HZ. split.
  - intros p Hp. apply in_map_iff in Hp as (s & <- & _). unfold born. apply Rmult_le_pos; [left; apply exp_pos|].
    left. now apply Rinv_0_lt_compat.
  - unfold born, Rdiv. rewrite rsum_scal_r. apply Rinv_r. lra.
Qed.

Section Grad.
  Context {S : Type} (basis : layout S) (theta : nat -> R).
  (** real part of the log-amplitude, estimator *)
  Variable lr : S -> (nat -> R) -> R.
  Variable O : S -> (nat -> R) -> C.
  (** gradients as delivered by psi.gradients and by automatic differentiation *)
  Variable psiG oG : S -> nat -> C.
  Hypothesis Hne : flat basis <> [].
  Hypothesis Hdev : Forall (fun r => length r = 1%nat) basis.
  Hypothesis HpsiG : forall s k, In s (flat basis) ->
    derivable_pt_lim (fun t => lr s (upd theta k t)) (theta k) (Re (psiG s k)).
  Hypothesis HoG : forall s k, In s (flat basis) -> cderiv (fun t => O s (upd theta k t)) (theta k) (oG s k).

  Let w := lmap (born (flat basis) (fun u => lr u theta)) basis.
  Let obs : layout (unit -> C) := lmap (fun s _ => O s theta) basis.
  Let og : layout (nat -> C) := lmap oG basis.
  Let pg : layout (nat -> C) := lmap psiG basis.

  Lemma lmap_shape2 {A B} (f : S -> A) (g : S -> B) : shape_eq (lmap f basis) (lmap g basis).
  Proof. eapply shape_trans; [apply shape_lmap|apply shape_sym, shape_lmap]. Qed.

  Lemma expect_basis {A} (f : S -> A) (g : A -> C) :
    expect (wpairs w (lmap f basis)) g
    = expect (map (fun s => (born (flat basis) (fun u => lr u theta) s, s)) (flat basis)) (fun s => g (f s)).
  Proof.
    unfold wpairs, w. rewrite !flat_lmap, combine_map. unfold expect. now rewrite !map_map.
  Qed.

  Lemma mean_and_grad_ok :
    exists m g, mean_and_grad obs og pg w = Ok (m, g)
      /\ m tt = energy (flat basis) lr O theta
      /\ forall k, cderiv (fun t => energy (flat basis) lr O (upd theta k t)) (theta k) (g k).
  Proof using Hne Hdev HpsiG HoG.
    unfold mean_and_grad.
    assert (Hd : forallb (fun r : list (list R) => Nat.eqb (length r) 1) w = true).
    { unfold w, lmap. generalize (born (flat basis) (fun u => lr u theta)). intros bf. clear -Hdev.
      induction Hdev as [|r b H Hb IH]; [reflexivity|]. cbn. rewrite map_length, H. now apply IH. }
    rewrite Hd. eexists _, _. split; [reflexivity|]. split.
    - rewrite init_mean by apply lmap_shape2. unfold obs. rewrite expect_basis. reflexivity.
    - intros k.
      assert (Hwok : weights_ok (flat w)) by (unfold w; rewrite flat_lmap; now apply born_weights_ok).
      set (B := map (fun s => (born (flat basis) (fun u => lr u theta) s, s)) (flat basis)).
      assert (Eg : gsum (dev_mean og w k) = expect B (fun s => oG s k)).
      { change (gsum (dev_mean og w k)) with (so_mean (init og w) k). rewrite init_mean by apply lmap_shape2. apply expect_basis. }
      assert (Ec : covar (init (lmap (fun (g : nat -> C) k0 => RtoC (2 * Re (g k0))) pg) w) (init obs w) (k, tt)
                   = cov B (fun s => RtoC (2 * Re (psiG s k))) (fun s => O s theta)).
      { rewrite covar_ok; [|eapply shape_trans; [apply shape_lmap|apply lmap_shape2]|apply lmap_shape2|assumption].
        unfold wtriples, w, pg, obs. rewrite !flat_lmap, map_map, !combine_map. unfold B.
        rewrite <- (map_map (fun s => (born (flat basis) (fun u => lr u theta) s, s))
                    (fun px => (fst px, (fun k0 => RtoC (2 * Re (psiG (snd px) k0)), fun _ : unit => O (snd px) theta)))).
        rewrite (cov_map (fun s => ((fun k0 => RtoC (2 * Re (psiG s k0))), (fun _ : unit => O s theta)))). reflexivity. }
      rewrite Eg, Ec.
      assert (BR : forall f : S -> C, Re (expect B f)
                   = rsum (map (fun s => born (flat basis) (fun u => lr u theta) s * Re (f s)) (flat basis))).
      { intros f. rewrite Re_expect. unfold B. rewrite map_map. reflexivity. }
      assert (BI : forall f : S -> C, Im (expect B f)
                   = rsum (map (fun s => born (flat basis) (fun u => lr u theta) s * Im (f s)) (flat basis))).
      { intros f. rewrite Im_expect. unfold B. rewrite map_map. reflexivity. }
      split.
      + pose proof (deriv_born (flat basis) (fun s t => lr s (upd theta k t)) (fun s t => Re (O s (upd theta k t)))
                      (fun s => Re (psiG s k)) (fun s => Re (oG s k)) (theta k) Hne
                      (fun s Hs => HpsiG s k Hs) (fun s Hs => proj1 (HoG s k Hs))) as D.
        cbv beta in D.
        eapply deriv_ext; [|match type of D with derivable_pt_lim _ _ ?d => match goal with |- derivable_pt_lim _ _ ?e => replace e with d; [exact D|] end end].
        * intros t. unfold energy. rewrite Re_expect, map_map. reflexivity.
        * rewrite !upd_same. unfold cov. change (Re (expect B (fun a => (Cconj (RtoC (2 * Re (psiG a k))) * O a theta)%C)
              - Cconj (expect B (fun s => RtoC (2 * Re (psiG s k)))) * expect B (fun s => O s theta) + expect B (fun s => oG s k))%C)
            with (Re (expect B (fun a => (Cconj (RtoC (2 * Re (psiG a k))) * O a theta)%C))
                  + - (Re (expect B (fun s => RtoC (2 * Re (psiG s k)))) * Re (expect B (fun s => O s theta))
                     - - Im (expect B (fun s => RtoC (2 * Re (psiG s k)))) * Im (expect B (fun s => O s theta)))
                  + Re (expect B (fun s => oG s k)))%R.
          assert (Im (expect B (fun s => RtoC (2 * Re (psiG s k)))) = 0)%R as ->.
          { rewrite Im_expect. rewrite <- (rsum_zero B). apply rsum_ext. intros. unfold RtoC, Im. cbn. ring. }
          assert (E2 : Re (expect B (fun s => RtoC (2 * Re (psiG s k))))
                       = rsum (map (fun s => born (flat basis) (fun u => lr u theta) s * (2 * Re (psiG s k))) (flat basis))) by apply BR.
          rewrite E2.
          rewrite !BR. cbv beta.
          rewrite (rsum_ext (fun s => born (flat basis) (fun u => lr u theta) s * Re (Cconj (RtoC (2 * Re (psiG s k))) * O s theta)%C)%R
                            (fun s => born (flat basis) (fun u => lr u theta) s * (2 * Re (psiG s k) * Re (O s theta)))%R).
          2: { intros s _. unfold Re, Cmul, Cconj, RtoC. cbn. ring. }
          ring.
      + pose proof (deriv_born (flat basis) (fun s t => lr s (upd theta k t)) (fun s t => Im (O s (upd theta k t)))
                      (fun s => Re (psiG s k)) (fun s => Im (oG s k)) (theta k) Hne
                      (fun s Hs => HpsiG s k Hs) (fun s Hs => proj2 (HoG s k Hs))) as D.
        cbv beta in D.
        eapply deriv_ext; [|match type of D with derivable_pt_lim _ _ ?d => match goal with |- derivable_pt_lim _ _ ?e => replace e with d; [exact D|] end end].
        * intros t. unfold energy. rewrite Im_expect, map_map. reflexivity.
        * rewrite !upd_same. unfold cov. change (Im (expect B (fun a => (Cconj (RtoC (2 * Re (psiG a k))) * O a theta)%C)
              - Cconj (expect B (fun s => RtoC (2 * Re (psiG s k)))) * expect B (fun s => O s theta) + expect B (fun s => oG s k))%C)
            with (Im (expect B (fun a => (Cconj (RtoC (2 * Re (psiG a k))) * O a theta)%C))
                  + - (Re (expect B (fun s => RtoC (2 * Re (psiG s k)))) * Im (expect B (fun s => O s theta))
                     + - Im (expect B (fun s => RtoC (2 * Re (psiG s k)))) * Re (expect B (fun s => O s theta)))
                  + Im (expect B (fun s => oG s k)))%R.
          assert (Im (expect B (fun s => RtoC (2 * Re (psiG s k)))) = 0)%R as ->.
          { rewrite Im_expect. rewrite <- (rsum_zero B). apply rsum_ext. intros. unfold RtoC, Im. cbn. ring. }
          assert (E2 : Re (expect B (fun s => RtoC (2 * Re (psiG s k))))
                       = rsum (map (fun s => born (flat basis) (fun u => lr u theta) s * (2 * Re (psiG s k))) (flat basis))) by apply BR.
          rewrite E2.
          rewrite !BI. cbv beta.
          rewrite (rsum_ext (fun s => born (flat basis) (fun u => lr u theta) s * Im (Cconj (RtoC (2 * Re (psiG s k))) * O s theta)%C)%R
                            (fun s => born (flat basis) (fun u => lr u theta) s * (2 * Re (psiG s k) * Im (O s theta)))%R).
          2: { intros s _. unfold Re, Im, Cmul, Cconj, RtoC. cbn. ring. }
          ring.
  Qed.
End Grad.
