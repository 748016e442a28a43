(** Covariances estimated from samples. *)
From Coq Require Import ZArith List Reals Lia Lra Arith.
From Verif Require Import Base Cplx Mpi_Model Mpi_Spec Stats_Model Stats_Spec Stats_Proofs Stats_Props BranchFree_Model Dist Sampler_Model Sampler_Spec
  Ergo_Spec Ergo_Proofs Direct_Spec Direct_Proofs Direct2_Proofs Tdvp_Model Conv_Model Conv_Spec.
Import ListNotations.
Local Open Scope R_scope.

Definition sample := (list (list (list config)) * list (list (list R)))%type.
Definition good_sample (space : list config) (q : sample) : Prop :=
  shape_eq (fst q) (snd q) /\ weights_ok (flat (snd q)) /\ Forall (fun s => In s space) (flat (fst q)).
Definition ens_of (q : sample) : list (R * config) := pairs (fst q) (snd q).

Lemma expect_parts {A} (xs : list (R * A)) f : expect xs f = (rsum (map (fun px => fst px * Re (f (snd px))) xs), rsum (map (fun px => fst px * Im (f (snd px))) xs)).
Proof. unfold expect. rewrite csum_parts. reflexivity. Qed.
Lemma expect_estimate q f : expect (ens_of q) f = (estimate (fun s => Re (f s)) q, estimate (fun s => Im (f s)) q).
Proof. apply expect_parts. Qed.
Lemma expect_expected space P f : expect (ensemble space P) f = (expected space P (fun s => Re (f s)), expected space P (fun s => Im (f s))).
Proof. rewrite expect_parts. unfold ensemble, expected. now rewrite !map_map. Qed.

Lemma flat_lmap {A B} (f : A -> B) x : flat (lmap f x) = map f (flat x).
Proof. unfold flat, lmap. now rewrite <- !concat_map. Qed.
Lemma shape_lmap {A B D} (f : A -> B) (x : layout A) (w : layout D) : shape_eq x w -> shape_eq (lmap f x) w.
Proof.
  intros H. unfold shape_eq, lmap in *. induction H as [|r w1 x w H _ IH]; constructor; [|exact IH]. clear IH. induction H; constructor; [now rewrite map_length|assumption].
Qed.
Lemma shape_flat {A B} (x : layout A) (w : layout B) : shape_eq x w -> length (flat x) = length (flat w).
Proof.
  intros H. unfold shape_eq, flat in *. induction H as [|r w1 x w H _ IH]; [reflexivity|]. cbn [concat]. rewrite !concat_app, !app_length, IH. f_equal. clear IH.
  induction H as [|a b r w1 H _ IH]; [reflexivity|]. cbn [concat]. rewrite !app_length. lia.
Qed.
Lemma ens_weights q : length (flat (fst q)) = length (flat (snd q)) -> map fst (ens_of q) = flat (snd q).
Proof.
  unfold ens_of, pairs. change (concat (concat (fst q))) with (flat (fst q)). change (concat (concat (snd q))) with (flat (snd q)). generalize (flat (fst q)) (flat (snd q)). intros l m. revert l.
  induction m as [|w m IH]; intros [|s l] H; try discriminate H; [reflexivity|]. cbn. f_equal. apply IH. now injection H.
Qed.
Lemma triples {A B} (f : config -> A) (g : config -> B) q : wtriples (snd q) (lmap f (fst q)) (lmap g (fst q)) = map (fun px => (fst px, (f (snd px), g (snd px)))) (ens_of q).
Proof.
  unfold wtriples, ens_of, pairs. rewrite !flat_lmap. change (concat (concat (fst q))) with (flat (fst q)). change (concat (concat (snd q))) with (flat (snd q)). generalize (flat (fst q)) (flat (snd q)). intros l m. revert l.
  induction m as [|w m IH]; intros [|s l]; try reflexivity. cbn. f_equal. apply IH.
Qed.

Section Covar.
  Variables (space : list config) (q : sample).
  Hypothesis Hq : good_sample space q.
  Lemma covar_sample {I J} (A : config -> I -> C) (B : config -> J -> C) i j :
    covar (init (lmap A (fst q)) (snd q)) (init (lmap B (fst q)) (snd q)) (i, j) = cov (ens_of q) (fun s => A s i) (fun s => B s j).
  Proof.
    destruct Hq as (S & W & _). destruct (C07_statistics I J (lmap A (fst q)) (lmap B (fst q)) (snd q) (shape_lmap A _ _ S) (shape_lmap B _ _ S) W) as (_ & H & _).
    rewrite H, triples. now rewrite (cov_map (fun s => (A s, B s))).
  Qed.
  Lemma mean_sample {I} (A : config -> I -> C) i : mean (init (lmap A (fst q)) (snd q)) i = expect (ens_of q) (fun s => A s i).
  Proof.
    destruct Hq as (S & W & _). destruct (C07_statistics I I (lmap A (fst q)) (lmap A (fst q)) (snd q) (shape_lmap A _ _ S) (shape_lmap A _ _ S) W) as (H & _).
    rewrite H. unfold wpairs, ens_of, pairs. rewrite flat_lmap. rewrite <- (expect_map A _ (fun x => x i)). f_equal. change (concat (concat (fst q))) with (flat (fst q)). change (concat (concat (snd q))) with (flat (snd q)). generalize (flat (fst q)) (flat (snd q)). intros l m. revert l.
    induction m as [|w m IH]; intros [|s l]; try reflexivity. cbn. f_equal. apply IH.
  Qed.
  Lemma var_sample {I} (A : config -> I -> C) i : RtoC (var (init (lmap A (fst q)) (snd q)) i) = cov (ens_of q) (fun s => A s i) (fun s => A s i).
  Proof.
    pose proof Hq as (S & W & _). destruct (C07_statistics I I (lmap A (fst q)) (lmap A (fst q)) (snd q) (shape_lmap A _ _ S) (shape_lmap A _ _ S) W) as (_ & _ & H & _).
    rewrite H. apply covar_sample.
  Qed.
  Lemma ens_total : rsum (map fst (ens_of q)) = 1.
  Proof. destruct Hq as (S & [_ W] & _). rewrite ens_weights; [exact W|]. now apply shape_flat. Qed.
  Lemma ens_nonneg px : In px (ens_of q) -> 0 <= fst px /\ In (snd px) space.
  Proof.
    destruct Hq as (S & [W _] & F). intros H. unfold ens_of, pairs in H. destruct px as [w s]. split; [apply W|rewrite Forall_forall in F; apply F].
    - apply in_combine_l in H. exact H.
    - apply in_combine_r in H. exact H.
  Qed.
End Covar.

(** deviations from fixed numbers *)
Lemma cov_shift {A} (xs : list (R * A)) f g al be : rsum (map fst xs) = 1 ->
  cov xs f g = (expect xs (fun s => Cconj (f s - al) * (g s - be)) - Cconj (expect xs (fun s => f s - al)) * expect xs (fun s => g s - be))%C.
Proof.
  intros H. assert (K : forall c, expect xs (fun _ => c) = c) by (intros c; rewrite expect_const, H; apply C_eq; cbn; ring).
  assert (X : expect xs (fun s => (Cconj (f s - al) * (g s - be))%C) = (expect xs (fun s => Cconj (f s) * g s) - expect xs (fun s => Cconj (f s) * be) - expect xs (fun s => Cconj al * g s) + Cconj al * be)%C).
  { rewrite <- (K (Cconj al * be)%C), <- !expect_sub, <- expect_add. apply expect_ext. intros px _. rewrite Cconj_sub. ring. }
  rewrite X, !expect_sub, !K, expect_scal, (expect_scal_r xs be (fun s => Cconj (f s))), expect_conj, Cconj_sub. unfold cov. ring.
Qed.

Lemma Cnorm2_sub_le a b : Cnorm2 (a - b)%C <= 2 * Cnorm2 a + 2 * Cnorm2 b.
Proof. destruct a as [x y], b as [u v]. unfold Cnorm2. cbn [Csub Cadd Copp fst snd]. pose proof (Rle_0_sqr (x + u)) as H1. pose proof (Rle_0_sqr (y + v)) as H2. unfold Rsqr in *. nra. Qed.

Lemma real_jensen {A} (xs : list (R * A)) (u : A -> R) : (forall px, In px xs -> 0 <= fst px) -> rsum (map fst xs) = 1 ->
  rsum (map (fun px => fst px * u (snd px)) xs) ^ 2 <= rsum (map (fun px => fst px * u (snd px) ^ 2) xs).
Proof.
  intros Hp H1. set (m := rsum (map (fun px => fst px * u (snd px)) xs)).
  assert (K : 0 <= rsum (map (fun px => fst px * (u (snd px) - m) ^ 2) xs)) by (apply rsum_map_nonneg; intros px Hx; apply Rmult_le_pos; [now apply Hp|apply pow2_ge_0]).
  assert (X : rsum (map (fun px => fst px * (u (snd px) - m) ^ 2) xs) = rsum (map (fun px => fst px * u (snd px) ^ 2) xs) - 2 * m * rsum (map (fun px => fst px * u (snd px)) xs) + m ^ 2 * rsum (map fst xs)).
  { rewrite <- !rsum_scal, <- rsum_sub, <- rsum_map_add. apply rsum_ext. intros px _. ring. }
  rewrite X, H1 in K. fold m in K. lra.
Qed.
Lemma expect_bounded {A} (xs : list (R * A)) f B : (forall px, In px xs -> 0 <= fst px) -> rsum (map fst xs) = 1 -> (forall px, In px xs -> Cnorm2 (f (snd px)) <= B) -> Cnorm2 (expect xs f) <= B.
Proof.
  intros Hp H1 HB. rewrite expect_parts. unfold Cnorm2 at 1. cbn [fst snd].
  pose proof (real_jensen xs (fun a => Re (f a)) Hp H1) as J1. pose proof (real_jensen xs (fun a => Im (f a)) Hp H1) as J2.
  assert (X : rsum (map (fun px => fst px * Re (f (snd px)) ^ 2) xs) + rsum (map (fun px => fst px * Im (f (snd px)) ^ 2) xs) <= B).
  { rewrite <- rsum_map_add. replace B with (rsum (map (fun px : R * A => fst px * B) xs)) by (rewrite rsum_scal_r, H1; ring). apply rsum_map_le. intros px Hx.
    replace (fst px * Re (f (snd px)) ^ 2 + fst px * Im (f (snd px)) ^ 2) with (fst px * Cnorm2 (f (snd px))) by (unfold Cnorm2, Re, Im; ring). apply Rmult_le_compat_l; auto. }
  lra.
Qed.

Lemma Cnorm2_bounded_on {A} (f : A -> C) (l : list A) : exists B, 0 <= B /\ forall s, In s l -> Cnorm2 (f s) <= B.
Proof.
  induction l as [|s l (B & HB & H)]; [exists 0; split; [lra|intros s []]|]. exists (B + Cnorm2 (f s)). pose proof (Cnorm2_ge (f s)). split; [lra|]. intros t [<-|Ht]; [lra|]. specialize (H t Ht). lra.
Qed.

Section Consistent.
  Variables (space : list config) (P : config -> R) (f g : config -> C).
  Let al := expect (ensemble space P) f.
  Let be := expect (ensemble space P) g.
  Let f0 s := (f s - al)%C.
  Let g0 s := (g s - be)%C.
  Let h s := (Cconj (f0 s) * g0 s)%C.
  Hypothesis HP : rsum (map P space) = 1.
  Lemma ens1 : rsum (map fst (ensemble space P)) = 1.
  Proof. unfold ensemble. rewrite map_map. exact HP. Qed.
  Lemma const_expect c : expect (ensemble space P) (fun _ => c) = c.
  Proof. rewrite expect_const, ens1. apply C_eq; cbn; ring. Qed.
  Lemma f0_mean : expect (ensemble space P) f0 = C0.
  Proof. unfold f0. rewrite expect_sub, const_expect. unfold al. ring. Qed.
  Lemma g0_mean : expect (ensemble space P) g0 = C0.
  Proof. unfold g0. rewrite expect_sub, const_expect. unfold be. ring. Qed.
  Lemma exact_cov : cov (ensemble space P) f g = expect (ensemble space P) h.
  Proof. rewrite (cov_shift _ f g al be ens1). change (fun s => (f s - al)%C) with f0. rewrite f0_mean. change (fun s => (Cconj (f s - al) * (g s - be))%C) with h. rewrite Cconj_C0. ring. Qed.

  Lemma f0_parts : expected space P (fun s => Re (f0 s)) = 0 /\ expected space P (fun s => Im (f0 s)) = 0.
  Proof. pose proof f0_mean as Z. rewrite expect_expected in Z. split; [exact (f_equal fst Z)|exact (f_equal snd Z)]. Qed.
  Lemma g0_parts : expected space P (fun s => Re (g0 s)) = 0 /\ expected space P (fun s => Im (g0 s)) = 0.
  Proof. pose proof g0_mean as Z. rewrite expect_expected in Z. split; [exact (f_equal fst Z)|exact (f_equal snd Z)]. Qed.

  (** mean square deviation of an estimate *)
  Definition mse (Q : dist sample) (u : config -> R) : R := E Q (fun q => (estimate u q - expected space P u) ^ 2).

  Lemma cov_mse : exists B, 0 <= B /\ forall Q, nonneg Q -> (forall q, outcome Q q -> good_sample space q) ->
    mean_square Q (fun q => cov (ens_of q) f g) (cov (ensemble space P) f g)
    <= 2 * (mse Q (fun s => Re (h s)) + mse Q (fun s => Im (h s))) + 2 * B * (mse Q (fun s => Re (f0 s)) + mse Q (fun s => Im (f0 s))).
  Proof.
    destruct (Cnorm2_bounded_on g0 space) as (B & HB & Hg). exists B. split; [exact HB|]. intros Q Hn Ho. unfold mean_square, mse.
    rewrite <- !E_add, <- !E_scal, <- E_add. apply E_le; [exact Hn|]. intros q Hq. specialize (Ho q Hq).
    rewrite (cov_shift (ens_of q) f g al be (ens_total space q Ho)), exact_cov. change (fun s => (f s - al)%C) with f0. change (fun s => (g s - be)%C) with g0. change (fun s => (Cconj (f s - al) * (g s - be))%C) with h.
    set (X := expect (ens_of q) h). set (F := expect (ens_of q) f0). set (Gq := expect (ens_of q) g0). set (ga := expect (ensemble space P) h).
    replace (X - Cconj F * Gq - ga)%C with ((X - ga) - Cconj F * Gq)%C by ring. eapply Rle_trans; [apply Cnorm2_sub_le|]. rewrite Cnorm2_mul, Cnorm2_conj.
    assert (Bg : Cnorm2 Gq <= B). { apply expect_bounded; [intros px Hx; now apply (ens_nonneg space q Ho)|now apply (ens_total space)|]. intros px Hx. apply Hg. now apply (ens_nonneg space q Ho). }
    assert (EF : Cnorm2 F = (estimate (fun s => Re (f0 s)) q - expected space P (fun s => Re (f0 s))) ^ 2 + (estimate (fun s => Im (f0 s)) q - expected space P (fun s => Im (f0 s))) ^ 2).
    { destruct f0_parts as [Z1 Z2]. rewrite Z1, Z2. unfold F. rewrite expect_estimate. unfold Cnorm2. cbn [fst snd]. ring. }
    assert (EX : Cnorm2 (X - ga)%C = (estimate (fun s => Re (h s)) q - expected space P (fun s => Re (h s))) ^ 2 + (estimate (fun s => Im (h s)) q - expected space P (fun s => Im (h s))) ^ 2).
    { unfold X, ga. rewrite expect_estimate, expect_expected. unfold Cnorm2. cbn [fst snd Csub Cadd Copp]. ring. }
    rewrite <- EF, <- EX. pose proof (Cnorm2_ge F). nra.
  Qed.
  Lemma mean_mse Q : mean_square Q (fun q => expect (ens_of q) f) (expect (ensemble space P) f) = mse Q (fun s => Re (f s)) + mse Q (fun s => Im (f s)).
  Proof.
    unfold mean_square, mse. rewrite <- E_add. apply E_ext. intros q _. rewrite expect_estimate, expect_expected. unfold Cnorm2. cbn [fst snd Csub Cadd Copp]. ring.
  Qed.

  (** independent draws *)
  Variables (Q : dist sample) (N : R).
  Hypothesis Hmean : forall u, E Q (estimate u) = expected space P u.
  Hypothesis Hsq : forall u, mse Q u = spread space P u / N.
  Hypothesis Hgood : forall q, outcome Q q -> good_sample space q.
  Lemma estimate_add u v q : estimate (fun s => u s + v s) q = estimate u q + estimate v q.
  Proof. unfold estimate. rewrite <- rsum_map_add. apply rsum_ext. intros. ring. Qed.
  Lemma expected_add u v : expected space P (fun s => u s + v s) = expected space P u + expected space P v.
  Proof. unfold expected. rewrite <- rsum_map_add. apply rsum_ext. intros. ring. Qed.
  Lemma expected_scal x u : expected space P (fun s => x * u s) = x * expected space P u.
  Proof. unfold expected. rewrite <- rsum_scal. apply rsum_ext. intros. ring. Qed.
  Lemma expected_ext u v : (forall s, u s = v s) -> expected space P u = expected space P v.
  Proof. intros H. unfold expected. apply rsum_ext. intros. now rewrite H. Qed.
  Lemma square0 u : expected space P u = 0 -> E Q (fun q => estimate u q ^ 2) = expected space P (fun s => u s ^ 2) / N.
  Proof.
    intros H. pose proof (Hsq u) as K. unfold mse, spread in K. rewrite H in K. transitivity (E Q (fun q => (estimate u q - 0) ^ 2)); [apply E_ext; intros; ring|]. rewrite K. f_equal. apply expected_ext. intros. ring.
  Qed.
  Lemma cross u v : expected space P u = 0 -> expected space P v = 0 -> E Q (fun q => estimate u q * estimate v q) = expected space P (fun s => u s * v s) / N.
  Proof.
    intros Hu Hv. pose proof (square0 u Hu) as Ku. pose proof (square0 v Hv) as Kv. pose proof (square0 (fun s => u s + v s) ltac:(rewrite expected_add, Hu, Hv; ring)) as Ks.
    assert (X : E Q (fun q => estimate (fun s => u s + v s) q ^ 2) = E Q (fun q => estimate u q ^ 2) + 2 * E Q (fun q => estimate u q * estimate v q) + E Q (fun q => estimate v q ^ 2)).
    { rewrite <- E_scal, <- !E_add. apply E_ext. intros q _. rewrite estimate_add. ring. }
    assert (Y : expected space P (fun s => (u s + v s) ^ 2) = expected space P (fun s => u s ^ 2) + 2 * expected space P (fun s => u s * v s) + expected space P (fun s => v s ^ 2)).
    { rewrite <- expected_scal, <- !expected_add. apply expected_ext. intros. ring. }
    rewrite X, Ku, Kv, Y in Ks. unfold Rdiv in *. lra.
  Qed.
  Lemma cov_cmean : cmean Q (fun q => cov (ens_of q) f g) = Cscal (1 - 1 / N) (cov (ensemble space P) f g).
  Proof.
    destruct f0_parts as [F1 F2]. destruct g0_parts as [G1 G2]. rewrite exact_cov, expect_expected. unfold cmean.
    assert (S : forall q, outcome Q q -> cov (ens_of q) f g = (expect (ens_of q) h - Cconj (expect (ens_of q) f0) * expect (ens_of q) g0)%C).
    { intros q Hq. exact (cov_shift (ens_of q) f g al be (ens_total space q (Hgood q Hq))). }
    assert (RE : E Q (fun q => Re (cov (ens_of q) f g)) = E Q (estimate (fun s => Re (h s))) + -1 * (E Q (fun q => estimate (fun s => Re (f0 s)) q * estimate (fun s => Re (g0 s)) q) + E Q (fun q => estimate (fun s => Im (f0 s)) q * estimate (fun s => Im (g0 s)) q))).
    { rewrite <- !E_add, <- E_scal, <- E_add. apply E_ext. intros q Hq. rewrite (S q Hq), !expect_estimate. unfold Re. cbn [Cconj Cmul Csub Cadd Copp fst snd]. ring. }
    assert (IM : E Q (fun q => Im (cov (ens_of q) f g)) = E Q (estimate (fun s => Im (h s))) + -1 * (E Q (fun q => estimate (fun s => Re (f0 s)) q * estimate (fun s => Im (g0 s)) q) + -1 * E Q (fun q => estimate (fun s => Im (f0 s)) q * estimate (fun s => Re (g0 s)) q))).
    { rewrite <- !E_scal, <- !E_add, <- E_scal, <- E_add. apply E_ext. intros q Hq. rewrite (S q Hq), !expect_estimate. unfold Im. cbn [Cconj Cmul Csub Cadd Copp fst snd]. ring. }
    rewrite RE, IM, !Hmean, !cross by assumption. unfold Cscal. cbn [fst snd].
    assert (HR : expected space P (fun s => Re (h s)) = expected space P (fun s => Re (f0 s) * Re (g0 s)) + expected space P (fun s => Im (f0 s) * Im (g0 s))).
    { rewrite <- expected_add. apply expected_ext. intros s. unfold h, Re, Im. destruct (f0 s), (g0 s). cbn. ring. }
    assert (HI : expected space P (fun s => Im (h s)) = expected space P (fun s => Re (f0 s) * Im (g0 s)) + -1 * expected space P (fun s => Im (f0 s) * Re (g0 s))).
    { rewrite <- expected_scal, <- expected_add. apply expected_ext. intros s. unfold h, Re, Im. destruct (f0 s), (g0 s). cbn. ring. }
    rewrite HR, HI. f_equal; unfold Rdiv; ring.
  Qed.
  Lemma mean_cmean : cmean Q (fun q => expect (ens_of q) f) = expect (ensemble space P) f.
  Proof. unfold cmean. rewrite expect_expected. f_equal; rewrite <- Hmean; apply E_ext; intros q _; now rewrite expect_estimate. Qed.
End Consistent.
