(** Calls of TDVP objects; the error; MinSR. *)
From Coq Require Import List Reals Lra Lia Arith ZArith Bool.
From Verif Require Import Base Cplx Povm_Spec Povm_Proofs Povm3_Proofs Mpi_Model Stats_Model Stats_Spec Stats_Proofs Sampler_Model Stepper_Model
  Vqs_Model Vqs_Spec Vqs_Proofs Tdvp_Model Tdvp_Spec Tdvp_Proofs Tdvp2_Proofs Tdvp3_Proofs Tdvp4_Proofs.
Import ListNotations.
Local Open Scope R_scope.

(** ** the wave function *)
Lemma set_params_same q : set_params q (nq_params q) = q. Proof. now destruct q. Qed.
Lemma do_sample_keeps {Cfg} smp (draw : nqs -> result (Cfg * layout R)) markov coeffs q : fst (do_sample smp draw markov coeffs q) = q.
Proof.
  destruct smp; cbn [do_sample]; [|reflexivity|reflexivity]. unfold sample_mcmc. destruct (markov _); [|reflexivity]. cbn [fst].
  destruct (coeffs _ _); cbn [fst]; now rewrite ?set_params_same.
Qed.
Lemma set_then_restore q P q1 q3 : good q -> set_parameters q P = Ok q1 -> restore q1 (get_parameters q) = Ok q3 -> q3 = q.
Proof.
  intros Hg H1. assert (Hi : nq_init q = true) by (apply Hg). destruct (get_parameters q) as [v|] eqn:G; [|discriminate]. cbn [restore].
  pose proof (get_set q v Hg G) as H2. intros H3. unfold set_parameters in *. rewrite Hi in *.
  assert (Q : exists t, q1 = set_params q t). { destruct P; [destruct (param_unflatten _ _ _ _); [|discriminate]|]; cbn [bind] in H1; inversion H1; eauto. }
  destruct Q as [t ->]. cbn [set_params nq_init nq_real nq_shapes] in H3. rewrite Hi in H3.
  destruct (param_unflatten (nq_real q) (nq_shapes q) v 0) as [t'|]; [|discriminate]. cbn [bind] in *. injection H2 as H2'. injection H3 as <-. change (set_params q t' = q). exact H2'.
Qed.

(** ** the error *)
Lemma cov_add_r {A} (xs : list (R * A)) f a b : cov xs f (fun s => (a s + b s)%C) = (cov xs f a + cov xs f b)%C.
Proof.
  unfold cov. rewrite expect_add. rewrite (expect_ext xs (fun s => Cconj (f s) * (a s + b s))%C (fun s => Cconj (f s) * a s + Cconj (f s) * b s)%C) by (intros; ring).
  rewrite expect_add. ring.
Qed.
Lemma cov_scal_r {A} (xs : list (R * A)) f x a : cov xs f (fun s => (x * a s)%C) = (x * cov xs f a)%C.
Proof.
  unfold cov. rewrite expect_scal. rewrite (expect_ext xs (fun s => Cconj (f s) * (x * a s))%C (fun s => x * (Cconj (f s) * a s))%C) by (intros; ring).
  rewrite expect_scal. ring.
Qed.
Lemma cov_add_l {A} (xs : list (R * A)) f a b : cov xs (fun s => (a s + b s)%C) f = (cov xs a f + cov xs b f)%C.
Proof. rewrite cov_herm, cov_add_r, Cconj_add, <- !cov_herm. reflexivity. Qed.
Lemma cov_scal_l {A} (xs : list (R * A)) f x a : cov xs (fun s => (x * a s)%C) f = (Cconj x * cov xs a f)%C.
Proof. rewrite cov_herm, cov_scal_r, Cconj_mul, <- cov_herm. reflexivity. Qed.

Section Error.
  Variables (n : nat) (w : layout R) (g : layout (nat -> C)) (e : layout (unit -> C)) (x : C) (u : nat -> R).
  Hypotheses (Hg : shape_eq g w) (He : shape_eq e w) (Hw : weights_ok (flat w)) (Hx : Cnorm2 x = 1).
  Let T := wtriples w g e.
  Let tangent (s : (nat -> C) * (unit -> C)) : C := (csumn n (fun k => RtoC (u k) * fst s k) + x * snd s tt)%C.
  Lemma cov_left k l : cov (wpairs w g) (fun s => s k) (fun s => s l) = cov T (fun s => fst s k) (fun s => fst s l).
  Proof. rewrite (wpairs_triples_l w g e Hg He). now rewrite (cov_map fst). Qed.
  Lemma error_variance :
    Re (csumn n (fun k => RtoC (u k) * csumn n (fun l => cov (wpairs w g) (fun s => s k) (fun s => s l) * RtoC (u l)))%C)
    - 2 * Re (csumn n (fun k => RtoC (u k) * (- x * cov T (fun s => fst s k) (fun s => snd s tt)))%C)
    = variance T tangent - variance T (fun s => snd s tt).
  Proof.
    assert (W1 : rsum (map fst T) = 1) by (unfold T; rewrite weights_triples by assumption; apply Hw).
    pose (A := fun s : (nat -> C) * (unit -> C) => csumn n (fun k => (RtoC (u k) * fst s k)%C)).
    pose (B := fun s : (nat -> C) * (unit -> C) => snd s tt).
    assert (E1 : csumn n (fun k => RtoC (u k) * csumn n (fun l => cov (wpairs w g) (fun s => s k) (fun s => s l) * RtoC (u l)))%C = RtoC (variance T A)).
    { unfold A, csumn. rewrite <- (cov_psd T (fun k => RtoC (u k)) (fun k s => fst s k)) by assumption. apply csum_ext. intros i _. rewrite <- csum_scal.
      apply csum_ext. intros j _. rewrite cov_left, Cconj_RtoC. ring. }
    assert (E2 : csumn n (fun k => RtoC (u k) * (- x * cov T (fun s => fst s k) (fun s => snd s tt)))%C = (- x * cov T A B)%C).
    { rewrite (cov_herm T A B). unfold A, csumn. rewrite cov_csum_r, csum_conj, map_map, <- csum_scal. apply csum_ext. intros k _.
      rewrite Cconj_mul, Cconj_RtoC, <- cov_herm. unfold B. ring. }
    rewrite E1, E2.
    assert (E3 : RtoC (variance T tangent) = (cov T A A + x * cov T A B + Cconj x * Cconj (cov T A B) + RtoC (Cnorm2 x) * cov T B B)%C).
    { rewrite variance_cov by assumption. unfold tangent. fold (A). change (fun s : (nat -> C) * (unit -> C) => (csumn n (fun k => RtoC (u k) * fst s k) + x * snd s tt)%C) with (fun s => (A s + x * B s)%C).
      rewrite cov_add_l, !cov_add_r, !cov_scal_l, !cov_scal_r, (cov_herm T B A), <- Cmul_conj. ring. }
    rewrite <- !variance_cov in E3 by assumption. rewrite Hx in E3. apply (f_equal Re) in E3. fold B.
    destruct (cov T A B) as [a b], x as [xa xb]. unfold Re, RtoC, Cadd, Cmul, Cconj, Copp in *. cbn [fst snd] in *. lra.
  Qed.
End Error.

(** ** lists as functions of the index *)
Lemma csum_map2_nth {A B} (f : A -> B -> C) a b da db : length a = length b ->
  csum (map2 f a b) = csumn (length a) (fun i => f (nth i a da) (nth i b db)).
Proof.
  revert b. induction a as [|x a IH]; intros [|y b] H; try discriminate; [reflexivity|]. cbn in H. injection H as H.
  change (map2 f (x :: a) (y :: b)) with (f x y :: map2 f a b). rewrite csum_cons, (IH b H). unfold csumn. cbn [length seq map].
  rewrite csum_cons. cbn [nth]. f_equal. rewrite <- seq_shift, map_map. reflexivity.
Qed.
Lemma covar_gathered {I J} (a : layout (I -> C)) (b : layout (J -> C)) w i j : shape_eq a w -> shape_eq b w ->
  covar (init a w) (init b w) (i, j) = csumn (length (gathered (init a w))) (fun k => (Cconj (nth k (gathered (init a w)) (fun _ => C0) i)
     * nth k (gathered (init b w)) (fun _ => C0) j)%C).
Proof.
  intros Ha Hb. unfold covar. rewrite (gsum_dev (fun x y => (Cconj (x (fst (i, j))) * y (snd (i, j)))%C)).
  rewrite gsum_flat, flat_lmap2 by (now apply covar_shape). cbn [fst snd].
  rewrite (csum_map2_nth _ _ _ (fun _ => C0) (fun _ => C0)); [reflexivity|]. apply shape_len. now apply covar_shape.
Qed.

(** ** MinSR: O is N times n, e has N entries *)
Section MinSR.
  Variables (N n : nat) (O : nat -> nat -> C) (e : nat -> C) (X : mat).
  Let T : mat := fun i j => csumn n (fun k => (O i k * Cconj (O j k))%C).
  Hypothesis PI : pseudo_inverse N T X.
  Let x : nat -> C := fun k => (- csumn N (fun i => (csumn N (fun j => (Cconj (O j k) * X j i)%C) * e i)%C))%C.
  Let y : nat -> C := apply N X e.
  Lemma x_form k : x k = (- csumn N (fun j => (Cconj (O j k) * y j)%C))%C.
  Proof.
    unfold x, y, apply. f_equal. rewrite (csumn_ext N _ (fun i => csumn N (fun j => Cconj (O j k) * X j i * e i)%C)) by (intros; now rewrite csumn_scal_r).
    rewrite csumn_swap. apply csumn_ext. intros j Hj. rewrite <- csumn_scal. apply csumn_ext. intros. ring.
  Qed.
  Lemma O_x i : csumn n (fun k => (O i k * x k)%C) = (- apply N T y i)%C.
  Proof.
    rewrite (csumn_ext n _ (fun k => (- C1) * (O i k * csumn N (fun j => Cconj (O j k) * y j)))%C) by (intros; rewrite x_form; ring).
    rewrite csumn_scal. transitivity (- csumn n (fun k => O i k * csumn N (fun j => Cconj (O j k) * y j)))%C; [ring|]. f_equal.
    unfold apply, T. rewrite (csumn_ext n _ (fun k => csumn N (fun j => O i k * (Cconj (O j k) * y j))%C)) by (intros; now rewrite csumn_scal).
    rewrite csumn_swap. apply csumn_ext. intros j Hj. rewrite <- csumn_scal_r. apply csumn_ext. intros. ring.
  Qed.
  (** Q = 1 - T X annihilates the columns of O *)
  Let Q : mat := fun i j => (ident i j - mul N T X i j)%C.
  Lemma Q_apply v i : (i < N)%nat -> apply N Q v i = (v i - apply N T (apply N X v) i)%C.
  Proof.
    intros Hi. rewrite <- apply_mul. rewrite <- (apply_ident N v i Hi) at 1. unfold apply. rewrite <- csumn_sub. apply csumn_ext. intros. unfold Q. ring.
  Qed.
  Lemma Q_herm : hermitian N Q.
  Proof.
    intros i j Hi Hj. unfold dagger, Q. rewrite Cconj_sub. destruct PI as (_ & _ & H & _). pose proof (H i j Hi Hj) as H1. unfold dagger in H1. rewrite H1. f_equal.
    unfold ident. rewrite Nat.eqb_sym. destruct (Nat.eqb i j); [apply Cconj_C1|apply Cconj_C0].
  Qed.
  Lemma QT i j : (i < N)%nat -> (j < N)%nat -> mul N Q T i j = C0.
  Proof.
    intros Hi Hj. pose proof (proj1 PI i j Hi Hj) as H. change (mul N Q T i j) with (apply N Q (fun k => T k j) i). rewrite Q_apply by assumption.
    rewrite <- apply_mul. change (apply N (mul N T X) (fun k => T k j) i) with (mul N (mul N T X) T i j). rewrite H. ring.
  Qed.
  Lemma QO i k : (i < N)%nat -> (k < n)%nat -> csumn N (fun j => (Q i j * O j k)%C) = C0.
  Proof.
    intros Hi Hk. apply Cnorm2_eq0. set (f := fun k => csumn N (fun j => (Q i j * O j k)%C)).
    change (Cnorm2 (f k) = 0). apply (rsumn_eq0 n (fun k => Cnorm2 (f k))); [intros; apply Cnorm2_ge| |exact Hk].
    apply RtoC_inj. rewrite <- csumn_RtoC. rewrite (csumn_ext n _ (fun k => f k * Cconj (f k))%C) by (intros; now rewrite Cmul_conj_r).
    unfold f. rewrite (csumn_ext n _ (fun k => csumn N (fun l => csumn N (fun j => Q i j * O j k * Cconj (O l k) * Cconj (Q i l)))%C)).
    - rewrite csumn_swap. change (RtoC 0) with C0. rewrite <- (csumn_zero N). apply csumn_ext. intros l Hl. rewrite csumn_swap.
      transitivity (mul N Q T i l * Cconj (Q i l))%C; [|rewrite QT by assumption; ring]. unfold mul, T. rewrite <- csumn_scal_r. apply csumn_ext. intros j Hj.
      rewrite csumn_scal_r. rewrite <- csumn_scal. rewrite (csumn_ext n (fun k0 => Q i j * O j k0 * Cconj (O l k0))%C (fun k0 => Q i j * (O j k0 * Cconj (O l k0)))%C) by (intros; ring). reflexivity.
    - intros k' Hk'. rewrite csumn_conj. rewrite <- csumn_scal. apply csumn_ext. intros l Hl. rewrite Cconj_mul, <- csumn_scal_r. apply csumn_ext. intros. ring.
  Qed.
  Lemma OQ v k : (k < n)%nat -> csumn N (fun i => (Cconj (O i k) * apply N Q v i)%C) = C0.
  Proof.
    intros Hk. unfold apply. rewrite (csumn_ext N _ (fun i => csumn N (fun j => Cconj (O i k) * (Q i j * v j))%C)) by (intros; now rewrite csumn_scal).
    rewrite csumn_swap. rewrite <- (csumn_zero N). apply csumn_ext. intros j Hj.
    rewrite (csumn_ext N _ (fun i => Cconj (Q j i * O i k) * v j)%C).
    - rewrite csumn_scal_r, <- csumn_conj, QO by assumption. rewrite Cconj_C0. ring.
    - intros i Hi. rewrite Cconj_mul. pose proof (Q_herm i j Hi Hj) as H. unfold dagger in H. rewrite H. ring.
  Qed.
  Lemma minsr_normal k : (k < n)%nat ->
    csumn n (fun l => (csumn N (fun i => (Cconj (O i k) * O i l)%C) * x l)%C) = (- csumn N (fun i => (Cconj (O i k) * e i)%C))%C.
  Proof.
    intros Hk. rewrite (csumn_ext n _ (fun l => csumn N (fun i => Cconj (O i k) * (O i l * x l))%C)) by (intros; rewrite <- csumn_scal_r; apply csumn_ext; intros; ring).
    rewrite csumn_swap. rewrite (csumn_ext N _ (fun i => Cconj (O i k) * (- apply N T y i))%C) by (intros; now rewrite csumn_scal, O_x).
    pose proof (OQ e k Hk) as H. rewrite (csumn_ext N _ (fun i => Cconj (O i k) * e i + Cconj (O i k) * (- apply N T y i))%C) in H by (intros; rewrite Q_apply by assumption; fold y; ring).
    rewrite csumn_add in H. assert (Z : forall a b : C, (a + b)%C = C0 -> b = (- a)%C) by (intros a b H0; transitivity (a + b - a)%C; [ring|rewrite H0; ring]).
    apply Z. exact H.
  Qed.
  Lemma minsr_minimal z : (forall k, (k < n)%nat -> csumn n (fun l => (csumn N (fun i => (Cconj (O i k) * O i l)%C) * z l)%C) = (- csumn N (fun i => (Cconj (O i k) * e i)%C))%C) ->
    len n x <= len n z.
  Proof.
    intros Hz. set (d := fun k => (z k - x k)%C).
    assert (D1 : forall k, (k < n)%nat -> csumn n (fun l => (csumn N (fun i => (Cconj (O i k) * O i l)%C) * d l)%C) = C0).
    { intros k Hk. unfold d. rewrite (csumn_ext n _ (fun l => (csumn N (fun i => Cconj (O i k) * O i l) * z l - csumn N (fun i => Cconj (O i k) * O i l) * x l))%C) by (intros; ring).
      rewrite csumn_sub, Hz, minsr_normal by assumption. ring. }
    assert (D2 : forall i, (i < N)%nat -> csumn n (fun l => (O i l * d l)%C) = C0).
    { intros i Hi. apply Cnorm2_eq0. set (f := fun i => csumn n (fun l => (O i l * d l)%C)). change (Cnorm2 (f i) = 0).
      apply (rsumn_eq0 N (fun i => Cnorm2 (f i))); [intros; apply Cnorm2_ge| |exact Hi]. apply RtoC_inj. rewrite <- csumn_RtoC.
      rewrite (csumn_ext N _ (fun i => csumn n (fun k => Cconj (d k) * (Cconj (O i k) * f i))%C)).
      - rewrite csumn_swap. change (RtoC 0) with C0. rewrite <- (csumn_zero n). apply csumn_ext. intros k Hk. rewrite csumn_scal.
        rewrite (csumn_ext N _ (fun i => csumn n (fun l => Cconj (O i k) * O i l * d l)%C)) by (intros; unfold f; rewrite <- csumn_scal; apply csumn_ext; intros; ring).
        rewrite csumn_swap. rewrite (csumn_ext n _ (fun l => csumn N (fun i => Cconj (O i k) * O i l) * d l)%C) by (intros; now rewrite csumn_scal_r).
        rewrite D1 by assumption. ring.
      - intros i' Hi'. rewrite <- Cmul_conj. unfold f at 1. rewrite csumn_conj, <- csumn_scal_r. apply csumn_ext. intros. rewrite Cconj_mul. ring. }
    assert (D3 : inner n x d = C0).
    { unfold inner. rewrite (csumn_ext n _ (fun k => csumn N (fun j => (- Cconj (y j)) * (O j k * d k)))%C).
      - rewrite csumn_swap. rewrite <- (csumn_zero N). apply csumn_ext. intros j Hj. rewrite csumn_scal, D2 by assumption. ring.
      - intros k Hk. rewrite x_form, Cconj_opp, csumn_conj. transitivity (csumn N (fun j => Cconj (Cconj (O j k) * y j) * (- d k))%C); [rewrite csumn_scal_r; ring|].
        apply csumn_ext. intros j Hj. rewrite Cconj_mul, Cconj_conj. ring. }
    unfold len. apply sqrt_le_1_alt.
    assert (E : rsumn n (fun k => Cnorm2 (z k)) = rsumn n (fun k => Cnorm2 (x k)) + rsumn n (fun k => Cnorm2 (d k))).
    { apply RtoC_inj. rewrite RtoC_add, <- !inner_self. assert (D4 : inner n d x = C0) by (rewrite <- inner_conj, D3; apply Cconj_C0).
      transitivity (inner n x x + inner n d d + inner n x d + inner n d x)%C; [|rewrite D3, D4; ring]. unfold inner. rewrite <- !csumn_add. apply csumn_ext. intros k Hk.
      unfold d. rewrite Cconj_sub. ring. }
    rewrite E. pose proof (rsumn_nonneg n (fun k => Cnorm2 (d k)) (fun k _ => Cnorm2_ge _)). lra.
  Qed.
End MinSR.
