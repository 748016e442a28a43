(** Complex numbers as pairs of reals, finite sums over R and C.
    Nothing in this file models code of the repository. *)
From Coq Require Import Reals List Lra Lia Permutation Ring Field Setoid.
From Verif Require Import Base.
Import ListNotations.
Local Open Scope R_scope.

Definition C : Type := (R * R)%type.
Declare Scope C_scope.
Delimit Scope C_scope with C.
Bind Scope C_scope with C.

Definition Re (z : C) : R := fst z.
Definition Im (z : C) : R := snd z.
Definition RtoC (x : R) : C := (x, 0).
Definition C0 : C := (0, 0).
Definition C1 : C := (1, 0).
Definition Ci : C := (0, 1).
Definition Cadd (a b : C) : C := (fst a + fst b, snd a + snd b).
Definition Copp (a : C) : C := (- fst a, - snd a).
Definition Csub (a b : C) : C := Cadd a (Copp b).
Definition Cmul (a b : C) : C :=
  (fst a * fst b - snd a * snd b, fst a * snd b + snd a * fst b).
Definition Cconj (a : C) : C := (fst a, - snd a).
Definition Cnorm2 (a : C) : R := fst a * fst a + snd a * snd a.
Definition Cinv (a : C) : C := (fst a / Cnorm2 a, - snd a / Cnorm2 a).
Definition Cdiv (a b : C) : C := Cmul a (Cinv b).
Definition Cabs (a : C) : R := sqrt (Cnorm2 a).
Definition Cscal (r : R) (a : C) : C := (r * fst a, r * snd a).
Definition Cexp (a : C) : C := (exp (fst a) * cos (snd a), exp (fst a) * sin (snd a)).

Infix "+" := Cadd : C_scope.
Infix "*" := Cmul : C_scope.
Infix "-" := Csub : C_scope.
Infix "/" := Cdiv : C_scope.
Notation "- x" := (Copp x) : C_scope.

Lemma C_eq (a b : C) : fst a = fst b -> snd a = snd b -> a = b.
Proof. destruct a, b; cbn; intros -> ->; reflexivity. Qed.

Ltac Cdestr := repeat match goal with x : C |- _ => destruct x end.
Ltac Cunf := unfold Cdiv, Csub, Cadd, Cmul, Copp, Cconj, Cscal, RtoC, C0, C1, Ci, Re, Im, Cnorm2 in *.
(** decide ring equations of complex numbers through their components *)
Ltac Cring := intros; Cunf; apply C_eq; cbn; ring.

Lemma C_ring_theory : ring_theory C0 C1 Cadd Cmul Csub Copp (@eq C).
Proof. constructor; intros; Cdestr; Cring. Qed.

Lemma Cnorm2_ge a : 0 <= Cnorm2 a.
Proof. unfold Cnorm2. pose proof (Rle_0_sqr (fst a)). pose proof (Rle_0_sqr (snd a)). unfold Rsqr in *. lra. Qed.

Lemma Cnorm2_eq0 a : Cnorm2 a = 0 -> a = C0.
Proof.
  unfold Cnorm2, C0. intros H.
  pose proof (Rle_0_sqr (fst a)) as H1. pose proof (Rle_0_sqr (snd a)) as H2. unfold Rsqr in *.
  assert (fst a * fst a = 0) as E1 by lra. assert (snd a * snd a = 0) as E2 by lra.
  apply C_eq; cbn.
  - now destruct (Rmult_integral _ _ E1).
  - now destruct (Rmult_integral _ _ E2).
Qed.

Lemma Cnorm2_pos a : a <> C0 -> 0 < Cnorm2 a.
Proof.
  intros H. destruct (Cnorm2_ge a) as [|E]; [assumption|].
  exfalso. apply H. now apply Cnorm2_eq0.
Qed.

Lemma C1_neq_C0 : C1 <> C0.
Proof. unfold C1, C0. intros H. inversion H. lra. Qed.

Lemma C_field_theory : field_theory C0 C1 Cadd Cmul Csub Copp Cdiv Cinv (@eq C).
Proof.
  constructor.
  - exact C_ring_theory.
  - exact C1_neq_C0.
  - reflexivity.
  - intros a H. pose proof (Cnorm2_pos a H) as Hp.
    unfold Cmul, Cinv, C1. unfold Cnorm2 in *.
    apply C_eq; cbn; field; lra.
Qed.

Add Field C_field : C_field_theory.

Lemma CaddC (a b : C) : (a + b = b + a)%C. Proof. ring. Qed.
Lemma CaddA (a b c : C) : (a + (b + c) = a + b + c)%C. Proof. ring. Qed.
Lemma Cadd0l (a : C) : (C0 + a = a)%C. Proof. ring. Qed.

Lemma Cconj_add a b : Cconj (a + b)%C = (Cconj a + Cconj b)%C. Proof. Cdestr; Cring. Qed.
Lemma Cconj_mul a b : Cconj (a * b)%C = (Cconj a * Cconj b)%C. Proof. Cdestr; Cring. Qed.
Lemma Cconj_sub a b : Cconj (a - b)%C = (Cconj a - Cconj b)%C. Proof. Cdestr; Cring. Qed.
Lemma Cconj_opp a : Cconj (- a)%C = (- Cconj a)%C. Proof. Cdestr; Cring. Qed.
Lemma Cconj_conj a : Cconj (Cconj a) = a. Proof. Cdestr; Cring. Qed.
Lemma Cconj_RtoC x : Cconj (RtoC x) = RtoC x. Proof. Cring. Qed.
Lemma Cconj_C0 : Cconj C0 = C0. Proof. Cring. Qed.
Lemma Cconj_C1 : Cconj C1 = C1. Proof. Cring. Qed.
Lemma Cconj_scal r a : Cconj (Cscal r a) = Cscal r (Cconj a). Proof. Cdestr; Cring. Qed.
Lemma RtoC_add x y : RtoC (x + y) = (RtoC x + RtoC y)%C. Proof. Cring. Qed.
Lemma RtoC_mul x y : RtoC (x * y) = (RtoC x * RtoC y)%C. Proof. Cring. Qed.
Lemma RtoC_sub x y : RtoC (x - y) = (RtoC x - RtoC y)%C. Proof. Cring. Qed.
Lemma RtoC_opp x : RtoC (- x) = (- RtoC x)%C. Proof. Cring. Qed.
Lemma RtoC_0 : RtoC 0 = C0. Proof. reflexivity. Qed.
Lemma RtoC_1 : RtoC 1 = C1. Proof. reflexivity. Qed.
Lemma RtoC_inj x y : RtoC x = RtoC y -> x = y. Proof. unfold RtoC. intros H; now inversion H. Qed.
Lemma Cscal_RtoC r a : Cscal r a = (RtoC r * a)%C. Proof. Cdestr; Cring. Qed.
Lemma Cmul_conj a : (Cconj a * a)%C = RtoC (Cnorm2 a). Proof. Cdestr; Cring. Qed.
Lemma Cmul_conj_r a : (a * Cconj a)%C = RtoC (Cnorm2 a). Proof. Cdestr; Cring. Qed.
Lemma Cnorm2_mul a b : Cnorm2 (a * b)%C = Cnorm2 a * Cnorm2 b.
Proof. Cdestr; unfold Cnorm2, Cmul; cbn; ring. Qed.
Lemma Cnorm2_conj a : Cnorm2 (Cconj a) = Cnorm2 a.
Proof. Cdestr; unfold Cnorm2, Cconj; cbn; ring. Qed.
Lemma Cnorm2_opp a : Cnorm2 (- a)%C = Cnorm2 a.
Proof. Cdestr; unfold Cnorm2, Copp; cbn; ring. Qed.
Lemma Cnorm2_RtoC x : Cnorm2 (RtoC x) = x * x.
Proof. unfold Cnorm2, RtoC; cbn; ring. Qed.
Lemma Cnorm2_C0 : Cnorm2 C0 = 0.
Proof. unfold Cnorm2, C0; cbn; ring. Qed.
Lemma Ci_mul_Ci : (Ci * Ci)%C = (- C1)%C. Proof. Cring. Qed.

Lemma Cexp_add a b : Cexp (a + b)%C = (Cexp a * Cexp b)%C.
Proof.
  Cdestr. unfold Cexp, Cadd, Cmul; cbn [fst snd]. rewrite exp_plus, cos_plus, sin_plus.
  apply C_eq; cbn; ring.
Qed.
Lemma Cexp_C0 : Cexp C0 = C1.
Proof. unfold Cexp, C0, C1; cbn. rewrite exp_0, cos_0, sin_0. apply C_eq; cbn; ring. Qed.
Lemma Cexp_norm2 a : Cnorm2 (Cexp a) = exp (Re a) * exp (Re a).
Proof.
  Cdestr. unfold Cexp, Cnorm2, Re; cbn [fst snd].
  pose proof (sin2_cos2 r0) as H. unfold Rsqr in H.
  transitivity (exp r * exp r * (sin r0 * sin r0 + cos r0 * cos r0)); [ring|rewrite H; ring].
Qed.
Lemma Cexp_neq0 a : Cexp a <> C0.
Proof.
  intros H. pose proof (Cexp_norm2 a) as E. rewrite H, Cnorm2_C0 in E.
  pose proof (exp_pos (Re a)). assert (0 < exp (Re a) * exp (Re a)) by (now apply Rmult_lt_0_compat). lra.
Qed.
Lemma Cexp_RtoC x : Cexp (RtoC x) = RtoC (exp x).
Proof. unfold Cexp, RtoC; cbn. rewrite cos_0, sin_0. apply C_eq; cbn; ring. Qed.
Lemma Cabs_Cexp a : Cabs (Cexp a) = exp (Re a).
Proof. unfold Cabs. rewrite Cexp_norm2. apply sqrt_square. left; apply exp_pos. Qed.
Lemma Cabs_ge a : 0 <= Cabs a.
Proof. apply sqrt_pos. Qed.
Lemma Cabs_sq a : Cabs a * Cabs a = Cnorm2 a.
Proof. apply sqrt_sqrt, Cnorm2_ge. Qed.
Lemma Cabs_mul a b : Cabs (a * b)%C = Cabs a * Cabs b.
Proof. unfold Cabs. rewrite Cnorm2_mul. apply sqrt_mult; apply Cnorm2_ge. Qed.
Lemma Cabs_RtoC x : Cabs (RtoC x) = Rabs x.
Proof. unfold Cabs. rewrite Cnorm2_RtoC. apply sqrt_Rsqr_abs. Qed.
Lemma Cabs_C0 : Cabs C0 = 0.
Proof. unfold Cabs. rewrite Cnorm2_C0. apply sqrt_0. Qed.
Lemma Cabs_eq0 a : Cabs a = 0 -> a = C0.
Proof. intros H. apply Cnorm2_eq0. rewrite <- Cabs_sq, H. ring. Qed.
Lemma Cabs_opp a : Cabs (- a)%C = Cabs a.
Proof. unfold Cabs. now rewrite Cnorm2_opp. Qed.
Lemma Re_le_Cabs a : Re a <= Cabs a.
Proof.
  unfold Cabs, Re. destruct (Rle_dec 0 (fst a)) as [H|H].
  - rewrite <- (sqrt_square (fst a) H) at 1. apply sqrt_le_1_alt. unfold Cnorm2.
    pose proof (Rle_0_sqr (snd a)). unfold Rsqr in *. lra.
  - pose proof (sqrt_pos (Cnorm2 a)). lra.
Qed.
Lemma Cabs_triangle a b : Cabs (a + b)%C <= Cabs a + Cabs b.
Proof.
  pose proof (Cabs_ge a) as Ha. pose proof (Cabs_ge b) as Hb.
  apply Rsqr_incr_0_var; [|lra]. unfold Rsqr.
  rewrite Cabs_sq.
  replace ((Cabs a + Cabs b) * (Cabs a + Cabs b))
    with (Cnorm2 a + Cnorm2 b + 2 * (Cabs a * Cabs b)) by (rewrite <- (Cabs_sq a), <- (Cabs_sq b); ring).
  rewrite <- Cabs_mul.
  assert (Cabs (a * b)%C = Cabs (Cconj a * b)%C) as -> by (unfold Cabs; now rewrite !Cnorm2_mul, Cnorm2_conj).
  pose proof (Re_le_Cabs (Cconj a * b)%C) as H.
  assert (Cnorm2 (a + b)%C = Cnorm2 a + Cnorm2 b + 2 * Re (Cconj a * b)%C) as ->.
  { destruct a, b. unfold Cnorm2, Cadd, Re, Cmul, Cconj; cbn. ring. }
  lra.
Qed.

(** ** finite sums *)
Definition rsum := big 0 Rplus.
Definition csum := big C0 Cadd.

Lemma rsum_cons x l : rsum (x :: l) = x + rsum l. Proof. reflexivity. Qed.
Lemma csum_cons x l : csum (x :: l) = (x + csum l)%C. Proof. reflexivity. Qed.
Lemma rsum_nil : rsum nil = 0. Proof. reflexivity. Qed.
Lemma csum_nil : csum nil = C0. Proof. reflexivity. Qed.
Lemma rsum_app a b : rsum (a ++ b) = rsum a + rsum b.
Proof. apply big_app; intros; ring. Qed.
Lemma csum_app a b : csum (a ++ b) = (csum a + csum b)%C.
Proof. apply big_app; intros; ring. Qed.
Lemma rsum_perm a b : Permutation a b -> rsum a = rsum b.
Proof. apply big_perm; intros; ring. Qed.
Lemma csum_perm a b : Permutation a b -> csum a = csum b.
Proof. apply big_perm; intros; ring. Qed.
Lemma rsum_concat ll : rsum (concat ll) = rsum (map rsum ll).
Proof. apply big_concat; intros; ring. Qed.
Lemma csum_concat ll : csum (concat ll) = csum (map csum ll).
Proof. apply big_concat; intros; ring. Qed.
Lemma rsum_map_add {A} (f g : A -> R) l :
  rsum (map (fun x => f x + g x) l) = rsum (map f l) + rsum (map g l).
Proof. apply big_map_add; intros; ring. Qed.
Lemma csum_map_add {A} (f g : A -> C) l :
  csum (map (fun x => (f x + g x)%C) l) = (csum (map f l) + csum (map g l))%C.
Proof. apply big_map_add; intros; ring. Qed.
Lemma rsum_swap {A B} (f : A -> B -> R) la lb :
  rsum (map (fun a => rsum (map (fun b => f a b) lb)) la)
  = rsum (map (fun b => rsum (map (fun a => f a b) la)) lb).
Proof. apply big_swap; intros; ring. Qed.
Lemma csum_swap {A B} (f : A -> B -> C) la lb :
  csum (map (fun a => csum (map (fun b => f a b) lb)) la)
  = csum (map (fun b => csum (map (fun a => f a b) la)) lb).
Proof. apply big_swap; intros; ring. Qed.
Lemma rsum_scal {A} (c : R) (f : A -> R) l :
  rsum (map (fun x => c * f x) l) = c * rsum (map f l).
Proof. induction l as [|x l IH]; cbn [map]; [cbn; ring|]. rewrite !rsum_cons, IH. ring. Qed.
Lemma csum_scal {A} (c : C) (f : A -> C) l :
  csum (map (fun x => (c * f x)%C) l) = (c * csum (map f l))%C.
Proof. induction l as [|x l IH]; cbn [map]; [cbn; ring|]. rewrite !csum_cons, IH. ring. Qed.
Lemma rsum_scal_r {A} (c : R) (f : A -> R) l :
  rsum (map (fun x => f x * c) l) = rsum (map f l) * c.
Proof. induction l as [|x l IH]; cbn [map]; [cbn; ring|]. rewrite !rsum_cons, IH. ring. Qed.
Lemma csum_scal_r {A} (c : C) (f : A -> C) l :
  csum (map (fun x => (f x * c)%C) l) = (csum (map f l) * c)%C.
Proof. induction l as [|x l IH]; cbn [map]; [cbn; ring|]. rewrite !csum_cons, IH. ring. Qed.
Lemma rsum_ext {A} (f g : A -> R) l :
  (forall x, In x l -> f x = g x) -> rsum (map f l) = rsum (map g l).
Proof. apply big_ext. Qed.
Lemma csum_ext {A} (f g : A -> C) l :
  (forall x, In x l -> f x = g x) -> csum (map f l) = csum (map g l).
Proof. apply big_ext. Qed.
Lemma rsum_zero {A} (l : list A) : rsum (map (fun _ => 0) l) = 0.
Proof. apply big_zero; intros; ring. Qed.
Lemma csum_zero {A} (l : list A) : csum (map (fun _ => C0) l) = C0.
Proof. apply big_zero; intros; ring. Qed.
Lemma rsum_const {A} (c : R) (l : list A) : rsum (map (fun _ => c) l) = INR (length l) * c.
Proof. induction l as [|x l IH]; cbn [map length]; [cbn; ring|]. rewrite rsum_cons, IH, S_INR. ring. Qed.
Lemma rsum_opp {A} (f : A -> R) l : rsum (map (fun x => - f x) l) = - rsum (map f l).
Proof. induction l as [|x l IH]; cbn [map]; [cbn; ring|]. rewrite !rsum_cons, IH. ring. Qed.
Lemma csum_opp {A} (f : A -> C) l : csum (map (fun x => (- f x)%C) l) = (- csum (map f l))%C.
Proof. induction l as [|x l IH]; cbn [map]; [cbn; ring|]. rewrite !csum_cons, IH. ring. Qed.
Lemma rsum_sub {A} (f g : A -> R) l :
  rsum (map (fun x => f x - g x) l) = rsum (map f l) - rsum (map g l).
Proof. induction l as [|x l IH]; cbn [map]; [cbn; ring|]. rewrite !rsum_cons, IH. ring. Qed.
Lemma csum_sub {A} (f g : A -> C) l :
  csum (map (fun x => (f x - g x)%C) l) = (csum (map f l) - csum (map g l))%C.
Proof. induction l as [|x l IH]; cbn [map]; [cbn; ring|]. rewrite !csum_cons, IH. ring. Qed.
Lemma csum_conj l : Cconj (csum l) = csum (map Cconj l).
Proof. induction l as [|x l IH]; cbn [map]; [apply Cconj_C0|]. rewrite !csum_cons, Cconj_add, IH. reflexivity. Qed.
Lemma csum_RtoC l : csum (map RtoC l) = RtoC (rsum l).
Proof. induction l as [|x l IH]; cbn [map]; [reflexivity|]. rewrite csum_cons, rsum_cons, IH, RtoC_add. reflexivity. Qed.
Lemma Re_csum l : Re (csum l) = rsum (map Re l).
Proof. induction l as [|x l IH]; cbn [map]; [reflexivity|]. rewrite csum_cons, rsum_cons, <- IH. reflexivity. Qed.
Lemma Im_csum l : Im (csum l) = rsum (map Im l).
Proof. induction l as [|x l IH]; cbn [map]; [reflexivity|]. rewrite csum_cons, rsum_cons, <- IH. reflexivity. Qed.
Lemma rsum_nonneg l : (forall x, In x l -> 0 <= x) -> 0 <= rsum l.
Proof.
  induction l as [|x l IH]; intros H; [cbn; lra|]. rewrite rsum_cons.
  assert (0 <= x) by (apply H; now left). assert (0 <= rsum l) by (apply IH; intros; apply H; now right). lra.
Qed.
Lemma rsum_map_nonneg {A} (f : A -> R) l : (forall x, In x l -> 0 <= f x) -> 0 <= rsum (map f l).
Proof. intros H. apply rsum_nonneg. intros y Hy. apply in_map_iff in Hy as [x [<- Hx]]. auto. Qed.
Lemma rsum_map_pos {A} (f : A -> R) l : l <> nil -> (forall x, In x l -> 0 < f x) -> 0 < rsum (map f l).
Proof.
  destruct l as [|a l]; [congruence|]. intros _ H. cbn [map]. rewrite rsum_cons.
  assert (0 < f a) by (apply H; now left).
  assert (0 <= rsum (map f l)) by (apply rsum_map_nonneg; intros; left; apply H; now right). lra.
Qed.
Lemma rsum_map_le {A} (f g : A -> R) l :
  (forall x, In x l -> f x <= g x) -> rsum (map f l) <= rsum (map g l).
Proof.
  induction l as [|x l IH]; intros H; cbn [map]; [lra|]. rewrite !rsum_cons.
  assert (f x <= g x) by (apply H; now left).
  assert (rsum (map f l) <= rsum (map g l)) by (apply IH; intros; apply H; now right). lra.
Qed.
Lemma Cabs_csum_le {A} (f : A -> C) l : Cabs (csum (map f l)) <= rsum (map (fun x => Cabs (f x)) l).
Proof.
  induction l as [|x l IH]; cbn [map]; [rewrite csum_nil, Cabs_C0; cbn; lra|].
  rewrite csum_cons, rsum_cons. eapply Rle_trans; [apply Cabs_triangle|lra].
Qed.
(** sum of squares vanishes only if all terms do *)
Lemma rsum_nonneg_eq0 {A} (f : A -> R) l :
  (forall x, In x l -> 0 <= f x) -> rsum (map f l) = 0 -> forall x, In x l -> f x = 0.
Proof.
  induction l as [|a l IH]; intros H E x Hx; [destruct Hx|]. cbn [map] in E. rewrite rsum_cons in E.
  assert (0 <= f a) by (apply H; now left).
  assert (0 <= rsum (map f l)) by (apply rsum_map_nonneg; intros; apply H; now right).
  destruct Hx as [<-|Hx]; [lra|]. apply IH; [intros; apply H; now right|lra|assumption].
Qed.

(** sums over 0..n-1 *)
Definition rsumn (n : nat) (f : nat -> R) : R := rsum (map f (seq 0 n)).
Definition csumn (n : nat) (f : nat -> C) : C := csum (map f (seq 0 n)).

(** principal logarithm; its value at 0 is irrelevant *)
Definition Clog (z : C) : C :=
  (ln (Cabs z), if Rle_dec 0 (snd z) then acos (fst z / Cabs z) else - acos (fst z / Cabs z)).

Lemma Cexp_Clog z : z <> C0 -> Cexp (Clog z) = z.
Proof.
  intros H. pose proof (Cnorm2_pos z H) as P. assert (A : 0 < Cabs z) by (apply sqrt_lt_R0; exact P).
  pose proof (Cabs_sq z) as S. destruct z as [x y]. unfold Cexp, Clog. cbn [fst snd]. set (r := Cabs (x, y)) in *.
  unfold Cnorm2 in S. cbn in S. rewrite exp_ln by assumption.
  assert (B : -1 <= x / r <= 1).
  { split; [apply (Rmult_le_reg_r r)|apply (Rmult_le_reg_r r)]; try assumption; unfold Rdiv; rewrite Rmult_assoc, Rinv_l by lra; nra. }
  assert (Q : sqrt (1 - Rsqr (x / r)) = Rabs y / r).
  { replace (1 - Rsqr (x / r)) with (Rsqr (Rabs y / r)).
    - apply sqrt_Rsqr. apply Rmult_le_pos; [apply Rabs_pos|left; now apply Rinv_0_lt_compat].
    - unfold Rdiv. rewrite !Rsqr_mult, <- Rsqr_abs. unfold Rsqr. apply (Rmult_eq_reg_r (r * r)); [|nra]. field_simplify; [|lra|lra]. nra. }
  destruct (Rle_dec 0 y) as [Hy|Hy].
  - rewrite cos_acos, sin_acos, Q by assumption. rewrite (Rabs_right y) by lra. apply C_eq; cbn; field; lra.
  - rewrite cos_neg, sin_neg, cos_acos, sin_acos, Q by assumption. rewrite (Rabs_left y) by lra. apply C_eq; cbn; field; lra.
Qed.
