(** Finite probability distributions, used for programs that draw random numbers. *)
From Coq Require Import List Reals Lra Lia.
From Verif Require Import Base Cplx.
Import ListNotations.
Local Open Scope R_scope.

(** weighted outcomes *)
Definition dist (A : Type) := list (R * A).
Definition ret {A} (a : A) : dist A := [(1, a)].
Definition dbind {A B} (m : dist A) (f : A -> dist B) : dist B :=
  flat_map (fun wa => map (fun vb => (fst wa * fst vb, snd vb)) (f (snd wa))) m.
Notation "x <~ m ;; k" := (dbind m (fun x => k)) (at level 61, m at next level, right associativity).
(** every element of a list with the same probability *)
Definition uniform {A} (l : list A) : dist A := map (fun a => (/ INR (length l), a)) l.
(** independent draws for all elements of a list *)
Fixpoint mapD {A B} (f : A -> dist B) (l : list A) : dist (list B) :=
  match l with [] => ret [] | a :: r => b <~ f a;; bs <~ mapD f r;; ret (b :: bs) end.
Fixpoint iterD {A} (n : nat) (f : A -> dist A) (a : A) : dist A :=
  match n with O => ret a | S k => b <~ f a;; iterD k f b end.

(** possible outcomes, total weight, expectation value *)
Definition outcome {A} (m : dist A) (a : A) : Prop := In a (map snd m).
Definition mass {A} (m : dist A) : R := rsum (map fst m).
Definition E {A} (m : dist A) (f : A -> R) : R := rsum (map (fun wa => fst wa * f (snd wa)) m).

Lemma E_ret {A} (a : A) f : E (ret a) f = f a.
Proof. unfold E, ret. cbn [map fst snd]. rewrite rsum_cons, rsum_nil. ring. Qed.

Lemma E_app {A} (m1 m2 : dist A) f : E (m1 ++ m2) f = E m1 f + E m2 f.
Proof. unfold E. now rewrite map_app, rsum_app. Qed.

Lemma E_cons {A} w (a : A) (m : dist A) f : E ((w, a) :: m) f = w * f a + E m f.
Proof. reflexivity. Qed.

Lemma E_bind {A B} (m : dist A) (g : A -> dist B) f : E (dbind m g) f = E m (fun a => E (g a) f).
Proof.
  unfold dbind. induction m as [|[w a] m IH]; [reflexivity|]. cbn [flat_map]. rewrite E_app, IH.
  rewrite E_cons. cbn [fst snd]. f_equal. unfold E. rewrite map_map. cbn [fst snd].
  rewrite <- rsum_scal. apply rsum_ext. intros; ring.
Qed.

Lemma E_ext {A} (m : dist A) f g : (forall a, outcome m a -> f a = g a) -> E m f = E m g.
Proof. intros H. apply rsum_ext. intros [w a] Hin. cbn [fst snd]. rewrite H; [reflexivity|]. apply (in_map snd) in Hin. exact Hin. Qed.

Lemma E_scal {A} (m : dist A) c f : E m (fun a => c * f a) = c * E m f.
Proof. unfold E. rewrite <- rsum_scal. apply rsum_ext. intros; ring. Qed.
Lemma E_add {A} (m : dist A) f g : E m (fun a => f a + g a) = E m f + E m g.
Proof. unfold E. rewrite <- rsum_map_add. apply rsum_ext. intros; ring. Qed.
Lemma E_const {A} (m : dist A) c : E m (fun _ => c) = mass m * c.
Proof. unfold E, mass. now rewrite rsum_scal_r. Qed.
Lemma E_swap {A B} (m : dist A) (n : dist B) f : E m (fun a => E n (f a)) = E n (fun b => E m (fun a => f a b)).
Proof.
  unfold E. transitivity (rsum (map (fun wa => rsum (map (fun vb => fst wa * (fst vb * f (snd wa) (snd vb))) n)) m)).
  - apply rsum_ext. intros [w a] _. cbn [fst snd]. now rewrite rsum_scal.
  - rewrite rsum_swap. apply rsum_ext. intros [v b] _. cbn [fst snd]. rewrite <- rsum_scal. apply rsum_ext. intros; ring.
Qed.
Lemma E_rsum {A B} (m : dist A) (l : list B) f : E m (fun a => rsum (map (f a) l)) = rsum (map (fun b => E m (fun a => f a b)) l).
Proof.
  induction l as [|b l IH]; cbn [map].
  - transitivity (E m (fun _ => 0)); [reflexivity|]. rewrite E_const. apply Rmult_0_r.
  - rewrite rsum_cons, <- IH, <- E_add. reflexivity.
Qed.

Lemma outcome_ret {A} (a b : A) : outcome (ret a) b <-> b = a.
Proof. unfold outcome, ret. cbn. intuition. Qed.
Lemma outcome_bind {A B} (m : dist A) (g : A -> dist B) b : outcome (dbind m g) b <-> exists a, outcome m a /\ outcome (g a) b.
Proof.
  unfold outcome, dbind. rewrite in_map_iff. split.
  - intros ([w b'] & <- & H). apply in_flat_map in H as ([v a] & Ha & H). apply in_map_iff in H as ([u c] & X & H). inversion X; subst.
    exists a. split; [exact (in_map snd _ _ Ha)|]. cbn [snd] in *. exact (in_map snd _ _ H).
  - intros (a & Ha & Hb). apply in_map_iff in Ha as ([v a'] & <- & Ha). apply in_map_iff in Hb as ([u b'] & <- & Hb).
    exists (v * u, b'). split; [reflexivity|]. apply in_flat_map. exists (v, a'). split; [assumption|].
    apply in_map_iff. exists (u, b'). auto.
Qed.
Lemma outcome_uniform {A} (l : list A) a : outcome (uniform l) a <-> In a l.
Proof. unfold outcome, uniform. rewrite map_map. cbn [snd]. now rewrite map_id. Qed.
Lemma E_uniform {A} (l : list A) f : E (uniform l) f = / INR (length l) * rsum (map f l).
Proof. unfold E, uniform. rewrite map_map. cbn [fst snd]. now rewrite rsum_scal. Qed.
Lemma mass_E {A} (m : dist A) : mass m = E m (fun _ => 1).
Proof. rewrite E_const. ring. Qed.
Lemma mass_uniform {A} (l : list A) : l <> [] -> mass (uniform l) = 1.
Proof.
  intros H. rewrite mass_E, E_uniform, rsum_const. field. apply not_0_INR. destruct l; [congruence|discriminate].
Qed.
Lemma mass_bind {A B} (m : dist A) (g : A -> dist B) : (forall a, outcome m a -> mass (g a) = 1) -> mass (dbind m g) = mass m.
Proof.
  intros H. rewrite mass_E, E_bind, (E_ext _ _ (fun _ => 1)), <- mass_E; [reflexivity|]. intros a Ha. rewrite <- mass_E. auto.
Qed.
Lemma mass_ret {A} (a : A) : mass (ret a) = 1.
Proof. rewrite mass_E, E_ret. reflexivity. Qed.

Lemma outcome_mapD {A B} (f : A -> dist B) l bs : outcome (mapD f l) bs <-> Forall2 (fun a b => outcome (f a) b) l bs.
Proof.
  revert bs. induction l as [|a l IH]; intros bs; cbn [mapD].
  - rewrite outcome_ret. split; [intros ->; constructor|]. inversion 1. reflexivity.
  - rewrite outcome_bind. split.
    + intros (b & Hb & H). apply outcome_bind in H as (r & Hr & H). apply outcome_ret in H. subst. constructor; [assumption|]. now apply IH.
    + intros H. inversion H as [|? b ? bs' H1 H2]; subst. exists b. split; [exact H1|]. apply outcome_bind. exists bs'. split; [now apply IH|]. now apply outcome_ret.
Qed.
