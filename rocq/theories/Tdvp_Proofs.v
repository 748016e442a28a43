(** Linear algebra of the TDVP solver. *)
From Coq Require Import List Reals Lra Lia Arith ZArith.
From Verif Require Import Base Cplx Povm_Spec Povm_Proofs Povm3_Proofs Stats_Model Stats_Spec Stepper_Model Tdvp_Model Tdvp_Spec.
Import ListNotations.
Local Open Scope R_scope.

Lemma rsumn_scal n c f : rsumn n (fun k => c * f k) = c * rsumn n f.
Proof. unfold rsumn. apply rsum_scal. Qed.
Lemma rsumn_nonneg n f : (forall k, (k < n)%nat -> 0 <= f k) -> 0 <= rsumn n f.
Proof. intros H. apply rsum_map_nonneg. intros x Hx. apply H. apply in_seq in Hx. lia. Qed.
Lemma rsumn_le n f g : (forall k, (k < n)%nat -> f k <= g k) -> rsumn n f <= rsumn n g.
Proof. intros H. apply rsum_map_le. intros x Hx. apply H. apply in_seq in Hx. lia. Qed.
Lemma rsumn_eq0 n f : (forall k, (k < n)%nat -> 0 <= f k) -> rsumn n f = 0 -> forall k, (k < n)%nat -> f k = 0.
Proof.
  intros H E k Hk. unfold rsumn in E. eapply (rsum_nonneg_eq0 f (seq 0 n)); [|exact E|apply in_seq; lia].
  intros x Hx. apply H. apply in_seq in Hx. lia.
Qed.
Lemma inner_self n v : inner n v v = RtoC (rsumn n (fun k => Cnorm2 (v k))).
Proof. unfold inner. rewrite <- csumn_RtoC. apply csumn_ext. intros. apply Cmul_conj. Qed.
Lemma inner_conj n u v : Cconj (inner n u v) = inner n v u.
Proof. unfold inner. rewrite csumn_conj. apply csumn_ext. intros. rewrite Cconj_mul, Cconj_conj. ring. Qed.
Lemma inner_ext n u u' v v' : (forall k, (k < n)%nat -> u k = u' k) -> (forall k, (k < n)%nat -> v k = v' k) -> inner n u v = inner n u' v'.
Proof. intros H1 H2. apply csumn_ext. intros k Hk. now rewrite H1, H2. Qed.
Lemma len_ext n u v : (forall k, (k < n)%nat -> u k = v k) -> len n u = len n v.
Proof. intros H. unfold len. f_equal. apply rsumn_ext. intros k Hk. now rewrite H. Qed.
Lemma apply_ext n A B u v i : (forall k, (k < n)%nat -> A i k = B i k) -> (forall k, (k < n)%nat -> u k = v k) -> apply n A u i = apply n B v i.
Proof. intros H1 H2. apply csumn_ext. intros k Hk. now rewrite H1, H2. Qed.
Lemma inner_apply n A u v : inner n (apply n A u) v = inner n u (apply n (dagger A) v).
Proof.
  unfold inner, apply. transitivity (csumn n (fun i => csumn n (fun k => Cconj (A i k * u k) * v i)%C)).
  - apply csumn_ext. intros i Hi. now rewrite csumn_conj, csumn_scal_r.
  - rewrite csumn_swap. apply csumn_ext. intros k Hk. rewrite <- csumn_scal. apply csumn_ext. intros i Hi. unfold dagger.
    rewrite Cconj_mul. ring.
Qed.
Lemma apply_mul n A B v i : apply n (mul n A B) v i = apply n A (apply n B v) i.
Proof.
  unfold apply, mul. transitivity (csumn n (fun k => csumn n (fun j => A i j * B j k * v k)%C)).
  - apply csumn_ext. intros k Hk. now rewrite csumn_scal_r.
  - rewrite csumn_swap. apply csumn_ext. intros j Hj. rewrite <- csumn_scal. apply csumn_ext. intros. ring.
Qed.
Lemma apply_ident n v i : (i < n)%nat -> apply n ident v i = v i.
Proof. intros H. unfold apply, ident. now apply csumn_delta. Qed.
Lemma len_sq n v : len n v * len n v = rsumn n (fun k => Cnorm2 (v k)).
Proof. apply sqrt_sqrt. apply rsumn_nonneg. intros. apply Cnorm2_ge. Qed.
Lemma len_ge n v : 0 <= len n v. Proof. apply sqrt_pos. Qed.
Lemma len_nonzero n v : nonzero n v -> 0 < len n v.
Proof.
  intros (k & Hk & Hv). destruct (len_ge n v) as [H|H]; [exact H|]. exfalso. apply Hv, Cnorm2_eq0.
  apply (rsumn_eq0 n (fun k => Cnorm2 (v k))); [intros; apply Cnorm2_ge| |exact Hk]. rewrite <- len_sq, <- H. lra.
Qed.

Section Unitary.
  Variables (n : nat) (V : mat).
  Hypothesis U : unitary n V.
  Lemma unitary_len v : len n (apply n V v) = len n v.
  Proof.
    unfold len. f_equal. apply RtoC_inj. rewrite <- !inner_self, inner_apply. apply inner_ext; [reflexivity|].
    intros k Hk. rewrite <- apply_mul. transitivity (apply n ident v k); [|now apply apply_ident].
    apply csumn_ext. intros l Hl. now rewrite (proj1 U).
  Qed.
  Lemma unitary_back v k : (k < n)%nat -> apply n V (apply n (dagger V) v) k = v k.
  Proof.
    intros Hk. rewrite <- apply_mul. transitivity (apply n ident v k); [|now apply apply_ident].
    apply csumn_ext. intros l Hl. now rewrite (proj2 U).
  Qed.
  Lemma dagger_len v : len n (apply n (dagger V) v) = len n v.
  Proof. rewrite <- (unitary_len (apply n (dagger V) v)). apply len_ext. intros. now apply unitary_back. Qed.
End Unitary.

Section Solution.
  Variables (n : nat) (S : mat) (F : nat -> C) (ev : nat -> R) (V : mat) (p : nat -> R).
  Hypothesis E : spectral n S ev V.
  Let y := apply n (dagger V) F.
  Let x := apply n V (fun j => (RtoC (p j) * y j)%C).

  Lemma S_solution k : (k < n)%nat -> apply n S x k = apply n V (fun j => (RtoC (p j * ev j) * y j)%C) k.
  Proof.
    intros Hk. unfold x. rewrite <- apply_mul. unfold apply. apply csumn_ext. intros j Hj.
    rewrite (proj1 (proj2 E)) by assumption. rewrite RtoC_mul. ring.
  Qed.
  Lemma solution_error : len n (minus (apply n S x) F) = len n (fun k => (RtoC (p k * ev k - 1) * y k)%C).
  Proof.
    rewrite <- (unitary_len n V (proj1 E) (fun k => (RtoC (p k * ev k - 1) * y k)%C)). apply len_ext. intros k Hk. unfold minus.
    rewrite S_solution by assumption. rewrite <- (unitary_back n V (proj1 E) F k Hk) at 1. fold y.
    unfold apply at 1 2. rewrite <- csumn_sub. apply csumn_ext. intros j Hj. rewrite RtoC_sub, RtoC_1. ring.
  Qed.
  Lemma solution_overlap : inner n F x = RtoC (rsumn n (fun j => p j * Cnorm2 (y j))).
  Proof.
    rewrite <- inner_conj. unfold x. rewrite inner_apply. fold y. unfold inner. rewrite csumn_conj, <- csumn_RtoC. apply csumn_ext.
    intros j Hj. rewrite !Cconj_mul, !Cconj_conj, RtoC_mul, <- Cmul_conj. ring.
  Qed.
  Lemma eigenvalue_expect j : (j < n)%nat -> RtoC (ev j) = Povm_Spec.expect n S (fun k => V k j).
  Proof.
    intros Hj. unfold Povm_Spec.expect. transitivity (csumn n (fun i => (Cconj (V i j) * V i j * RtoC (ev j))%C)).
    - rewrite csumn_scal_r. pose proof (proj1 (proj1 E) j j Hj Hj) as H. unfold mul, dagger, ident in H. rewrite Nat.eqb_refl in H.
      rewrite H. ring.
    - apply csumn_ext. intros i Hi. pose proof (proj1 (proj2 E) i j Hi Hj) as H. unfold mul in H. rewrite H. ring.
  Qed.
  Lemma eigenvalue_nonneg j : psd n S -> (j < n)%nat -> 0 <= ev j.
  Proof. intros P Hj. destruct (P (fun k => V k j)) as [_ H]. rewrite <- eigenvalue_expect in H by assumption. exact H. Qed.
End Solution.
