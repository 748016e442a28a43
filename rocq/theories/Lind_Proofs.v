(** Every distribution of outcomes belongs to exactly one Hermitian matrix of N spins. *)
From Coq Require Import String List Reals Bool Arith Lia Lra Permutation.
From Verif Require Import Base Cplx Povm_Model Povm_Spec Povm_Proofs Povm2_Proofs Povm3_Proofs Many_Spec Many_Proofs Many2_Proofs Lind_Spec.
Import ListNotations.
Local Open Scope R_scope.

Lemma mmul_ext N A A' B B' x y : (forall z, In z (words 2 N) -> A x z = A' x z) -> (forall z, In z (words 2 N) -> B z y = B' z y) -> mmul N A B x y = mmul N A' B' x y.
Proof. intros H1 H2. unfold mmul. apply over_ext. intros z Hz. now rewrite H1, H2. Qed.
Lemma mtr_ext N A B : (forall x, In x (words 2 N) -> A x x = B x x) -> mtr N A = mtr N B.
Proof. intros H. apply over_ext. exact H. Qed.
(** two Hermitian matrices have a real overlap *)
Lemma m_real N A B : mhermitian N A -> mhermitian N B -> RtoC (Re (mtr N (mmul N A B))) = mtr N (mmul N A B).
Proof.
  intros HA HB. assert (E : Cconj (mtr N (mmul N A B)) = mtr N (mmul N A B)).
  { rewrite (mtr_comm N A B) at 2. unfold mtr, mmul. rewrite over_conj. apply over_ext. intros x Hx. rewrite over_conj. apply over_ext. intros z Hz. rewrite Cconj_mul.
    change (Cconj (A x z)) with (mdagger A z x). change (Cconj (B z x)) with (mdagger B x z). rewrite HA, HB by assumption. ring. }
  destruct (mtr N (mmul N A B)) as [p q]. unfold Cconj in E. injection E as E. unfold RtoC, Re. apply C_eq; cbn in *; lra.
Qed.
Lemma element_hermitian N M a : (forall c, (c < 4)%nat -> hermitian 2 (M c)) -> In a (words 4 N) -> mhermitian N (product_element N M a).
Proof.
  intros HM Ha x y Hx Hy. unfold mdagger, product_element. rewrite cprod_conj, map_map. apply cprod_ext. intros i _. apply HM; [apply (words_nth 4 N)|apply (words_nth 2 N)|apply (words_nth 2 N)]; (lia || assumption).
Qed.
Lemma over_cprod0 q n (c : nat -> nat -> C) : over q n (fun a => cprod (map (fun i => c i (nth i a 0%nat)) (seq 0 n))) = cprod (map (fun i => csumn q (c i)) (seq 0 n)).
Proof. exact (over_cprod q n c 0). Qed.

Section States.
  Variables (theta phi : R).
  Let M := povm_of_directions (dirs theta phi).
  Definition dual_el (a : nat) : mat := fun i j => csumn 4 (fun c => (sic_inv a c * M c i j)%C).
  Lemma dual_herm a : hermitian 2 (dual_el a).
  Proof.
    intros i j Hi Hj. unfold dagger, dual_el. unfold csumn. rewrite csum_conj, map_map. apply csum_ext. intros c _. rewrite Cconj_mul. unfold sic_inv. rewrite Cconj_RtoC. f_equal. exact (M_hermitian (dirs theta phi) c i j Hi Hj).
  Qed.
  Lemma dual_pairing a b : (a < 4)%nat -> (b < 4)%nat -> csumn 2 (fun u => csumn 2 (fun v => (dual_el a u v * M b v u)%C)) = if (a =? b)%nat then C1 else C0.
  Proof.
    intros Ha Hb. destruct (sic_inverse theta phi) as [_ HI]. change (if (a =? b)%nat then C1 else C0) with (ident a b); rewrite <- (HI a b Ha Hb). unfold mul, overlap, dual_el.
    rewrite (csumn_ext 2 _ (fun u => csumn 4 (fun c => csumn 2 (fun v => (sic_inv a c * (M c u v * M b v u))%C)))).
    - rewrite csumn_swap. apply csumn_ext. intros c _. rewrite <- csumn_scal. apply csumn_ext. intros u _. now rewrite <- csumn_scal.
    - intros u _. rewrite csumn_swap. apply csumn_ext. intros v _. rewrite <- csumn_scal_r. apply csumn_ext. intros c _. ring.
  Qed.
  Lemma dual_frame x y u v : (x < 2)%nat -> (y < 2)%nat -> (u < 2)%nat -> (v < 2)%nat ->
    csumn 4 (fun a => (M a v u * dual_el a x y)%C) = (ident v y * ident u x)%C.
  Proof.
    intros Hx Hy Hu Hv. rewrite <- (sic_frame0 theta phi v u x y Hv Hu Hx Hy). apply csumn_ext. intros a _. unfold dual_el. rewrite <- csumn_scal. apply csumn_ext. intros c _. fold M. ring.
  Qed.
  Variable N : nat.
  Definition dual_product (a : list nat) : mmat := fun x y => cprod (map (fun i => dual_el (nth i a 0%nat) (nth i x 0%nat) (nth i y 0%nat)) (seq 0 N)).
  Definition state (P : list nat -> R) : mmat := fun x y => over 4 N (fun a => (RtoC (P a) * dual_product a x y)%C).
  Lemma state_hermitian P : mhermitian N (state P).
  Proof.
    intros x y Hx Hy. unfold mdagger, state. rewrite over_conj. apply over_ext. intros a _. rewrite Cconj_mul, Cconj_RtoC. f_equal. unfold dual_product. rewrite cprod_conj, map_map. apply cprod_ext. intros i _.
    apply dual_herm; apply (words_nth 2 N); (lia || assumption).
  Qed.
  Lemma words_eqb a b : In a (words 4 N) -> In b (words 4 N) -> a <> b -> exists i, In i (seq 0 N) /\ (nth i a 0 =? nth i b 0)%nat = false.
  Proof.
    intros Ha Hb Hne. destruct (forallb (fun i => (nth i a 0 =? nth i b 0)%nat) (seq 0 N)) eqn:E.
    - exfalso. apply Hne. apply in_words in Ha as [La _], Hb as [Lb _]. apply nth_ext with (d := 0%nat) (d' := 0%nat); [congruence|]. intros i Hi. rewrite forallb_forall in E. apply Nat.eqb_eq, E, in_seq. lia.
    - clear -E. induction (seq 0 N) as [|i l IH]; [discriminate|]. cbn in E. destruct (nth i a 0 =? nth i b 0)%nat eqn:F; [destruct (IH E) as (j & H1 & H2); exists j; split; [now right|exact H2]|exists i; split; [now left|exact F]].
  Qed.
  Lemma product_pairing a b : In a (words 4 N) -> In b (words 4 N) -> mtr N (mmul N (dual_product a) (product_element N M b)) = if list_eq_dec Nat.eq_dec a b then C1 else C0.
  Proof.
    intros Ha Hb. transitivity (cprod (map (fun i => csumn 2 (fun u => csumn 2 (fun v => (dual_el (nth i a 0%nat) u v * M (nth i b 0%nat) v u)%C))) (seq 0 N))).
    - rewrite <- over_cprod0. unfold mtr. apply over_ext. intros x _. unfold mmul.
      rewrite <- (over_cprod0 2 N (fun i v => (dual_el (nth i a 0%nat) (nth i x 0%nat) v * M (nth i b 0%nat) v (nth i x 0%nat))%C)). apply over_ext. intros y _. unfold dual_product, product_element. now rewrite cprod_mul.
    - rewrite (cprod_ext _ (fun i => if (nth i a 0 =? nth i b 0)%nat then C1 else C0)).
      + destruct (list_eq_dec Nat.eq_dec a b) as [->|Hne]; [apply cprod_one; intros; now rewrite Nat.eqb_refl|].
        destruct (words_eqb a b Ha Hb Hne) as (i & Hi & Ei). apply (cprod_zero _ _ i Hi). now rewrite Ei.
      + intros i _. apply dual_pairing; apply (words_nth 4 N); (lia || assumption).
  Qed.
  Lemma state_probability P b : In b (words 4 N) -> mtr N (mmul N (state P) (product_element N M b)) = RtoC (P b).
  Proof.
    intros Hb. transitivity (over 4 N (fun a => (RtoC (P a) * mtr N (mmul N (dual_product a) (product_element N M b)))%C)).
    - unfold mtr. rewrite (over_ext 2 N _ (fun x => over 4 N (fun a => (RtoC (P a) * mmul N (dual_product a) (product_element N M b) x x)%C))).
      + rewrite over_swap. apply over_ext. intros a _. now rewrite over_scal.
      + intros x _. unfold mmul, state. rewrite (over_ext 2 N _ (fun z => over 4 N (fun a => (RtoC (P a) * (dual_product a x z * product_element N M b z x))%C))).
        * rewrite over_swap. apply over_ext. intros a _. now rewrite over_scal.
        * intros z _. rewrite <- over_scal_r. apply over_ext. intros a _. ring.
    - rewrite (over_single 4 N b).
      + rewrite product_pairing by assumption. destruct (list_eq_dec Nat.eq_dec b b); [ring|congruence].
      + exact Hb.
      + intros a Ha Hne. rewrite product_pairing by assumption. destruct (list_eq_dec Nat.eq_dec a b); [congruence|ring].
  Qed.
  (** a matrix is determined by its overlaps with the elements *)
  Lemma reconstruct rho x y : In x (words 2 N) -> In y (words 2 N) ->
    over 4 N (fun a => (mtr N (mmul N rho (product_element N M a)) * dual_product a x y)%C) = rho x y.
  Proof.
    intros Hx Hy. transitivity (over 2 N (fun u => over 2 N (fun v => (rho u v * over 4 N (fun a => (product_element N M a v u * dual_product a x y)%C))%C))).
    - rewrite (over_ext 4 N _ (fun a => over 2 N (fun u => over 2 N (fun v => (rho u v * (product_element N M a v u * dual_product a x y))%C)))).
      + rewrite over_swap. apply over_ext. intros u _. rewrite over_swap. apply over_ext. intros v _. now rewrite over_scal.
      + intros a _. unfold mtr. rewrite <- over_scal_r. apply over_ext. intros u _. unfold mmul. rewrite <- over_scal_r. apply over_ext. intros v _. ring.
    - assert (E : forall u v, In u (words 2 N) -> In v (words 2 N) -> over 4 N (fun a => (product_element N M a v u * dual_product a x y)%C) = (dl x u * dl y v)%C).
      { intros u v Hu Hv. transitivity (cprod (map (fun i => (ident (nth i v 0%nat) (nth i y 0%nat) * ident (nth i u 0%nat) (nth i x 0%nat))%C) (seq 0 N))).
        - rewrite (cprod_ext _ (fun i => csumn 4 (fun a => (M a (nth i v 0%nat) (nth i u 0%nat) * dual_el a (nth i x 0%nat) (nth i y 0%nat))%C))).
          + rewrite <- over_cprod0. apply over_ext. intros a _. unfold product_element, dual_product. now rewrite <- cprod_mul.
          + intros i _. symmetry. apply dual_frame; apply (words_nth 2 N); (lia || assumption).
        - assert (D : forall p q, In p (words 2 N) -> In q (words 2 N) -> cprod (map (fun i => ident (nth i q 0%nat) (nth i p 0%nat)) (seq 0 N)) = dl p q).
          { intros p q Hp Hq. destruct (list_eq_dec Nat.eq_dec p q) as [->|Hne].
            - rewrite dl_refl. apply cprod_one. intros i _. unfold ident. now rewrite Nat.eqb_refl.
            - rewrite dl_neq by exact Hne. assert (F : exists i, In i (seq 0 N) /\ nth i q 0%nat <> nth i p 0%nat).
              { apply in_words in Hp as [Lp _], Hq as [Lq _]. destruct (forallb (fun i => (nth i q 0 =? nth i p 0)%nat) (seq 0 N)) eqn:E.
                - exfalso. apply Hne. apply nth_ext with (d := 0%nat) (d' := 0%nat); [congruence|]. intros i Hi. rewrite forallb_forall in E. symmetry. apply Nat.eqb_eq, E, in_seq. lia.
                - clear -E. induction (seq 0 N) as [|i l IH]; [discriminate|]. cbn in E. destruct (Nat.eqb_spec (nth i q 0%nat) (nth i p 0%nat)) as [F|F]; [destruct (IH E) as (j & H1 & H2); exists j; split; [now right|exact H2]|exists i; split; [now left|exact F]]. }
              destruct F as (i & Hi & Ei). apply (cprod_zero _ _ i Hi). unfold ident. now rewrite (proj2 (Nat.eqb_neq _ _) Ei). }
          rewrite cprod_mul, (D y v Hy Hv), (D x u Hx Hu). ring. }
      rewrite (over_ext 2 N _ (fun u => (dl x u * rho u y)%C)); [now apply (over_dl 2 N x (fun u => rho u y))|].
      intros u Hu. rewrite (over_ext 2 N _ (fun v => (dl y v * (dl x u * rho u v))%C)) by (intros v Hv; rewrite E by assumption; ring).
      now apply (over_dl 2 N y (fun v => (dl x u * rho u v)%C)).
  Qed.
End States.

(** ** hermiticity and trace of the generator *)
Section Generators.
  Variable N : nat.
  Lemma mmul_dagger A B x y : mdagger (mmul N A B) x y = mmul N (mdagger B) (mdagger A) x y.
  Proof. unfold mdagger, mmul. rewrite over_conj. apply over_ext. intros z _. rewrite Cconj_mul. ring. Qed.
  Lemma mtr_assoc A B D : mtr N (mmul N (mmul N A B) D) = mtr N (mmul N A (mmul N B D)).
  Proof. apply mtr_ext. intros x _. apply mmul_assoc. Qed.
  Lemma mtr_plus A B : mtr N (mplus A B) = (mtr N A + mtr N B)%C.
  Proof. apply over_add. Qed.
  Lemma mtr_times c A : mtr N (mtimes c A) = (c * mtr N A)%C.
  Proof. apply over_scal. Qed.
  Lemma flow_traceless k A rho : k <> Cooling -> mtr N (flow N k A rho) = C0.
  Proof.
    intros Hk. destruct k; [| |congruence]; cbn [flow].
    - rewrite mtr_times, mtr_plus, mtr_times, (mtr_comm N rho A). ring.
    - rewrite mtr_plus, mtr_times, mtr_plus. rewrite (mtr_comm N (mmul N A rho)), (mtr_comm N rho (mmul N (mdagger A) A)).
      rewrite <- mtr_assoc. set (t := mtr N (mmul N (mmul N (mdagger A) A) rho)). destruct t as [p q]. apply C_eq; cbn; lra.
  Qed.
  Lemma generator_traceless terms rho : lindbladian terms -> mtr N (generator N terms rho) = C0.
  Proof.
    intros H. unfold mtr, generator.
    unfold over. rewrite csum_swap. rewrite (csum_ext _ (fun _ => C0)); [apply csum_zero|]. intros [[[g k] A] l] Ht. rewrite csum_scal. unfold lindbladian in H. rewrite Forall_forall in H. specialize (H _ Ht). cbn in H.
    change (csum (map (fun x => flow N k (embedded N A l) rho x x) (words 2 N))) with (mtr N (flow N k (embedded N A l) rho)). rewrite flow_traceless by exact H. ring.
  Qed.
  Lemma flow_hermitian k A rho : mhermitian N rho -> (k <> Dissipation -> mhermitian N A) -> mhermitian N (flow N k A rho).
  Proof.
    intros HR HA x y Hx Hy.
    assert (H1 : forall P Q u v, In u (words 2 N) -> In v (words 2 N) -> Cconj (mmul N P Q v u) = mmul N (mdagger Q) (mdagger P) u v) by (intros; apply mmul_dagger).
    assert (H2 : forall P Q u v, In u (words 2 N) -> In v (words 2 N) -> mhermitian N P -> mhermitian N Q -> Cconj (mmul N P Q v u) = mmul N Q P u v).
    { intros P Q u v Hu Hv HP HQ. rewrite H1 by assumption. apply mmul_ext; intros z Hz; [now apply HQ|now apply HP]. }
    destruct k; cbn [flow]; unfold mdagger at 1; unfold mtimes, mplus.
    - assert (HA' : mhermitian N A) by (apply HA; discriminate). rewrite !Cconj_mul, Cconj_add, Cconj_mul, !H2 by assumption.
      set (p := mmul N A rho x y). set (q := mmul N rho A x y). destruct p, q. apply C_eq; cbn; ring.
    - rewrite Cconj_add, Cconj_mul, Cconj_add, Cconj_RtoC.
      assert (HAA : mhermitian N (mmul N (mdagger A) A)).
      { intros u v Hu Hv. unfold mdagger at 1. rewrite H1 by assumption. apply mmul_ext; intros z Hz; [reflexivity|]. unfold mdagger. now rewrite Cconj_conj. }
      rewrite (H2 (mmul N (mdagger A) A) rho), (H2 rho (mmul N (mdagger A) A)) by assumption. rewrite H1 by assumption. f_equal.
      + transitivity (mmul N A (mmul N rho (mdagger A)) x y); [|symmetry; apply mmul_assoc].
        apply mmul_ext; intros z Hz; [unfold mdagger; now rewrite Cconj_conj|]. unfold mdagger at 1. rewrite H1 by assumption.
        apply mmul_ext; intros w Hw; [now apply HR|reflexivity].
      + ring.
    - assert (HA' : mhermitian N A) by (apply HA; discriminate). rewrite !Cconj_mul, Cconj_add, !H2 by assumption.
      set (p := mmul N A rho x y). set (q := mmul N rho A x y). destruct p, q. apply C_eq; cbn; ring.
  Qed.
  Lemma digits2_lt l x : In x (words 2 N) -> (forall i, In i l -> (i < N)%nat) -> (digits2 (on x l) < 2 ^ length l)%nat.
  Proof. intros Hx HI. rewrite dig2. apply dig_lt. apply (on_words N); [lia|exact Hx]. Qed.
  Lemma embedded_hermitian A l : (forall i, In i l -> (i < N)%nat) -> hermitian (2 ^ length l) A -> mhermitian N (embedded N A l).
  Proof.
    intros HI HA x y Hx Hy. rewrite mdagger_embedded. unfold embedded. destruct (agree_off N l x y); [|reflexivity]. apply HA; now apply digits2_lt.
  Qed.
  Lemma generator_hermitian terms rho : mhermitian N rho ->
    Forall (fun t : term => let '(g, k, A, l) := t in (forall i, In i l -> (i < N)%nat) /\ (k <> Dissipation -> hermitian (2 ^ length l) A)) terms -> mhermitian N (generator N terms rho).
  Proof.
    intros HR HT x y Hx Hy. unfold mdagger, generator. rewrite csum_conj, map_map. apply csum_ext. intros [[[g k] A] l] Ht. rewrite Forall_forall in HT. destruct (HT _ Ht) as [T1 T2]. rewrite Cconj_mul, Cconj_RtoC. f_equal.
    apply (flow_hermitian k (embedded N A l) rho HR); [|exact Hx|exact Hy]. intros Hk. apply embedded_hermitian; [exact T1|now apply T2].
  Qed.
End Generators.
