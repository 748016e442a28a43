(** The local values are the probability currents of the Lindblad equation; covariances of sums. *)
From Coq Require Import ZArith String List Reals Lra Lia Bool Arith Permutation FunctionalExtensionality.
From Verif Require Import Base Cplx Povm_Model Povm_Spec Povm_Proofs Povm2_Proofs Povm3_Proofs PovmOp_Model PovmOp_Spec PovmOp_Props.
From Verif Require Import Many_Model Many_Spec Many_Proofs Many2_Proofs Many3_Proofs Many_Props Vmc_Spec Lind_Spec Lind_Proofs Lind2_Proofs.
Import ListNotations.
Local Open Scope R_scope.

Lemma moved_0 theta v : moved theta v 0 = theta.
Proof. extensionality k. unfold moved. ring. Qed.

Lemma sum_S n f : rsumn (S n) f = rsumn n f + f n.
Proof. unfold rsumn. rewrite seq_S, map_app, rsum_app. cbn. ring. Qed.
Section Sums.
  Variables (N : nat) (l : list nat -> R).
  Lemma covariance_ext X X' Y Y' : (forall a, In a (words 4 N) -> X a = X' a) -> (forall a, In a (words 4 N) -> Y a = Y' a) -> covariance N l X Y = covariance N l X' Y'.
  Proof. intros H1 H2. unfold covariance. rewrite (average_ext N l X X' H1), (average_ext N l Y Y' H2). f_equal. apply average_ext. intros a Ha. now rewrite H1, H2. Qed.
  Lemma covariance_sym X Y : covariance N l X Y = covariance N l Y X.
  Proof. unfold covariance. rewrite (average_ext N l (fun a => X a * Y a) (fun a => Y a * X a)) by (intros; ring). ring. Qed.
  Lemma covariance_add X Y Z : covariance N l X (fun a => Y a + Z a) = covariance N l X Y + covariance N l X Z.
  Proof.
    unfold covariance. rewrite (average_ext N l (fun a => X a * (Y a + Z a)) (fun a => X a * Y a + X a * Z a)) by (intros; ring). rewrite !average_add. ring.
  Qed.
  Lemma covariance_scal X Y c : covariance N l X (fun a => Y a * c) = covariance N l X Y * c.
  Proof.
    unfold covariance. rewrite (average_ext N l (fun a => X a * (Y a * c)) (fun a => c * (X a * Y a))) by (intros; ring). rewrite (average_ext N l (fun a => Y a * c) (fun a => c * Y a)) by (intros; ring). rewrite !average_scal. ring.
  Qed.
  Lemma covariance_const X c : covariance N l X (fun _ => c) = 0.
  Proof. unfold covariance. rewrite (average_ext N l (fun a => X a * c) (fun a => c * X a)) by (intros; ring). rewrite average_scal, average_const. ring. Qed.
  Lemma covariance_sum n X (g : list nat -> nat -> R) v : covariance N l X (fun a => rsumn n (fun k => g a k * v k)) = rsumn n (fun k => covariance N l X (fun a => g a k) * v k).
  Proof.
    induction n as [|n IH].
    - unfold rsumn. cbn. apply covariance_const.
    - rewrite sum_S, <- IH, <- covariance_scal, <- covariance_add. apply covariance_ext; [reflexivity|]. intros a _. apply sum_S.
  Qed.
  Lemma variation_covariance X : variation N l X = covariance N l X X.
  Proof. now rewrite covariance_centered. Qed.
End Sums.

Section Currents.
  Variables (theta phi : R) (M : nat -> cmat) (T_inv : cmat).
  Hypothesis sic : get_M theta phi "SIC" = Ok M.
  Hypothesis inv : inverse 4 (overlap 2 M) T_inv.
  Variables (N : nat) (operators : list (string * sized)) (order : list (list nat) -> list (list nat)) (h : heap) (events : list (nat * nat)) (k : nat) (terms : list term).
  Hypothesis HO : forall l, iterates l (order l).
  Hypothesis HU : unshared k events.
  Hypothesis HNE : added k events <> [].
  Hypothesis HF : Forall2 (stored M T_inv N operators) (map h (added k events)) terms.
  Variable mc : nat * list (list nat * (nat -> nat -> R)).
  Hypothesis HC : compile operators order (fst (history h events)) (snd (history h events) k) = Ok mc.
  Lemma stored_applicable a : In a (words 4 N) -> forall p, In p (added k events) -> applicable operators a (h p).
  Proof.
    intros Ha p Hp. assert (exists t, stored M T_inv N operators (h p) t) as ([[[g kk] A] l] & -> & -> & S1 & S2 & B & W & S3 & S4 & _).
    { clear -HF Hp. remember (map h (added k events)) as L eqn:E. assert (HL : In (h p) L) by (subst; now apply in_map). clear E Hp. induction HF as [|o t L T H1 H2 IH]; [destruct HL|]. destruct HL as [<-|HL]; [now exists t|now apply IH]. }
    split; [exact S1|]. split; [destruct S4 as [[L _]|[L _]]; intros E; rewrite E in L; discriminate L|]. split; [|now exists W].
    rewrite (len_words _ _ _ Ha). exact S2.
  Qed.
  (** the sum over the coupled configurations involves outcomes of the N sites only *)
  Lemma represented_ext f f' a : In a (words 4 N) -> (forall b, In b (words 4 N) -> f b = f' b) -> represented mc f a = represented mc f' a.
  Proof.
    intros Ha E. assert (A4 : forall x, In x a -> (x < 4)%nat) by (apply in_words in Ha as [_ Ha]; exact Ha). pose proof (stored_applicable a Ha) as AP.
    destruct (C24_counts_partial operators order h events k f a HO HU HNE AP A4) as (mc1 & E1 & R1).
    destruct (C24_counts_partial operators order h events k f' a HO HU HNE AP A4) as (mc2 & E2 & R2).
    rewrite HC in E1, E2. injection E1 as <-. injection E2 as <-. rewrite R1, R2. unfold intended. apply rsum_ext. intros p Hp. unfold term_value. destruct (AP p Hp) as (ND & _ & IN & _). rewrite (len_words _ _ _ Ha) in IN.
    match goal with |- match ?x with _ => _ end = _ => destruct x; [|reflexivity] end. f_equal. unfold acts. apply rsum_ext. intros b Hb. f_equal. apply E. rewrite outcomes_words in Hb. apply replaced_words; [exact ND|exact IN|lia|exact Ha|exact Hb].
  Qed.
  Lemma represented_inflow P rho a : state_of N M P rho -> In a (words 4 N) -> represented mc P a = inflow N M terms rho a.
  Proof.
    intros [HR HP] Ha. destruct (lindblad_terms theta phi M T_inv sic inv N operators order h events k terms rho a HO HU HNE HF HR Ha) as (mc' & E & R). rewrite HC in E. injection E as <-.
    rewrite <- (represented_ext (probability N M rho) P a Ha HP). unfold inflow. now rewrite <- R.
  Qed.
  Lemma terms_good : Forall (fun t : term => let '(g, k, A, l) := t in (forall i, In i l -> (i < N)%nat) /\ (k <> Dissipation -> hermitian (2 ^ length l) A)) terms.
  Proof.
    clear HC. pose proof HF as HF0. clear HF. induction HF0 as [|o [[[g kk] A] l] L T H1 H2 IH]; [constructor|]. constructor; [|exact IH]. destruct H1 as (_ & _ & _ & S2 & B & W & _ & _ & S5 & S6). split; [exact S2|]. intros Hk i j Hi Hj. unfold dagger. rewrite <- !S6 by assumption. now apply (S5 Hk).
  Qed.
  Lemma generator_herm rho : mhermitian N rho -> mhermitian N (generator N terms rho).
  Proof. intros HR. apply generator_hermitian; [exact HR|exact terms_good]. Qed.
  Lemma inflow_probability rho a : inflow N M terms rho a = probability N M (generator N terms rho) a.
  Proof. unfold inflow, probability. now rewrite mtr_comm. Qed.
  Lemma inflow_total rho : mhermitian N rho -> RtoC (rsum (map (inflow N M terms rho) (words 4 N))) = mtr N (generator N terms rho).
  Proof.
    intros HR. rewrite <- (C86_total theta phi M N (generator N terms rho) sic (generator_herm rho HR)). f_equal. apply rsum_ext. intros a _. apply inflow_probability.
  Qed.
  Lemma inflow_balance rho : mhermitian N rho -> lindbladian terms -> rsum (map (inflow N M terms rho) (words 4 N)) = 0.
  Proof. intros HR HL. apply RtoC_inj. rewrite (inflow_total rho HR), RtoC_0. now apply generator_traceless. Qed.
End Currents.

(** the predefined names in the registry of a fresh POVM object *)
Lemma standard_stored theta phi M T_inv N (o : op) t : get_M theta phi "SIC" = Ok M ->
  NoDup (op_sites o) -> (forall i, In i (op_sites o) -> (i < N)%nat) -> named_term (op_name o) (op_strength o) (op_sites o) t ->
  stored M T_inv N (standard_operators M T_inv) o t.
Proof.
  intros HS T1 T2 (kk & A & HV & ->). cbn. split; [reflexivity|]. split; [reflexivity|]. split; [exact T1|]. split; [exact T2|]. clear -HV.
  assert (HK : forall s B, hermitian 2 s -> same 2 B s -> same 4 (kron 2 B B) (tensor s s) /\ hermitian 4 (kron 2 B B)).
  { intros s B Hs Hb. split; intros i j Hi Hj; destruct (lt_div4 i Hi), (lt_div4 j Hj); unfold kron, tensor, dagger.
    - now rewrite !Hb.
    - rewrite Cconj_mul. rewrite !Hb by assumption. now rewrite <- (Hs (i / 2)%nat (j / 2)%nat), <- (Hs (i mod 2)%nat (j mod 2)%nat). }
  assert (H2 : forall s, In s [0; 1; 2]%nat -> hermitian 2 (get_paulis s)).
  { intros s [<-|[<-|[<-|[]]]] [|[|i]] [|[|j]] Hi Hj; try lia; unfold dagger, get_paulis, mat2; apply C_eq; cbn; ring. }
  assert (HX : hermitian 2 sx /\ hermitian 2 sy /\ hermitian 2 sz). { repeat split; intros [|[|i]] [|[|j]] Hi Hj; try lia; unfold dagger, sx, sy, sz, of_rows; apply C_eq; cbn; ring. }
  assert (SX : same 2 (get_paulis 0) sx /\ same 2 (get_paulis 1) sy /\ same 2 (get_paulis 2) sz). { repeat split; intros [|[|i]] [|[|j]] Hi Hj; try lia; reflexivity. }
  destruct HX as (HX & HY & HZ), SX as (SX & SY & SZ).
  unfold vocabulary in HV. cbn [In] in HV. remember (length (op_sites o)) as m eqn:Em. clear Em. remember (op_name o) as nm eqn:En. clear En.
  destruct HV as [E|[E|[E|[E|[E|[E|[E|[E|[E|[]]]]]]]]]]; injection E as <- <- <- <-.
  - exists (get_paulis 0). eexists. split; [reflexivity|]. split; [left; split; reflexivity|]. split; [intros _; apply H2; cbn; tauto|exact SX].
  - exists (get_paulis 1). eexists. split; [reflexivity|]. split; [left; split; reflexivity|]. split; [intros _; apply H2; cbn; tauto|exact SY].
  - exists (get_paulis 2). eexists. split; [reflexivity|]. split; [left; split; reflexivity|]. split; [intros _; apply H2; cbn; tauto|exact SZ].
  - exists (kron 2 (get_paulis 0) (get_paulis 0)). eexists. split; [reflexivity|]. split; [right; split; reflexivity|]. destruct (HK _ _ HX SX). split; [intros _|]; assumption.
  - exists (kron 2 (get_paulis 1) (get_paulis 1)). eexists. split; [reflexivity|]. split; [right; split; reflexivity|]. destruct (HK _ _ HY SY). split; [intros _|]; assumption.
  - exists (kron 2 (get_paulis 2) (get_paulis 2)). eexists. split; [reflexivity|]. split; [right; split; reflexivity|]. destruct (HK _ _ HZ SZ). split; [intros _|]; assumption.
  - exists (fun i j => Cscal (/ 2) (get_paulis 0 i j + Ci * get_paulis 1 i j)%C). eexists. split; [reflexivity|]. split; [left; split; reflexivity|]. split; [congruence|].
    intros [|[|i]] [|[|j]] Hi Hj; try (cbn in Hi, Hj; lia); unfold transition; apply C_eq; cbn; field.
  - exists (fun i j => Cscal (/ 2) (get_paulis 0 i j - Ci * get_paulis 1 i j)%C). eexists. split; [reflexivity|]. split; [left; split; reflexivity|]. split; [congruence|].
    intros [|[|i]] [|[|j]] Hi Hj; try (cbn in Hi, Hj; lia); unfold transition; apply C_eq; cbn; field.
  - exists (get_paulis 2). eexists. split; [reflexivity|]. split; [left; split; reflexivity|]. split; [congruence|exact SZ].
Qed.
