(** POVM operators are the Lindbladian of N spins: C86. *)
From Coq Require Import String List Reals Bool Arith Lia Lra Permutation.
From Verif Require Import Base Cplx Povm_Model Povm_Spec Povm_Proofs Povm2_Proofs Povm3_Proofs Povm_Props.
From Verif Require Import PovmOp_Model PovmOp_Spec PovmOp_Proofs PovmOp2_Proofs PovmOp_Props Many_Model Many_Spec Many_Proofs Many2_Proofs Many3_Proofs.
Import ListNotations.
Local Open Scope R_scope.

(** the result of [matrix_to_povm] for a matrix on one or two sites, in the mode for this kind of dynamics *)
Definition mode_of (k : dynamics) : string := match k with Coherent => "unitary" | Dissipation => "dissipative" | Cooling => "imaginary" end.
Definition converted (M : nat -> cmat) (T_inv : cmat) (m : nat) (k : dynamics) (A : mat) (W : rmat) : Prop :=
  (m = 1%nat /\ matrix_to_povm 2 4 A M T_inv (mode_of k) = Ok (Mat W)) \/
  (m = 2%nat /\ matrix_to_povm 4 16 A (M_2Body M) (T_inv_2Body T_inv) (mode_of k) = Ok (Mat W)).

Lemma family_one M b u v : In b (words 4 1) -> In u (words 2 1) -> In v (words 2 1) ->
  M (digits4 b) (digits2 u) (digits2 v) = cprod (map (fun k => M (nth k b 0%nat) (nth k u 0%nat) (nth k v 0%nat) : C) (seq 0 1)).
Proof.
  intros Hb Hu Hv. apply in_words in Hb as [Lb _], Hu as [Lu _], Hv as [Lv _]. destruct b as [|b [|]]; try discriminate. destruct u as [|u [|]]; try discriminate. destruct v as [|v [|]]; try discriminate.
  cbn. rewrite !Nat.mul_1_r, !Nat.add_0_r. ring.
Qed.
Lemma family_two M b u v : In b (words 4 2) -> In u (words 2 2) -> In v (words 2 2) ->
  M_2Body M (digits4 b) (digits2 u) (digits2 v) = cprod (map (fun k => M (nth k b 0%nat) (nth k u 0%nat) (nth k v 0%nat)) (seq 0 2)).
Proof.
  intros Hb Hu Hv. apply in_words in Hb as [Lb Hb], Hu as [Lu Hu], Hv as [Lv Hv]. destruct b as [|b1 [|b2 [|]]]; try discriminate. destruct u as [|u1 [|u2 [|]]]; try discriminate. destruct v as [|v1 [|v2 [|]]]; try discriminate.
  cbn [digits4 digits2 length Nat.pow]. rewrite !Nat.mul_1_r, !Nat.add_0_r. unfold M_2Body, kron.
  rewrite (split_div b1 4 b2), (split_mod b1 4 b2) by (apply Hb; cbn; tauto). rewrite (split_div u1 2 u2), (split_mod u1 2 u2) by (apply Hu; cbn; tauto). rewrite (split_div v1 2 v2), (split_mod v1 2 v2) by (apply Hv; cbn; tauto). cbn [seq map nth cprod]. ring.
Qed.

Section Generic.
  Variables (d n : nat) (M : nat -> mat) (T_inv : mat).
  Hypothesis herm : forall a, (a < n)%nat -> hermitian d (M a).
  Hypothesis fr : frame d n M T_inv.
  Lemma converted_flow k A W sigma a : matrix_to_povm d n A M T_inv (mode_of k) = Ok (Mat W) -> (k <> Dissipation -> hermitian d A) -> hermitian d sigma -> (a < n)%nat ->
    RtoC (rsumn n (fun b => W a b * outcome_prob d sigma M b)) = tr d (mul d (M a) (lflow d k A sigma)).
  Proof.
    intros E HA HS Ha. pose proof (frame_recovers d n M T_inv sigma herm HS fr) as HC. destruct k; cbn in E; injection E as <-; cbn [lflow].
    - rewrite (unitary_evolves d n M T_inv A sigma a HC). apply real_trace; [now apply herm|]. apply von_neumann_hermitian; [apply HA; discriminate|exact HS].
    - rewrite (dissipative_evolves d n M T_inv A sigma a HC). apply real_trace; [now apply herm|]. now apply lindblad_hermitian.
    - rewrite (imaginary_evolves d n M T_inv A sigma a HC). apply real_trace; [now apply herm|]. apply anti_hermitian; [apply HA; discriminate|exact HS].
  Qed.
  Lemma converted_observable A O sigma : matrix_to_povm d n A M T_inv "observable" = Ok (Vec O) -> hermitian d A -> hermitian d sigma ->
    RtoC (rsumn n (fun a => outcome_prob d sigma M a * O a)) = tr d (mul d sigma A).
  Proof.
    intros E HA HS. pose proof (frame_recovers d n M T_inv sigma herm HS fr) as HC. cbn in E. injection E as <-. rewrite (observable_expect d n M T_inv A sigma HC). now apply real_trace.
  Qed.
End Generic.
Lemma lflow_same d k A B rho : same d A B -> same d (lflow d k A rho) (lflow d k B rho).
Proof.
  intros E. assert (E3 : same d (dagger A) (dagger B)) by (intros x y Hx Hy; unfold dagger; now rewrite E). assert (SR : same d rho rho) by (intros ? ? _ _; reflexivity).
  assert (EAA : same d (mul d (dagger A) A) (mul d (dagger B) B)) by (now apply mul_same).
  intros x y Hx Hy. destruct k; cbn [lflow]; unfold von_neumann, commutator, lindblad, anticommutator, times, plus.
  - now rewrite (mul_same d A B rho rho E SR x y Hx Hy), (mul_same d rho rho A B SR E x y Hx Hy).
  - now rewrite (mul_same d _ _ _ _ (mul_same d _ _ _ _ E SR) E3 x y Hx Hy), (mul_same d _ _ _ _ EAA SR x y Hx Hy), (mul_same d _ _ _ _ SR EAA x y Hx Hy).
  - now rewrite (mul_same d A B rho rho E SR x y Hx Hy), (mul_same d rho rho A B SR E x y Hx Hy).
Qed.

Section Spins.
  Variables (theta phi : R) (M : nat -> cmat) (T_inv : cmat).
  Hypothesis sic : get_M theta phi "SIC" = Ok M.
  Hypothesis inv : inverse 4 (overlap 2 M) T_inv.
  Lemma sic_herm a : (a < 4)%nat -> hermitian 2 (M a).
  Proof. clear inv. injection sic as <-. intros _. apply M_hermitian. Qed.
  Lemma sic_fr : frame 2 4 M T_inv.
  Proof. injection sic as E. rewrite <- E in *. now apply (sic_frame theta phi). Qed.
  Lemma sic_compl : complete 2 4 M.
  Proof. clear inv. injection sic as <-. apply sic_complete. Qed.
  (** one term *)
  Lemma term_flow N l k A B W rho a : NoDup l -> (forall i, In i l -> (i < N)%nat) -> converted M T_inv (length l) k A W -> (k <> Dissipation -> hermitian (2 ^ length l) A) ->
    same (2 ^ length l) A B -> mhermitian N rho -> In a (words 4 N) ->
    RtoC (acts W l (probability N M rho) a) = mtr N (mmul N (product_element N M a) (flow N k (embedded N B l) rho)).
  Proof.
    intros ND IN HC HA HB HR Ha. destruct HC as [[L HC]|[L HC]].
    - apply (acts_flow N l ND IN M M); try assumption; [rewrite L; apply family_one|exact sic_herm|].
      intros sigma HS b Hb. rewrite L in *. change (4 ^ 1)%nat with 4%nat in *. change (2 ^ 1)%nat with 2%nat in *.
      rewrite (converted_flow 2 4 M T_inv sic_herm sic_fr k A W sigma b HC HA HS Hb). unfold tr. apply csumn_ext. intros i Hi. apply mul_same; try assumption; [intros ? ? _ _; reflexivity|now apply lflow_same].
    - apply (acts_flow N l ND IN M (M_2Body M)); try assumption; [rewrite L; apply family_two|exact sic_herm|].
      intros sigma HS b Hb. rewrite L in *. change (4 ^ 2)%nat with 16%nat in *. change (2 ^ 2)%nat with 4%nat in *.
      rewrite (converted_flow 4 16 (M_2Body M) (T_inv_2Body T_inv) (two_hermitian M sic_herm) (two_frame M T_inv sic_fr) k A W sigma b HC HA HS Hb). unfold tr. apply csumn_ext. intros i Hi. apply mul_same; try assumption; [intros ? ? _ _; reflexivity|now apply lflow_same].
  Qed.
  Lemma mtr_generator N Q (terms : list term) rho : mtr N (mmul N Q (generator N terms rho)) =
    csum (map (fun t : term => let '(g, k, A, l) := t in (RtoC g * mtr N (mmul N Q (flow N k (embedded N A l) rho)))%C) terms).
  Proof.
    unfold mtr, mmul, generator. rewrite (over_ext 2 N _ (fun x => csum (map (fun t : term => over 2 N (fun z => let '(g, k, A, l) := t in (RtoC g * (Q x z * flow N k (embedded N A l) rho z x))%C)) terms))).
    - unfold over at 1. rewrite csum_swap. apply csum_ext. intros [[[g k] A] l] _. rewrite <- (over_scal 2 N (RtoC g)). apply (over_ext 2 N). intros x _. now rewrite <- over_scal.
    - intros x _. unfold over. rewrite csum_swap. apply csum_ext. intros z _. rewrite <- csum_scal. apply csum_ext. intros [[[g k] A] l] _. ring.
  Qed.

  (** the stored terms: sites are distinct and on the lattice, the registry holds the converted matrix *)
  Definition stored (N : nat) (operators : list (string * sized)) (o : op) (t : term) : Prop :=
    let '(g, k, A, l) := t in g = op_strength o /\ l = op_sites o /\ NoDup l /\ (forall i, In i l -> (i < N)%nat) /\
    exists B W, lookup (op_name o) operators = Some (4 ^ length l, W)%nat /\ converted M T_inv (length l) k B W /\ (k <> Dissipation -> hermitian (2 ^ length l) B) /\ same (2 ^ length l) B A.
  Theorem lindblad_terms N operators order h events k terms rho a :
    (forall l, iterates l (order l)) -> unshared k events -> added k events <> [] ->
    Forall2 (stored N operators) (map h (added k events)) terms -> mhermitian N rho -> In a (words 4 N) ->
    exists mc, compile operators order (fst (history h events)) (snd (history h events) k) = Ok mc /\
      RtoC (represented mc (probability N M rho) a) = mtr N (mmul N (product_element N M a) (generator N terms rho)).
  Proof.
    intros HO HU HNE HF HR Ha.
    assert (AP : forall p, In p (added k events) -> applicable operators a (h p)).
    { intros p Hp. assert (exists t, stored N operators (h p) t) as ([[[g kk] A] l] & -> & -> & S1 & S2 & B & W & S3 & S4 & _).
      { clear -HF Hp. remember (map h (added k events)) as L eqn:E. assert (HL : In (h p) L) by (subst; now apply in_map). clear E Hp. induction HF as [|o t L T H1 H2 IH]; [destruct HL|]. destruct HL as [<-|HL]; [now exists t|now apply IH]. }
      split; [exact S1|]. split; [destruct S4 as [[L _]|[L _]]; intros E; rewrite E in L; discriminate L|]. split; [|now exists W].
      rewrite (len_words _ _ _ Ha). exact S2. }
    destruct (C24_counts_partial operators order h events k (probability N M rho) a HO HU HNE AP) as (mc & E1 & E2). { intros x Hx. apply in_words in Ha as [_ Ha]. now apply Ha. }
    exists mc. split; [exact E1|]. rewrite E2, mtr_generator. unfold intended. rewrite <- csum_RtoC, map_map. clear AP E1 E2 HNE HU.
    remember (map h (added k events)) as L eqn:EL.
    transitivity (csum (map (fun o => RtoC (term_value operators (op_name o) (op_strength o) (op_sites o) (probability N M rho) a)) L)); [subst L; now rewrite map_map|].
    clear EL. f_equal. induction HF as [|o [[[g kk] A] l] L T H1 H2 IH]; [reflexivity|]. cbn [map]. f_equal; [|exact IH].
    destruct H1 as (-> & -> & S1 & S2 & B & W & S3 & S4 & S5 & S6). unfold term_value. unfold sized in S3. rewrite S3. cbn [snd]. rewrite RtoC_mul. f_equal. now apply (term_flow N (op_sites o) kk B A W).
  Qed.
End Spins.

(** ** C86 *)
(** terms converted with [matrix_to_povm] *)
Theorem C86_lindblad theta phi M T_inv N operators order h events k (what : nat -> dynamics * mat) rho a :
  get_M theta phi "SIC" = Ok M -> inverse 4 (overlap 2 M) T_inv ->
  (forall l, iterates l (order l)) -> unshared k events -> added k events <> [] ->
  (forall p, In p (added k events) -> let l := op_sites (h p) in
     NoDup l /\ (forall i, In i l -> (i < N)%nat) /\
     exists W, lookup (op_name (h p)) operators = Some (4 ^ length l, W)%nat /\ converted M T_inv (length l) (fst (what p)) (snd (what p)) W /\
       (fst (what p) <> Dissipation -> hermitian (2 ^ length l) (snd (what p)))) ->
  mhermitian N rho -> In a (words 4 N) ->
  exists mc, compile operators order (fst (history h events)) (snd (history h events) k) = Ok mc /\
    RtoC (represented mc (probability N M rho) a)
    = mtr N (mmul N (product_element N M a) (generator N (map (fun p => (op_strength (h p), fst (what p), snd (what p), op_sites (h p))) (added k events)) rho)).
Proof.
  intros HS HI HO HU HNE HT HR Ha. apply (lindblad_terms theta phi M T_inv HS HI); try assumption. clear HNE HU. induction (added k events) as [|p L IH]; [constructor|]. cbn [map]. constructor; [|apply IH; intros q Hq; apply HT; now right].
  destruct (HT p (or_introl eq_refl)) as (T1 & T2 & W & T3 & T4 & T5). cbn. split; [reflexivity|]. split; [reflexivity|]. split; [exact T1|]. split; [exact T2|]. exists (snd (what p)), W. split; [exact T3|]. split; [exact T4|]. split; [exact T5|]. intros ? ? _ _. reflexivity.
Qed.
Print Assumptions C86_lindblad.

(** the predefined names *)
Theorem C86_standard theta phi M T_inv N order h events k terms rho a :
  get_M theta phi "SIC" = Ok M -> inverse 4 (overlap 2 M) T_inv ->
  (forall l, iterates l (order l)) -> unshared k events -> added k events <> [] ->
  (forall p, In p (added k events) -> NoDup (op_sites (h p)) /\ forall i, In i (op_sites (h p)) -> (i < N)%nat) ->
  Forall2 (fun p t => named_term (op_name (h p)) (op_strength (h p)) (op_sites (h p)) t) (added k events) terms ->
  mhermitian N rho -> In a (words 4 N) ->
  exists mc, compile (standard_operators M T_inv) order (fst (history h events)) (snd (history h events) k) = Ok mc /\
    RtoC (represented mc (probability N M rho) a) = mtr N (mmul N (product_element N M a) (generator N terms rho)).
Proof.
  intros HS HI HO HU HNE HT HF HR Ha. apply (lindblad_terms theta phi M T_inv HS HI); try assumption. clear HNE HU.
  induction HF as [|p t L T H1 H2 IH]; [constructor|]. cbn [map]. constructor; [|apply IH; intros q Hq; apply HT; now right].
  destruct (HT p (or_introl eq_refl)) as [T1 T2]. destruct H1 as (kk & A & HV & ->). cbn. split; [reflexivity|]. split; [reflexivity|]. split; [exact T1|]. split; [exact T2|]. clear -HV.
  assert (HK : forall s B, hermitian 2 s -> same 2 B s -> same 4 (kron 2 B B) (tensor s s) /\ hermitian 4 (kron 2 B B)).
  { intros s B Hs Hb. split; intros i j Hi Hj; destruct (lt_div4 i Hi), (lt_div4 j Hj); unfold kron, tensor, dagger.
    - now rewrite !Hb.
    - rewrite Cconj_mul. rewrite !Hb by assumption. now rewrite <- (Hs (i / 2)%nat (j / 2)%nat), <- (Hs (i mod 2)%nat (j mod 2)%nat). }
  assert (H2 : forall s, In s [0; 1; 2]%nat -> hermitian 2 (get_paulis s)).
  { intros s [<-|[<-|[<-|[]]]] [|[|i]] [|[|j]] Hi Hj; try lia; unfold dagger, get_paulis, mat2; apply C_eq; cbn; ring. }
  assert (HX : hermitian 2 sx /\ hermitian 2 sy /\ hermitian 2 sz). { repeat split; intros [|[|i]] [|[|j]] Hi Hj; try lia; unfold dagger, sx, sy, sz, of_rows; apply C_eq; cbn; ring. }
  assert (SX : same 2 (get_paulis 0) sx /\ same 2 (get_paulis 1) sy /\ same 2 (get_paulis 2) sz). { repeat split; intros [|[|i]] [|[|j]] Hi Hj; try lia; reflexivity. }
  destruct HX as (HX & HY & HZ), SX as (SX & SY & SZ).
  unfold vocabulary in HV. cbn [In] in HV. remember (length (op_sites (h p))) as m eqn:Em. clear Em. remember (op_name (h p)) as nm eqn:En. clear En.
  destruct HV as [E|[E|[E|[E|[E|[E|[E|[E|[E|[]]]]]]]]]]; injection E as <- <- <- <-.
  - exists (get_paulis 0). eexists. split; [reflexivity|]. split; [left; split; reflexivity|]. split; [intros _; apply H2; cbn; tauto|exact SX].
  - exists (get_paulis 1). eexists. split; [reflexivity|]. split; [left; split; reflexivity|]. split; [intros _; apply H2; cbn; tauto|exact SY].
  - exists (get_paulis 2). eexists. split; [reflexivity|]. split; [left; split; reflexivity|]. split; [intros _; apply H2; cbn; tauto|exact SZ].
  - exists (kron 2 (get_paulis 0) (get_paulis 0)). eexists. split; [reflexivity|]. split; [right; split; reflexivity|]. destruct (HK _ _ HX SX). split; [intros _|]; assumption.
  - exists (kron 2 (get_paulis 1) (get_paulis 1)). eexists. split; [reflexivity|]. split; [right; split; reflexivity|]. destruct (HK _ _ HY SY). split; [intros _|]; assumption.
  - exists (kron 2 (get_paulis 2) (get_paulis 2)). eexists. split; [reflexivity|]. split; [right; split; reflexivity|]. destruct (HK _ _ HZ SZ). split; [intros _|]; assumption.
  - exists (fun i j => Cscal (/ 2) (get_paulis 0 i j + Ci * get_paulis 1 i j)%C). eexists. split; [reflexivity|]. split; [left; split; reflexivity|]. split; [congruence|].
    intros [|[|i]] [|[|j]] Hi Hj; try (cbn in Hi, Hj; lia); unfold transition; apply C_eq; cbn; field.
  - exists (fun i j => Cscal (/ 2) (get_paulis 0 i j - Ci * get_paulis 1 i j)%C). eexists. split; [reflexivity|]. split; [left; split; reflexivity|]. split; [congruence|].
    intros [|[|i]] [|[|j]] Hi Hj; try (cbn in Hi, Hj; lia); unfold transition; apply C_eq; cbn; field.
  - exists (get_paulis 2). eexists. split; [reflexivity|]. split; [left; split; reflexivity|]. split; [congruence|exact SZ].
Qed.
Print Assumptions C86_standard.

(** observables: the mean of the converted array over the outcomes is the expectation value in the state of the N spins *)
Theorem C86_observable theta phi M T_inv N l A O rho :
  get_M theta phi "SIC" = Ok M -> inverse 4 (overlap 2 M) T_inv -> NoDup l -> (forall i, In i l -> (i < N)%nat) ->
  (length l = 1%nat /\ matrix_to_povm 2 4 A M T_inv "observable" = Ok (Vec O)) \/
  (length l = 2%nat /\ matrix_to_povm 4 16 A (M_2Body M) (T_inv_2Body T_inv) "observable" = Ok (Vec O)) ->
  hermitian (2 ^ length l) A -> mhermitian N rho ->
  RtoC (rsum (map (fun a => probability N M rho a * O (digits4 (on a l))) (words 4 N))) = mtr N (mmul N rho (embedded N A l)).
Proof.
  intros HS HI ND IN HC HA HR. destruct HC as [[L HC]|[L HC]].
  - apply (acts_observable N l ND IN M M); try assumption; [rewrite L; apply family_one|apply (sic_compl theta phi M HS)|].
    intros sigma Hs. rewrite L in *. exact (converted_observable 2 4 M T_inv (sic_herm theta phi M HS) (sic_fr theta phi M T_inv HS HI) A O sigma HC HA Hs).
  - apply (acts_observable N l ND IN M (M_2Body M)); try assumption; [rewrite L; apply family_two|apply (sic_compl theta phi M HS)|].
    intros sigma Hs. rewrite L in *. exact (converted_observable 4 16 (M_2Body M) (T_inv_2Body T_inv) (two_hermitian M (sic_herm theta phi M HS)) (two_frame M T_inv (sic_fr theta phi M T_inv HS HI)) A O sigma HC HA Hs).
Qed.
Print Assumptions C86_observable.

(** the probabilities add up to the trace of the state *)
Theorem C86_total theta phi M N rho : get_M theta phi "SIC" = Ok M -> mhermitian N rho ->
  RtoC (rsum (map (probability N M rho) (words 4 N))) = mtr N rho.
Proof.
  intros HS HR. transitivity (RtoC (rsum (map (fun a => probability N M rho a * (fun _ => 1) (digits4 (on a []))) (words 4 N)))).
  - f_equal. apply rsum_ext. intros a _. ring.
  - rewrite (acts_observable N [] (NoDup_nil _) (fun i H => match H with end) M (fun _ => ident) ltac:(intros; apply in_words in H as [H _], H0 as [H0 _], H1 as [H1 _]; destruct b, u, v; try discriminate; reflexivity) (sic_compl theta phi M HS) ident (fun _ => 1) rho).
    + unfold mtr, mmul. apply over_ext. intros x Hx. rewrite (over_single 2 N x); [| exact Hx|].
      * unfold embedded. replace (agree_off N [] x x) with true by (symmetry; apply agree_off_iff; reflexivity). cbn. unfold ident. cbn. ring.
      * intros y Hy Hne. unfold embedded. destruct (agree_off N [] y x) eqn:E; [|ring]. exfalso. apply Hne. rewrite agree_off_iff in E. apply in_words in Hx as [Lx _], Hy as [Ly _]. apply nth_ext with (d := 0%nat) (d' := 0%nat); [congruence|]. intros i Hi. apply E; [lia|intros []].
    + intros sigma Hs. cbn [length Nat.pow]. pose proof (Hs 0%nat 0%nat ltac:(cbn; lia) ltac:(cbn; lia)) as E. unfold outcome_prob, tr, mul, csumn, rsumn. cbn [seq map]. cbn in E. unfold dagger in E. unfold ident. cbn [Nat.eqb].
      rewrite <- E at 2. destruct (sigma 0%nat 0%nat) as [p q]. apply C_eq; cbn in *; injection E as E; lra.
    + exact HR.
Qed.
Print Assumptions C86_total.

(** hypotheses are met: three spins in a superposition of 010 and 110; a coupling, a field and a decay *)
Definition spins_heap : heap := fun p => nth p [mk_op "ZZ" 2 [2; 0]%nat 0; mk_op "X" (-1) [1]%nat 0; mk_op "decaydown" (1 / 2) [2]%nat 0] (mk_op "X" 0 [0]%nat 0).
Definition spins_terms : list term := [(2, Coherent, tensor sz sz, [2; 0]%nat); (-1, Coherent, sx, [1]%nat); (1 / 2, Dissipation, transition 1 0, [2]%nat)].
Definition spins_rho : mmat := fun x y =>
  let amp z := if list_eq_dec Nat.eq_dec z [0; 1; 0]%nat then C1 else if list_eq_dec Nat.eq_dec z [1; 1; 0]%nat then Ci else C0 in (RtoC (/ 2) * (amp x * Cconj (amp y)))%C.
Example C86_case theta phi : exists M T_inv, get_M theta phi "SIC" = Ok M /\ inverse 4 (overlap 2 M) T_inv /\
  (forall l, iterates l (dedup l)) /\ unshared 0 [(0, 0); (0, 1); (0, 2)]%nat /\ added 0 [(0, 0); (0, 1); (0, 2)]%nat = [0; 1; 2]%nat /\
  (forall p, In p [0; 1; 2]%nat -> NoDup (op_sites (spins_heap p)) /\ forall i, In i (op_sites (spins_heap p)) -> (i < 3)%nat) /\
  Forall2 (fun p t => named_term (op_name (spins_heap p)) (op_strength (spins_heap p)) (op_sites (spins_heap p)) t) [0; 1; 2]%nat spins_terms /\
  mhermitian 3 spins_rho /\ In [3; 0; 2]%nat (words 4 3) /\ mtr 3 spins_rho = C1.
Proof.
  destruct (C21_valid theta phi) as (M & H1 & _ & _ & T_inv & H2). exists M, T_inv. split; [exact H1|]. split; [exact H2|]. split; [apply dedup_iterates|].
  split. { intros pre j p post E Hj. assert (HI : In (j, p) [(0, 0); (0, 1); (0, 2)]%nat) by (rewrite E; apply in_app_iff; right; now left). cbn in HI. destruct HI as [HI|[HI|[HI|[]]]]; injection HI as <- _; congruence. }
  split; [reflexivity|]. split. { intros p [<-|[<-|[<-|[]]]]; cbn; (split; [repeat constructor; cbn; lia|lia]). }
  split. { repeat constructor; (eexists; eexists; split; [|reflexivity]; cbn; tauto). }
  split. { intros x y _ _. unfold mdagger, spins_rho. rewrite !Cconj_mul, Cconj_RtoC, Cconj_conj. ring. }
  split; [cbn; tauto|]. unfold mtr, over, spins_rho. cbn [words seq flat_map map app]. unfold csum. cbn. apply C_eq; cbn; lra.
Qed.
