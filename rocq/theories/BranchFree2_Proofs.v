From Coq Require Import ZArith List Reals Lra Lia Bool Arith Sorted.
From Verif Require Import Base Cplx Mpi_Model Mpi_Proofs BranchFree_Model BranchFree_Spec BranchFree_Proofs.
Import ListNotations.

(** ** sums with one contribution *)
Lemma csum_single {B} (f : B -> C) l x : NoDup l -> In x l -> (forall y, In y l -> y <> x -> f y = C0) -> csum (map f l) = f x.
Proof.
  induction 1 as [|a l Ha HN IH]; intros Hin H; [contradiction|]. cbn [map]. rewrite csum_cons. destruct Hin as [->|Hin].
  - assert (csum (map f l) = C0) as ->; [|ring].
    rewrite (csum_ext f (fun _ => C0)); [apply csum_zero|]. intros y Hy. apply H; [now right|]. intros ->. contradiction.
  - rewrite (H a) by (first [now left | intros ->; contradiction]). rewrite IH; [ring|assumption|]. intros y Hy. apply H. now right.
Qed.
Lemma msum_single n f x : x < n -> (forall y, y < n -> y <> x -> f y = C0) -> msum n f = f x.
Proof.
  intros Hx H. unfold msum. apply csum_single; [apply seq_NoDup|apply in_seq; lia|]. intros y Hy. apply in_seq in Hy. apply H. lia.
Qed.
Lemma msum_zero n f : (forall y, y < n -> f y = C0) -> msum n f = C0.
Proof.
  intros H. unfold msum. rewrite (csum_ext f (fun _ => C0)); [apply csum_zero|]. intros y Hy. apply in_seq in Hy. apply H. lia.
Qed.

Lemma occ_right_put_le i j v s : j <= i -> j < length s -> occ_right i (put j v s) = occ_right i s.
Proof.
  intros H Hj. unfold occ_right. f_equal. revert i j H Hj. induction s as [|a s IH]; intros i j H Hj; cbn [length] in *; [lia|].
  destruct j as [|j]; [reflexivity|]. destruct i as [|i]; [lia|]. rewrite put_S. cbn [skipn]. apply IH; lia.
Qed.

(** ** ket action *)
Lemma put_inj_state lDim n s t i : wf_config lDim n s -> wf_config lDim n t -> i < n ->
  put i (nth i s 0) t = s <-> (forall j, j < n -> j <> i -> nth j t 0 = nth j s 0).
Proof.
  intros (Ls & _) (Lt & _) Hi. split.
  - intros E j Hj Hji. rewrite <- E. symmetry. apply nth_put_other; lia.
  - intros H. apply (nth_ext _ _ 0 0); [rewrite put_length; lia|]. intros j Hj. rewrite put_length in Hj by lia.
    destruct (Nat.eq_dec j i) as [->|N]; [now rewrite nth_put_same by lia|]. rewrite nth_put_other by lia. apply H; lia.
Qed.

Lemma ket_act1 lDim n o s t c : wf_op lDim n o -> wf_config lDim n s -> wf_config lDim n t ->
  ket_op lDim o (fun u => (c * delta s u)%C) t = (c * snd (act1 o s) * delta (fst (act1 o s)) t)%C.
Proof.
  intros Ho Hs Ht. pose proof Ho as (Hi & Hm & He & HM & Hf & Hd).
  set (i := lo_idx o) in *. assert (Hx : nth i s 0 < lDim) by (eapply nth_wf; eauto).
  assert (Ls : length s = n) by apply Hs. assert (Lt : length t = n) by apply Ht.
  unfold ket_op. fold i. rewrite (msum_single _ _ (nth i s 0)); [|assumption|].
  - unfold act1, delta. fold i. cbn [fst snd].
    destruct (list_eq_dec Nat.eq_dec (put i (nth i s 0) t) s) as [E|E];
    destruct (list_eq_dec Nat.eq_dec t (put i (nth (nth i s 0) (lo_map o) 0) s)) as [F|F].
    + assert (nth i t 0 = nth (nth i s 0) (lo_map o) 0) as -> by (rewrite F; apply nth_put_same; lia).
      rewrite Nat.eqb_refl.
      assert (occ_right i t = occ_right i s) as ->; [|ring].
      rewrite F. apply occ_right_put_le; lia.
    + destruct (Nat.eqb_spec (nth (nth i s 0) (lo_map o) 0) (nth i t 0)) as [G|G]; [|ring].
      exfalso. apply F. rewrite G. pose proof (proj1 (put_inj_state lDim n s t i Hs Ht Hi) E) as E'.
      symmetry. apply (put_inj_state lDim n t s i Ht Hs Hi). intros j Hj Hji. symmetry. auto.
    + exfalso. apply E. apply (put_inj_state lDim n s t i Hs Ht Hi). intros j Hj Hji. rewrite F. apply nth_put_other; lia.
    + ring.
  - intros b Hb Hne. unfold delta. destruct (list_eq_dec Nat.eq_dec (put i b t) s) as [E|E]; [|ring].
    exfalso. apply Hne. rewrite <- E. symmetry. apply nth_put_same. lia.
Qed.

Lemma ket_op_ext lDim n o psi phi t : wf_op lDim n o -> wf_config lDim n t ->
  (forall u, wf_config lDim n u -> psi u = phi u) -> ket_op lDim o psi t = ket_op lDim o phi t.
Proof.
  intros Ho Ht H. unfold ket_op, msum. apply csum_ext. intros b Hb. apply in_seq in Hb.
  rewrite H; [reflexivity|]. apply put_wf; [assumption|apply Ho|lia].
Qed.

Lemma ket_act lDim n ops s : Forall (wf_op lDim n) ops -> wf_config lDim n s ->
  forall t, wf_config lDim n t -> ket_ops lDim ops (delta s) t = (snd (act ops s) * delta (fst (act ops s)) t)%C.
Proof.
  induction 1 as [|o ops Ho Hops IH]; intros Hs t Ht.
  - cbn [ket_ops act fst snd]. ring.
  - cbn [ket_ops]. rewrite (ket_op_ext lDim n o _ (fun u => (snd (act ops s) * delta (fst (act ops s)) u)%C) t Ho Ht);
      [|intros u Hu; apply IH; assumption].
    rewrite (ket_act1 lDim n); [|assumption|apply (act_ok lDim n n ops s C1); [assumption|assumption|now left]|assumption].
    cbn [act]. destruct (act ops s) as [s1 c1]. cbn [fst snd]. destruct (act1 o s1) as [s2 c2]. cbn [fst snd]. ring.
Qed.

(** ** bra reading for operators on distinct sites *)
Definition bra_matrix (o : localop) : nat -> nat -> C := fun a b => if b =? nth a (lo_map o) 0 then nth a (lo_els o) C0 else C0.

Lemma bra_act1 lDim n o s psi (M : nat -> nat -> C) : wf_op lDim n o -> lo_fermi o = false -> wf_config lDim n s ->
  (forall a b, a < lDim -> b < lDim -> M a b = bra_matrix o a b) ->
  on_site lDim M (lo_idx o) psi s = (snd (act1 o s) * psi (fst (act1 o s)))%C.
Proof.
  intros (Hi & Hm & He & HM & Hf & Hd) Hn Hs Eq. assert (Hx : nth (lo_idx o) s 0 < lDim) by (eapply nth_wf; eauto).
  assert (Hy : nth (nth (lo_idx o) s 0) (lo_map o) 0 < lDim) by (apply HM, nth_In; lia).
  unfold on_site. rewrite (msum_single _ _ (nth (nth (lo_idx o) s 0) (lo_map o) 0)).
  - rewrite Eq by assumption. unfold bra_matrix, act1. rewrite Nat.eqb_refl, Hn. cbn [fst snd]. ring.
  - assumption.
  - intros y Hyl Hne. rewrite Eq by assumption. unfold bra_matrix. destruct (Nat.eqb_spec y (nth (nth (lo_idx o) s 0) (lo_map o) 0)); [contradiction|ring].
Qed.

Lemma act_other ops s i v : Forall (fun o => lo_fermi o = false /\ lo_idx o <> i /\ lo_idx o < length s) ops -> i < length s ->
  act ops (put i v s) = (put i v (fst (act ops s)), snd (act ops s)) /\ nth i (fst (act ops s)) 0 = nth i s 0 /\ length (fst (act ops s)) = length s.
Proof.
  intros H Hi. induction H as [|o ops (Hf & Hne & Hl) _ (E & N & L)]; [cbn; auto|].
  cbn [act]. rewrite E. destruct (act ops s) as [s1 c1]. cbn [fst snd] in *. unfold act1. rewrite Hf.
  rewrite nth_put_other by lia. rewrite put_put_comm by lia. cbn [fst snd]. split; [reflexivity|]. split.
  - rewrite nth_put_other by lia. exact N.
  - rewrite put_length by lia. exact L.
Qed.

Lemma product_op_act n l psi : forall s, wf_config 2 n s -> NoDup (map snd l) -> Forall (fun oi => snd oi < n /\ fst oi <> NP /\ fst oi <> NM) l ->
  let ops := map (fun oi => op_of (fst oi) (snd oi)) l in
  product_op l psi s = (snd (act ops s) * psi (fst (act ops s)))%C.
Proof.
  induction l as [|[o i] l IH]; intros s Hs HN HF; cbn zeta.
  - cbn. ring.
  - cbn [map snd] in HN. inversion HN as [|? ? Hni HN']; subst. inversion HF as [|? ? (Hi & HP & HM) HF']; subst. cbn [fst snd] in *.
    cbn [product_op map fst snd]. set (ops := map (fun oi : opname * nat => op_of (fst oi) (snd oi)) l).
    assert (Wo : wf_op 2 n (op_of o i)).
    { destruct o; try (now elim HP); try (now elim HM); (split; [exact Hi|]); repeat split; cbn; intuition (try lia; try discriminate). }
    assert (Hidx : forall o i, lo_idx (op_of o i) = i) by (intros [] ?; reflexivity).
    assert (Hfer : forall o i, lo_fermi (op_of o i) = false) by (intros [] ?; reflexivity).
    assert (Ls : length s = n) by apply Hs.
    rewrite <- (Hidx o i) at 1.
    rewrite (bra_act1 2 n (op_of o i)); [|exact Wo|apply Hfer|exact Hs|].
    2: { intros a b Ha Hb. destruct o; try (now elim HP); try (now elim HM); destruct a as [|[|a]]; try lia; destruct b as [|[|b]]; try lia; reflexivity. }
    assert (Ws : wf_config 2 n (fst (act1 (op_of o i) s))).
    { apply (apply_fun_ok 2 n n (op_of o i) s C1 Wo Hs). now left. }
    rewrite IH by assumption. fold ops.
    destruct (act_other ops s i (nth (nth i s 0) (lo_map (op_of o i)) 0)) as (E & N & L).
    { apply Forall_forall. intros x Hx. unfold ops in Hx. apply in_map_iff in Hx as ([o' i'] & <- & Hin). cbn [fst snd].
      rewrite Hfer, Hidx. rewrite Forall_forall in HF'. specialize (HF' _ Hin). cbn in HF'.
      split; [reflexivity|]. split; [|lia]. intros ->. apply Hni. apply (in_map snd) in Hin. exact Hin. }
    { lia. }
    unfold act1. rewrite Hidx, Hfer. cbn [fst snd]. rewrite E. cbn [act fst snd]. destruct (act ops s) as [s1 c1]. cbn [fst snd] in *.
    unfold act1. rewrite Hidx, Hfer, N. cbn [fst snd]. ring.
Qed.

(** ** comparing operators *)
Lemma wf_2 n i o : i < n -> wf_op 2 n (op_of o i).
Proof. intros Hi. destruct o; (split; [exact Hi|]); repeat split; cbn; intuition (try lia; try discriminate). Qed.

Definition total (sv : list (ostring unit * C)) (f : config -> C) (s : config) : C :=
  csum (map (fun sv => (snd sv * snd (act (snd (fst sv)) s) * f (fst (act (snd (fst sv)) s)))%C) sv).

Definition str_ok lDim n (st : ostring unit) (v : C) : Prop := wf_string lDim n st /\ prefactor_is [] st v.

Lemma operator_total lDim n (sv : list (ostring unit * C)) s : Forall (fun x => str_ok lDim n (fst x) (snd x)) sv -> wf_config lDim n s ->
  exists els, operator_elements lDim n (map (fun x => to_opstr (fst x)) sv) [] s = Ok els /\ forall f, contract els f = total sv f s.
Proof.
  intros H Hs. destruct (operator_elements_ok lDim n n (map fst sv) [] (map snd sv) s) as (els & E & _ & _ & F).
  - apply Forall_map. eapply Forall_impl; [|exact H]. intros x Hx. apply Hx.
  - assumption.
  - clear -H. induction H as [|x sv Hx _ IH]; cbn; constructor; [apply Hx|exact IH].
  - apply Forall_forall. intros; now left.
  - rewrite map_map in E. exists els. split; [exact E|]. intros f. rewrite F. unfold total. f_equal. f_equal.
    clear. induction sv as [|[a b] sv IH]; [reflexivity|]. cbn. now rewrite IH.
Qed.

Lemma same_operator_intro n sa sb :
  Forall (fun x => str_ok 2 n (fst x) (snd x)) sa -> Forall (fun x => str_ok 2 n (fst x) (snd x)) sb ->
  (forall f s, wf_config 2 n s -> total sa f s = total sb f s) ->
  same_operator 2 n (map (fun x => to_opstr (fst x)) sa) (map (fun x => to_opstr (fst x)) sb).
Proof.
  intros Ha Hb E s Hs. destruct (operator_total 2 n sa s Ha Hs) as (ea & Ea & Fa). destruct (operator_total 2 n sb s Hb Hs) as (eb & Eb & Fb).
  exists ea, eb. split; [exact Ea|]. split; [exact Eb|]. intros f. rewrite Fa, Fb. auto.
Qed.
Lemma zero_operator_intro n sa :
  Forall (fun x => str_ok 2 n (fst x) (snd x)) sa -> (forall f s, wf_config 2 n s -> total sa f s = C0) ->
  is_zero_operator 2 n (map (fun x => to_opstr (fst x)) sa).
Proof.
  intros Ha E s Hs. destruct (operator_total 2 n sa s Ha Hs) as (ea & Ea & Fa).
  exists ea. split; [exact Ea|]. intros f. rewrite Fa. auto.
Qed.

Lemma act_1 o s : act [o] s = (fst (act1 o s), (snd (act1 o s) * C1)%C).
Proof. cbn [act]. destruct (act1 o s). reflexivity. Qed.
Lemma act_2 a b s : act [a; b] s = (fst (act1 a (fst (act1 b s))), (snd (act1 a (fst (act1 b s))) * (snd (act1 b s) * C1))%C).
Proof. cbn [act]. destruct (act1 b s) as [s1 c1]. cbn [fst snd]. destruct (act1 a s1). reflexivity. Qed.

Lemma bit n s i : wf_config 2 n s -> i < n -> nth i s 0 = 0 \/ nth i s 0 = 1.
Proof. intros Hs Hi. pose proof (nth_wf _ _ _ _ Hs Hi). lia. Qed.

Lemma put_self n s i v : wf_config 2 n s -> i < n -> nth i s 0 = v -> put i v s = s.
Proof. intros (L & _) Hi <-. apply put_nth_same. lia. Qed.

(** flipping one site changes the parity of the sites to its right-hand count *)
Lemma nsum_put j v s : j < length s -> nsum (put j v s) + nth j s 0 = nsum s + v.
Proof.
  revert j. induction s as [|a s IH]; intros [|j] H; cbn [length] in *; try lia.
  - unfold put. cbn [firstn skipn app nth]. rewrite !nsum_cons. lia.
  - rewrite put_S, !nsum_cons. cbn [nth]. specialize (IH j). lia.
Qed.
Lemma occ_right_put_gt i j v s : i < j -> j < length s -> occ_right i (put j v s) + nth j s 0 = occ_right i s + v.
Proof.
  unfold occ_right. revert i j. induction s as [|a s IH]; intros i j H Hj; cbn [length] in *; [lia|].
  destruct j as [|j]; [lia|]. rewrite put_S. destruct i as [|i].
  - cbn [skipn nth]. apply nsum_put. lia.
  - specialize (IH i j). cbn [skipn nth] in *. apply IH; lia.
Qed.
Lemma sgn_S n : sgn (S n) = (- sgn n)%C.
Proof. unfold sgn. rewrite Nat.even_succ, <- Nat.negb_even. destruct (Nat.even n); cbn; Cring. Qed.
Lemma sgn_sq n : (sgn n * sgn n)%C = C1.
Proof. unfold sgn. destruct (Nat.even n); Cring. Qed.
Lemma sgn_flip i j s n : wf_config 2 n s -> i < j -> j < n -> sgn (occ_right i (put j (1 - nth j s 0) s)) = (- sgn (occ_right i s))%C.
Proof.
  intros Hs Hij Hj. assert (L : length s = n) by apply Hs. pose proof (occ_right_put_gt i j (1 - nth j s 0) s Hij ltac:(lia)) as E.
  destruct (bit n s j Hs Hj) as [B|B]; rewrite B in *; cbn [Nat.sub] in *.
  - replace (occ_right i (put j 1 s)) with (S (occ_right i s)) by lia. apply sgn_S.
  - replace (occ_right i s) with (S (occ_right i (put j 0 s))) by lia. rewrite sgn_S. ring.
Qed.

(** two flipping fermionic operators on different sites anticommute *)
Definition flipper (o : localop) : Prop := lo_map o = [1; 0] /\ lo_fermi o = true.
Lemma act1_flipper n o s : flipper o -> wf_config 2 n s -> lo_idx o < n ->
  act1 o s = (put (lo_idx o) (1 - nth (lo_idx o) s 0) s, (sgn (occ_right (lo_idx o) s) * nth (nth (lo_idx o) s 0) (lo_els o) C0)%C).
Proof.
  intros [Hm Hf] Hs Hi. unfold act1. rewrite Hm, Hf. destruct (bit n s (lo_idx o) Hs Hi) as [-> | ->]; reflexivity.
Qed.

Lemma flippers_anticommute_lt n a b s : flipper a -> flipper b -> wf_config 2 n s -> lo_idx a < lo_idx b -> lo_idx b < n ->
  fst (act [a; b] s) = fst (act [b; a] s) /\ snd (act [a; b] s) = (- snd (act [b; a] s))%C.
Proof.
  intros Ha Hb Hs Hlt Hn. rewrite !act_2. cbn [fst snd].
  assert (L : length s = n) by apply Hs.
  assert (Wp : forall i, i < n -> wf_config 2 n (put i (1 - nth i s 0) s)) by (intros; apply put_wf; [assumption|assumption|lia]).
  rewrite (act1_flipper n b s Hb Hs), (act1_flipper n a s Ha Hs) by lia. cbn [fst snd].
  rewrite (act1_flipper n a _ Ha) by (try apply Wp; lia). rewrite (act1_flipper n b _ Hb) by (try apply Wp; lia). cbn [fst snd].
  rewrite !nth_put_other by lia. split; [apply put_put_comm; lia|].
  rewrite (sgn_flip _ _ s n) by (assumption || lia). rewrite occ_right_put_le by lia. ring.
Qed.
Lemma flippers_anticommute n a b s : flipper a -> flipper b -> wf_config 2 n s -> lo_idx a <> lo_idx b -> lo_idx a < n -> lo_idx b < n ->
  fst (act [a; b] s) = fst (act [b; a] s) /\ snd (act [a; b] s) = (- snd (act [b; a] s))%C.
Proof.
  intros Ha Hb Hs Hne Hia Hib. destruct (Nat.lt_ge_cases (lo_idx a) (lo_idx b)).
  - apply (flippers_anticommute_lt n); auto.
  - destruct (flippers_anticommute_lt n b a s Hb Ha Hs ltac:(lia) Hia) as [E F]. split; [now rewrite E|]. rewrite F. ring.
Qed.
Lemma flippers_same_site n a b s : flipper a -> flipper b -> wf_config 2 n s -> lo_idx a = lo_idx b -> lo_idx a < n ->
  let x := nth (lo_idx a) s 0 in
  act [a; b] s = (s, (nth (1 - x) (lo_els a) C0 * nth x (lo_els b) C0)%C).
Proof.
  intros Ha Hb Hs E Hi x. assert (L : length s = n) by apply Hs. rewrite act_2.
  rewrite (act1_flipper n b s Hb Hs) by lia. cbn [fst snd]. rewrite <- E. fold x.
  assert (Hx : x = 0 \/ x = 1) by (apply (bit n); assumption).
  rewrite (act1_flipper n a _ Ha) by (try (apply put_wf; [assumption|assumption|lia]); lia). cbn [fst snd].
  rewrite nth_put_same by lia. rewrite put_put_same by lia. rewrite occ_right_put_le by lia.
  replace (1 - (1 - x)) with x by lia. unfold x at 1. rewrite put_nth_same by lia. f_equal.
  transitivity ((sgn (occ_right (lo_idx a) s) * sgn (occ_right (lo_idx a) s)) * (nth (1 - x) (lo_els a) C0 * nth x (lo_els b) C0))%C; [ring|].
  rewrite sgn_sq. ring.
Qed.

(** ** string arithmetic *)
Section Str.
Context {A : Type}.

Definition fprod (args : list A) (fs : list (pfun A)) (v : C) : Prop :=
  exists vs, Forall2 (fun p v => call p args = Ok v) fs vs /\ v = big C1 Cmul vs.
Lemma fprod_cons args p fs v : fprod args (p :: fs) v -> exists a b, call p args = Ok a /\ fprod args fs b /\ v = (a * b)%C.
Proof.
  intros (vs & H & ->). inversion H; subst. eexists _, _. split; [eassumption|]. split; [eexists; split; [eassumption|reflexivity]|]. reflexivity.
Qed.

Lemma cprod_cons x l : big C1 Cmul (x :: l) = (x * big C1 Cmul l)%C. Proof. reflexivity. Qed.
Lemma cprod_nil : big C1 Cmul [] = C1. Proof. reflexivity. Qed.
Lemma cprod_app a b : big C1 Cmul (a ++ b) = (big C1 Cmul a * big C1 Cmul b)%C.
Proof. induction a as [|x a IH]; cbn [app]; [rewrite cprod_nil; ring|]. rewrite !cprod_cons, IH. ring. Qed.

Lemma fold_factors_call f0 rest v0 vs : call f0 (@nil A) = Ok v0 -> Forall2 (fun p v => call p [] = Ok v) rest vs ->
  call (fold_factors f0 rest) [] = Ok (v0 * big C1 Cmul vs)%C.
Proof.
  intros H0 H. revert f0 v0 H0. induction H as [|p v rest vs Hp _ IH]; intros f0 v0 H0; cbn [fold_factors].
  - rewrite H0, cprod_nil. f_equal. ring.
  - rewrite (IH (PProd f0 p) (v0 * v)%C).
    + f_equal. rewrite cprod_cons. ring.
    + cbn. rewrite H0, Hp. reflexivity.
Qed.
Lemma Forall2_rev {X Y} (R : X -> Y -> Prop) a b : Forall2 R a b -> Forall2 R (rev a) (rev b).
Proof. induction 1; cbn; [constructor|]. apply Forall2_app; auto. Qed.
Lemma cprod_rev l : big C1 Cmul (rev l) = big C1 Cmul l.
Proof. induction l as [|x l IH]; [reflexivity|]. cbn [rev]. rewrite cprod_app, IH, !cprod_cons, cprod_nil. ring. Qed.
Lemma fold_factors_prod f0 p rest : exists a b, fold_factors f0 (p :: rest) = @PProd A a b.
Proof. cbn. revert f0 p. induction rest as [|q rest IH]; intros f0 p; [cbn; eauto|]. cbn. apply IH. Qed.

(** the factors and the operators of a constructor call *)
Definition afactors (l : list (oarg A)) : list (pfun A) :=
  flat_map (fun a => match a with AFun p => [p] | ANum c => [PConst c] | AOp _ => [] end) l.
Definition aops (l : list (oarg A)) : list localop := flat_map (fun a => match a with AOp o => [o] | _ => [] end) l.

Definition build (fs : list (pfun A)) (ops : list localop) : ostring A :=
  (match fs with [] => None | f0 :: r => Some (fold_factors f0 (rev r)) end, ops).

Lemma OpStr_build l : OpStr l = to_opstr (build (afactors l) (aops l)).
Proof.
  unfold OpStr. fold (afactors l).
  assert (E : flat_map (fun a : oarg A => match a with AOp o => [@EOp A o] | _ => [] end) l = map (@EOp A) (aops l)).
  { induction l as [|a l IH]; [reflexivity|]. unfold aops in *. cbn. rewrite map_app, IH. destruct a; reflexivity. }
  rewrite E. destruct (afactors l); reflexivity.
Qed.

(** what a string stands for: [k] factors, value [v] at the arguments, TypeError for
    products of factors if there are arguments *)
Definition denotes (args : list A) (fst_ : option (pfun A)) (k : nat) (v : C) : Prop :=
  match fst_ with
  | None => k = 0 /\ v = C1
  | Some p => 0 < k /\ (args = [] \/ k = 1 -> call p args = Ok v) /\ (args <> [] -> 1 < k -> call p args = Err TypeError)
  end.

Lemma to_opstr_inj_args st : afactors (args_of (to_opstr st)) = (match fst st with Some p => [p] | None => [] end) /\ aops (args_of (@to_opstr A st)) = snd st.
Proof.
  destruct st as [[p|] ops]; unfold to_opstr, args_of, afactors, aops; cbn [fst snd map flat_map app];
  (split; [|]); induction ops as [|o ops IH]; cbn; try reflexivity; try (f_equal; assumption); try exact IH.
Qed.
Lemma afactors_app a b : afactors (a ++ b) = afactors a ++ afactors b.
Proof. apply flat_map_app. Qed.
Lemma aops_app a b : aops (a ++ b) = aops a ++ aops b.
Proof. apply flat_map_app. Qed.
Lemma args_of_app (a b : opstr A) : args_of (a ++ b) = args_of a ++ args_of b.
Proof. apply map_app. Qed.
Lemma args_of_ops ops : afactors (args_of (map (@EOp A) ops)) = [] /\ aops (args_of (map (@EOp A) ops)) = ops.
Proof. apply (to_opstr_inj_args (None, ops)). Qed.

(** one factor, or a product of two *)
Definition fac1 (args : list A) (p : pfun A) (k : nat) (v : C) : Prop := denotes args (Some p) k v.
Lemma fac_prod args p q kp kq vp vq : fac1 args p kp vp -> fac1 args q kq vq -> fac1 args (PProd p q) (kp + kq) (vp * vq)%C.
Proof.
  intros (Hp & Hp1 & Hp2) (Hq & Hq1 & Hq2). split; [lia|]. split.
  - intros [->|E]; [|lia]. cbn. rewrite Hp1, Hq1 by auto. reflexivity.
  - intros Hne _. destruct args; [congruence|reflexivity].
Qed.
Lemma fac_eq args p k v k' v' : fac1 args p k v -> k = k' -> v = v' -> fac1 args p k' v'.
Proof. now intros H -> ->. Qed.

(** values *)
Definition vdenotes (args : list A) (x : value A) (k : nat) (v : C) (ops : list localop) : Prop :=
  match x with
  | VNum c => k = 1 /\ v = c /\ ops = []
  | VFun p => k = 1 /\ call p args = Ok v /\ ops = []
  | VOp o => k = 0 /\ v = C1 /\ ops = [o]
  | VStr s => ops <> [] /\ exists po, s = to_opstr (po, ops) /\ denotes args po k v
  end.

Lemma str_rmul_den args p kp vp s k v ops : fac1 args p kp vp -> vdenotes args (VStr s) k v ops ->
  exists s', str_rmul p s = Ok s' /\ vdenotes args (VStr s') (kp + k) (vp * v)%C ops.
Proof.
  intros Hp (Hne & po & -> & Hd). destruct po as [q|].
  - unfold to_opstr. cbn [fst snd str_rmul]. eexists. split; [reflexivity|]. split; [assumption|].
    exists (Some (PProd p q)). split; [|apply fac_prod; assumption].
    rewrite OpStr_build. change (EFun (PProd p q) :: map EOp ops) with (to_opstr (Some (PProd p q), ops)).
    destruct (to_opstr_inj_args (Some (PProd p q), ops)) as [-> ->]. reflexivity.
  - destruct Hd as [-> ->]. destruct ops as [|o ops]; [congruence|]. unfold to_opstr. cbn [fst snd map str_rmul].
    eexists. split; [reflexivity|]. split; [assumption|]. exists (Some p). split.
    + rewrite OpStr_build. change (EFun p :: EOp o :: map EOp ops) with (to_opstr (Some p, o :: ops)).
      destruct (to_opstr_inj_args (Some p, o :: ops)) as [-> ->]. reflexivity.
    + eapply fac_eq; [exact Hp|lia|ring].
Qed.

Lemma str_str_den args s t k1 v1 o1 k2 v2 o2 : vdenotes args (VStr s) k1 v1 o1 ->
  (exists po, t = to_opstr (po, o2) /\ denotes args po k2 v2) -> (o2 = [] -> 0 < k2) ->
  exists s', str_mul s (VStr t) = Ok s' /\ vdenotes args (VStr s') (k2 + k1) (v2 * v1)%C (o1 ++ o2).
Proof.
  intros Hs (po & -> & Hd) Hk. unfold str_mul. destruct po as [q|].
  - unfold to_opstr at 1. cbn [fst snd]. destruct (str_rmul_den args q k2 v2 s k1 v1 o1 Hd Hs) as (s' & -> & Hs'). cbn [bind].
    eexists. split; [reflexivity|]. destruct Hs' as (Hne & po & -> & Hd'). split; [destruct o1; [congruence|discriminate]|].
    exists po. split; [|assumption]. rewrite OpStr_build, afactors_app, aops_app.
    destruct (to_opstr_inj_args (po, o1)) as [-> ->]. destruct (args_of_ops o2) as [-> ->]. cbn [fst snd].
    rewrite app_nil_r. unfold build. destruct po; reflexivity.
  - destruct Hd as [-> ->]. destruct o2 as [|o o2]; [specialize (Hk eq_refl); lia|]. unfold to_opstr at 1. cbn [fst snd map].
    eexists. split; [reflexivity|]. destruct Hs as (Hne & po & -> & Hd'). split; [destruct o1; [congruence|discriminate]|].
    exists po. split.
    + change (EOp o :: map EOp o2) with (map (@EOp A) (o :: o2)). rewrite OpStr_build, afactors_app, aops_app.
      destruct (to_opstr_inj_args (po, o1)) as [-> ->]. destruct (args_of_ops (o :: o2)) as [-> ->]. cbn [fst snd].
      rewrite app_nil_r. unfold build. destruct po; reflexivity.
    + destruct po; [eapply fac_eq; [exact Hd'|lia|ring]|]. destruct Hd' as [-> ->]. split; [lia|ring].
Qed.

Lemma const_fac args c : fac1 args (PConst c) 1 c.
Proof. split; [lia|]. split; [reflexivity|lia]. Qed.
Lemma fun_fac args p v : call p args = Ok v -> fac1 args p 1 v.
Proof. intros H. split; [lia|]. split; [auto|lia]. Qed.
Lemma op_den args o : vdenotes args (VStr (OpStr [AOp o])) 0 C1 [o].
Proof. split; [discriminate|]. exists None. split; [reflexivity|]. split; reflexivity. Qed.

Lemma vstr_eq args s k v ops k' v' : vdenotes args (VStr s) k v ops -> k = k' -> v = v' -> vdenotes args (VStr s) k' v' ops.
Proof. now intros H -> ->. Qed.

Lemma pymul_den args x y k1 v1 o1 k2 v2 o2 : vdenotes args x k1 v1 o1 -> vdenotes args y k2 v2 o2 -> o1 <> [] \/ o2 <> [] ->
  exists s, pymul x y = Ok (VStr s) /\ vdenotes args (VStr s) (k1 + k2) (v1 * v2)%C (o1 ++ o2).
Proof.
  intros Hx Hy Hne. destruct x as [a|p|o|s], y as [b|q|o'|t]; cbn [pymul].
  - destruct Hx as (_ & _ & ->), Hy as (_ & _ & ->). destruct Hne; congruence.
  - destruct Hx as (_ & _ & ->), Hy as (_ & _ & ->). destruct Hne; congruence.
  - destruct Hx as (-> & -> & ->), Hy as (-> & -> & ->).
    destruct (str_rmul_den args (PConst a) 1 a _ 0 C1 [o'] (const_fac args a) (op_den args o')) as (s & -> & H). cbn [bind]. eauto.
  - destruct Hx as (-> & -> & ->). destruct (str_rmul_den args (PConst a) 1 a _ _ _ _ (const_fac args a) Hy) as (s & -> & H). cbn [bind]. eauto.
  - destruct Hx as (_ & _ & ->), Hy as (_ & _ & ->). destruct Hne; congruence.
  - destruct Hx as (_ & _ & ->), Hy as (_ & _ & ->). destruct Hne; congruence.
  - destruct Hx as (-> & E & ->), Hy as (-> & -> & ->).
    destruct (str_rmul_den args p 1 v1 _ 0 C1 [o'] (fun_fac args p v1 E) (op_den args o')) as (s & -> & H). cbn [bind]. eauto.
  - destruct Hx as (-> & E & ->). destruct (str_rmul_den args p 1 v1 _ _ _ _ (fun_fac args p v1 E) Hy) as (s & -> & H). cbn [bind]. eauto.
  - destruct Hx as (-> & -> & ->), Hy as (-> & -> & ->). eexists. split; [reflexivity|]. split; [discriminate|].
    exists (Some (PConst b)). split; [reflexivity|]. eapply fac_eq; [apply const_fac|lia|ring].
  - destruct Hx as (-> & -> & ->), Hy as (-> & E & ->). eexists. split; [reflexivity|]. split; [discriminate|].
    exists (Some q). split; [reflexivity|]. eapply fac_eq; [apply fun_fac; exact E|lia|ring].
  - destruct Hx as (-> & -> & ->), Hy as (-> & -> & ->). eexists. split; [reflexivity|]. split; [discriminate|].
    exists None. split; [reflexivity|]. split; [reflexivity|ring].
  - destruct Hx as (-> & -> & ->). destruct Hy as (Hn & po & -> & Hd). eexists. split; [reflexivity|]. split; [discriminate|].
    exists po. split.
    + rewrite OpStr_build. change (AOp o :: args_of (to_opstr (po, o2))) with ([@AOp A o] ++ args_of (to_opstr (po, o2))).
      rewrite afactors_app, aops_app. destruct (to_opstr_inj_args (po, o2)) as [-> ->]. destruct po; reflexivity.
    + destruct po; [eapply fac_eq; [exact Hd|lia|ring]|]. destruct Hd as [-> ->]. split; [lia|ring].
  - destruct Hy as (-> & -> & ->).
    destruct (str_str_den args s (OpStr [ANum b]) k1 v1 o1 1 b [] Hx) as (s' & E & H).
    { exists (Some (PConst b)). split; [reflexivity|]. apply const_fac. } { lia. }
    unfold str_mul in *. rewrite E. cbn [bind]. eexists. split; [reflexivity|]. eapply vstr_eq; [exact H|lia|ring].
  - destruct Hy as (-> & Eq & ->).
    destruct (str_str_den args s (OpStr [AFun q]) k1 v1 o1 1 v2 [] Hx) as (s' & E & H).
    { exists (Some q). split; [reflexivity|]. apply fun_fac. exact Eq. } { lia. }
    unfold str_mul in *. rewrite E. cbn [bind]. eexists. split; [reflexivity|]. eapply vstr_eq; [exact H|lia|ring].
  - destruct Hy as (-> & -> & ->).
    destruct (str_str_den args s (OpStr [AOp o']) k1 v1 o1 0 C1 [o'] Hx) as (s' & E & H).
    { exists None. split; [reflexivity|]. split; reflexivity. } { discriminate. }
    unfold str_mul in *. rewrite E. cbn [bind]. eexists. split; [reflexivity|]. eapply vstr_eq; [exact H|lia|ring].
  - destruct Hy as (Hn & po & -> & Hd).
    destruct (str_str_den args s (to_opstr (po, o2)) k1 v1 o1 k2 v2 o2 Hx) as (s' & E & H).
    { exists po. auto. } { congruence. }
    rewrite E. cbn [bind]. eexists. split; [reflexivity|]. eapply vstr_eq; [exact H|lia|ring].
Qed.

(** expressions of numbers *)
Lemma numeric_eval e : numeric e = true -> exists c, eval e = Ok (@VNum A c) /\ (forall args : list A, coef args e = Ok c) /\ ops_of e = [] /\ factors e = 1.
Proof.
  induction e as [c|f|o|a IHa b IHb]; cbn; intros H; try discriminate; [exists c; auto|].
  apply andb_prop in H as [Ha Hb]. destruct (IHa Ha) as (x & -> & Ea & Oa & _). destruct (IHb Hb) as (y & -> & Eb & Ob & _).
  exists (x * y)%C. cbn [bind pymul]. split; [reflexivity|]. split; [|split].
  - intros args. rewrite Ea, Eb. reflexivity.
  - now rewrite Oa, Ob.
  - now rewrite Ha, Hb.
Qed.

Lemma eval_den args e : forall x c, eval e = Ok x -> coef args e = Ok c -> vdenotes args x (factors e) c (ops_of e).
Proof.
  induction e as [d|f|o|a IHa b IHb]; intros x c He Hc.
  - cbn in *. inversion He; inversion Hc; subst. cbn. auto.
  - cbn in *. inversion He; subst. cbn. auto.
  - cbn in *. inversion He; inversion Hc; subst. cbn. auto.
  - destruct (numeric a && numeric b) eqn:N.
    + destruct (numeric_eval (XMul a b)) as (d & E1 & E2 & E3 & E4); [exact N|]. rewrite E1 in He. rewrite E2 in Hc.
      inversion He; inversion Hc; subst. rewrite E3, E4. cbn. auto.
    + cbn [eval] in He. cbn [coef] in Hc. cbn [factors ops_of]. rewrite N.
      destruct (eval a) as [xa|] eqn:Ea; cbn in He; [|discriminate]. destruct (eval b) as [xb|] eqn:Eb; cbn in He; [|discriminate].
      destruct (coef args a) as [ca|] eqn:Ca; cbn in Hc; [|discriminate]. destruct (coef args b) as [cb|] eqn:Cb; cbn in Hc; [|discriminate].
      inversion Hc; subst c. specialize (IHa _ _ eq_refl eq_refl). specialize (IHb _ _ eq_refl eq_refl).
      destruct (ops_of a) as [|oa la] eqn:Oa.
      * destruct (ops_of b) as [|ob lb] eqn:Ob.
        -- exfalso. destruct xa as [?|?|?|?]; [| |destruct IHa as (_ & _ & ?); discriminate|destruct IHa as (? & _); congruence];
           (destruct xb as [?|?|?|?]; [| |destruct IHb as (_ & _ & ?); discriminate|destruct IHb as (? & _); congruence]);
           cbn in He; try discriminate.
           (* two numbers: both numeric *)
           clear -Ea Eb Oa Ob N.
           assert (G : forall e (z : C), eval e = Ok (@VNum A z) -> numeric e = true).
           { clear. induction e as [d|f|o|a IHa b IHb]; intros z H; cbn in *; try discriminate; [reflexivity|].
             destruct (eval a) as [xa|]; cbn in H; [|discriminate]. destruct (eval b) as [xb|]; cbn in H; [|discriminate].
             destruct xa, xb; cbn in H; try discriminate;
               try (match type of H with context [bind ?q _] => destruct q; cbn in H; discriminate end).
             rewrite (IHa _ eq_refl), (IHb _ eq_refl). reflexivity. }
           rewrite (G _ _ Ea), (G _ _ Eb) in N. discriminate.
        -- destruct (pymul_den args xa xb _ _ _ _ _ _ IHa IHb) as (s & E & H); [right; discriminate|].
           rewrite E in He. inversion He; subst. exact H.
      * destruct (pymul_den args xa xb _ _ _ _ _ _ IHa IHb) as (s & E & H); [left; discriminate|].
        rewrite E in He. inversion He; subst. exact H.
Qed.

Lemma well_typed_eval (e : expr A) : well_typed e -> exists x, eval e = Ok x /\ (ops_of e = [] -> (exists c, x = VNum c) \/ (exists p, x = VFun p))
   /\ (forall args c, coef args e = Ok c -> True) /\ (ops_of e <> [] -> (exists o, x = VOp o) \/ exists s, x = VStr s /\ s <> []).
Proof.
  induction e as [d|f|o|a IHa b IHb]; intros W.
  - eexists. split; [reflexivity|]. cbn. split; [eauto|]. split; [auto|congruence].
  - eexists. split; [reflexivity|]. cbn. split; [eauto|]. split; [auto|congruence].
  - eexists. split; [reflexivity|]. cbn. split; [discriminate|]. split; [auto|]. eauto.
  - destruct W as (Wa & Wb & W). destruct (numeric a && numeric b) eqn:N.
    + destruct (numeric_eval (XMul a b) N) as (d & E & _ & O & _). exists (VNum d). split; [exact E|]. split; [eauto|]. split; [auto|]. intros H. congruence.
    + destruct (IHa Wa) as (x & Ex & X1 & _ & X2). destruct (IHb Wb) as (y & Ey & Y1 & _ & Y2).
      cbn [eval ops_of]. rewrite Ex, Ey. cbn [bind].
      assert (Hne : ops_of a <> [] \/ ops_of b <> []) by (destruct W as [?|[?|[P Q]]]; auto; rewrite P, Q in N; discriminate).
      assert (NE : forall fs ops, fs <> [] \/ ops <> [] -> to_opstr (build fs ops) <> []).
      { intros fs ops [H|H]; unfold to_opstr, build; cbn; destruct fs; try congruence; try discriminate. destruct ops; [congruence|discriminate]. }
      assert (ON : forall l : list (oarg A), l <> [] -> OpStr l <> []).
      { intros l Hl. rewrite OpStr_build. apply NE. destruct l as [|[o|p|c] l]; [congruence| | |]; [right|left|left]; discriminate. }
      assert (RM : forall p s, s <> [] -> exists s', str_rmul p s = Ok s' /\ True /\ s' <> (@nil (elem A))).
      { intros p s Hs. destruct s as [|[q|o] r]; [congruence| |]; cbn [str_rmul]; eexists; (split; [reflexivity|]); (split; [exact I|]);
        apply ON; discriminate. }
      assert (MM : forall s t, s <> [] -> t <> [] -> exists s', str_mul s (@VStr A t) = Ok s' /\ s' <> []).
      { intros s t Hs Ht. unfold str_mul. destruct t as [|[q|o] r]; [congruence| |].
        - destruct (RM q s Hs) as (s' & -> & _ & Hs'). cbn [bind]. eexists. split; [reflexivity|]. apply ON. destruct s'; [congruence|discriminate].
        - eexists. split; [reflexivity|]. apply ON. destruct s; [congruence|discriminate]. }
      assert (F : exists s, pymul x y = Ok (VStr s) /\ s <> []).
      { assert (Hx : (exists o, x = VOp o) \/ (exists s, x = VStr s /\ s <> []) \/ ((exists c, x = VNum c) \/ exists p, x = VFun p)).
        { destruct (ops_of a); [right; right; auto|destruct X2 as [?|?]; [discriminate|auto|auto]]. }
        assert (Hy : (exists o, y = VOp o) \/ (exists s, y = VStr s /\ s <> []) \/ ((exists c, y = VNum c) \/ exists p, y = VFun p)).
        { destruct (ops_of b); [right; right; auto|destruct Y2 as [?|?]; [discriminate|auto|auto]]. }
        assert (Hxy : (exists o, x = VOp o) \/ (exists s, x = VStr s /\ s <> []) \/ (exists o, y = VOp o) \/ (exists s, y = VStr s /\ s <> [])).
        { destruct Hne as [H|H]; [destruct (X2 H)|destruct (Y2 H)]; auto. }
        destruct Hx as [(ox & ->)|[(sx & -> & Nx)|[(cx & ->)|(px & ->)]]];
        destruct Hy as [(oy & ->)|[(sy & -> & Ny)|[(cy & ->)|(py & ->)]]]; cbn [pymul].
        all: try (eexists; split; [reflexivity|apply ON; discriminate]).
        all: try (destruct (RM (PConst cx) sy Ny) as (s' & -> & _ & Hs'); cbn [bind]; eauto; fail).
        all: try (destruct (RM px sy Ny) as (s' & -> & _ & Hs'); cbn [bind]; eauto; fail).
        all: try (destruct (RM (PConst cx) (OpStr [AOp oy])) as (s' & -> & _ & Hs'); [discriminate|cbn [bind]; eauto; fail]).
        all: try (destruct (RM px (OpStr [AOp oy])) as (s' & -> & _ & Hs'); [discriminate|cbn [bind]; eauto; fail]).
        - destruct (MM sx (OpStr [AOp oy])) as (s' & E & Hs'); [assumption|discriminate|]. unfold str_mul in *. rewrite E. cbn [bind]. eauto.
        - destruct (MM sx sy) as (s' & E & Hs'); [assumption|assumption|]. rewrite E. cbn [bind]. eauto.
        - destruct (MM sx (OpStr [ANum cy])) as (s' & E & Hs'); [assumption|discriminate|]. unfold str_mul in *. rewrite E. cbn [bind]. eauto.
        - destruct (MM sx (OpStr [AFun py])) as (s' & E & Hs'); [assumption|discriminate|]. unfold str_mul in *. rewrite E. cbn [bind]. eauto.
        - exfalso. destruct Hxy as [[? ?]|[[? [? ?]]|[[? ?]|[? [? ?]]]]]; discriminate.
        - exfalso. destruct Hxy as [[? ?]|[[? [? ?]]|[[? ?]|[? [? ?]]]]]; discriminate.
        - exfalso. destruct Hxy as [[? ?]|[[? [? ?]]|[[? ?]|[? [? ?]]]]]; discriminate.
        - exfalso. destruct Hxy as [[? ?]|[[? [? ?]]|[[? ?]|[? [? ?]]]]]; discriminate. }
      destruct F as (s & -> & Ns). exists (VStr s). split; [reflexivity|]. split; [|split; [auto|right; eauto]].
      intros H. apply app_eq_nil in H as [H1 H2]. destruct Hne; congruence.
Qed.
End Str.
