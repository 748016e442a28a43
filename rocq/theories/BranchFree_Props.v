(** Properties C11-C14 and C18-C20 (/repo/jVMC/operator/branch_free.py). *)
From Coq Require Import ZArith List Reals Lra Lia Bool Arith Sorted.
From Verif Require Import Base Cplx Mpi_Model BranchFree_Model BranchFree_Spec BranchFree_Proofs BranchFree2_Proofs BranchFree3_Proofs.
Import ListNotations.

(** ** C11: the list of (s', matrix element) represents the sum of the strings *)
Theorem C11_action {A} lDim n (sts : list (ostring A)) args vals s :
  Forall (wf_string lDim n) sts -> wf_config lDim n s -> Forall2 (prefactor_is args) sts vals ->
  exists els, operator_elements lDim n (map to_opstr sts) args s = Ok els
    /\ length els = length sts
    /\ Forall (fun sm => wf_config lDim n (fst sm)) els
    /\ forall f, contract els f
       = csum (map (fun sv => (snd sv * snd (act (snd (fst sv)) s) * f (fst (act (snd (fst sv)) s)))%C) (combine sts vals)).
Proof. intros H1 H2 H3. apply operator_elements_ok; auto. apply Forall_forall. intros; now left. Qed.
Print Assumptions C11_action.

(** 2 Sx_0 Sy_1, Sz_0, Sz_1 Sz_2 (two diagonal strings, padding) on three sites *)
Definition ex_strings : list (ostring unit) :=
  [(Some (PConst (C1 + C1)%C), [Sx 0; Sy 1]); (None, [Sz 0]); (None, [Sz 1; Sz 2])].
Example C11_hypotheses :
  Forall (wf_string 2 3) ex_strings /\ wf_config 2 3 [0; 1; 0] /\ Forall2 (prefactor_is []) ex_strings [(C1 + C1)%C; C1; C1].
Proof.
  split; [|split].
  - assert (W : forall o i, i < 3 -> wf_op 2 3 (op_of o i)) by (intros; apply wf_2; assumption).
    pose proof (W NX 0 ltac:(lia)). pose proof (W NY 1 ltac:(lia)). pose proof (W NZ 0 ltac:(lia)). pose proof (W NZ 1 ltac:(lia)). pose proof (W NZ 2 ltac:(lia)).
    unfold ex_strings. repeat (constructor; [split; [repeat (constructor; [assumption|]); constructor|discriminate]|]). constructor.
  - repeat split; cbn; try lia.
  - repeat constructor.
Qed.
Example C11_example : exists els, operator_elements 2 3 (map to_opstr ex_strings) [] [0; 1; 0] = Ok els
  /\ map fst els = [[1; 0; 0]; [0; 1; 0]; [0; 1; 0]]
  /\ contract els (fun s => if list_eq_dec Nat.eq_dec s [0; 1; 0] then C1 else C0) = (- (C1 + C1))%C.
Proof.
  destruct (C11_action 2 3 ex_strings [] [(C1 + C1)%C; C1; C1] [0; 1; 0]) as (els & E & _ & _ & F); try apply C11_hypotheses.
  exists els. split; [exact E|]. split.
  - cbn in E. inversion E. reflexivity.
  - rewrite F. cbn. Cunf. apply C_eq; cbn; lra.
Qed.

(** ** C12: the documented convention <s|O|s'> *)
(** It holds for strings of Id, Sx, Sy, Sz on pairwise different sites; missing:
    products on the same site, Sp and Sm, where it fails (below). *)
Theorem C12_convention_partial n (l : list (opname * nat)) s :
  NoDup (map snd l) -> l <> [] -> Forall (fun oi => snd oi < n /\ fst oi <> NP /\ fst oi <> NM) l -> wf_config 2 n s ->
  exists els, operator_elements 2 n [to_opstr (@None (pfun unit), map (fun oi => op_of (fst oi) (snd oi)) l)] [] s = Ok els
    /\ forall psi, contract els psi = product_op l psi s.
Proof.
  intros HN Hne HF Hs. set (st := (@None (pfun unit), map (fun oi => op_of (fst oi) (snd oi)) l)).
  destruct (C11_action 2 n [st] [] [C1] s) as (els & E & _ & _ & F).
  - constructor; [|constructor]. split; [|intros _; unfold st; cbn; destruct l; [congruence|discriminate]].
    unfold st; cbn. apply Forall_map. eapply Forall_impl; [|exact HF]. intros [o i] [Hi _]. apply wf_2. exact Hi.
  - exact Hs.
  - constructor; [reflexivity|constructor].
  - exists els. split; [exact E|]. intros psi. rewrite F. rewrite (product_op_act n l psi s Hs HN HF).
    cbn [combine map fst snd st]. rewrite csum_cons, csum_nil. ring.
Qed.
Print Assumptions C12_convention_partial.
Example C12_partial_example : NoDup (map snd [(NX, 0); (NY, 2)]) /\ Forall (fun oi => snd oi < 3 /\ fst oi <> NP /\ fst oi <> NM) [(NX, 0); (NY, 2)]
  /\ wf_config 2 3 [0; 1; 1].
Proof.
  split; [repeat constructor; cbn; intuition discriminate|]. split; [repeat constructor; cbn; try lia; discriminate|].
  repeat split; cbn; try lia.
Qed.

(** What holds for every operator: the elements are those of O|s>, that is <s'|O|s>,
    with products in the written order. *)
Theorem C12_ket_partial {A} lDim n (sts : list (ostring A)) args vals s t :
  Forall (wf_string lDim n) sts -> wf_config lDim n s -> wf_config lDim n t -> Forall2 (prefactor_is args) sts vals ->
  exists els, operator_elements lDim n (map to_opstr sts) args s = Ok els
    /\ contract els (fun s' => delta s' t) = csum (map (fun sv => (snd sv * ket_ops lDim (snd (fst sv)) (delta s) t)%C) (combine sts vals)).
Proof.
  intros H1 H2 H3 H4. destruct (C11_action lDim n sts args vals s H1 H2 H4) as (els & E & _ & _ & F).
  exists els. split; [exact E|]. rewrite F. apply csum_ext. intros [st v] Hin. cbn [fst snd].
  rewrite (ket_act lDim n); [ring| |assumption|assumption].
  apply in_combine_l in Hin. rewrite Forall_forall in H1. apply (H1 _ Hin).
Qed.
Print Assumptions C12_ket_partial.
(** the hypotheses are those of C11_action *)
Example C12_ket_hypotheses : Forall (wf_string 2 3) ex_strings /\ wf_config 2 3 [0; 1; 0] /\ wf_config 2 3 [1; 0; 0].
Proof. destruct C11_hypotheses as (H1 & H2 & _). repeat split; try assumption; try apply H2; cbn; try lia. Qed.

(** S+ on one site: the element returned for (s, s') = (0, 1) is 1 but <0|S+|1> = 0. *)
Theorem C12_convention_refuted : exists n l s psi els, wf_config 2 n s
  /\ operator_elements 2 n [to_opstr (@None (pfun unit), map (fun oi => op_of (fst oi) (snd oi)) l)] [] s = Ok els
  /\ contract els psi <> product_op l psi s.
Proof.
  exists 1, [(NP, 0)], [0], (delta [1]). assert (W : wf_config 2 1 [0]) by (repeat split; cbn; try lia).
  destruct (C11_action 2 1 [(@None (pfun unit), [Sp 0])] [] [C1] [0]) as (els & E & _ & _ & F).
  - constructor; [|constructor]. split; [|discriminate]. constructor; [|constructor]. apply (wf_2 1 0 NP). lia.
  - exact W.
  - constructor; [reflexivity|constructor].
  - exists els. split; [exact W|]. split; [exact E|]. rewrite F. cbn. intros H. apply (f_equal fst) in H. cbn in H. lra.
Qed.
Print Assumptions C12_convention_refuted.
(** Also the order of products: for Sx_0 Sy_0 the element for (0, 0) is that of Sy_0 Sx_0. *)
Theorem C12_order_refuted : exists n l s psi els, wf_config 2 n s
  /\ Forall (fun oi => fst oi <> NP /\ fst oi <> NM) l
  /\ operator_elements 2 n [to_opstr (@None (pfun unit), map (fun oi => op_of (fst oi) (snd oi)) l)] [] s = Ok els
  /\ contract els psi <> product_op l psi s /\ contract els psi = product_op (rev l) psi s.
Proof.
  exists 1, [(NX, 0); (NY, 0)], [0], (delta [0]). assert (W : wf_config 2 1 [0]) by (repeat split; cbn; try lia).
  destruct (C11_action 2 1 [(@None (pfun unit), [Sx 0; Sy 0])] [] [C1] [0]) as (els & E & _ & _ & F).
  - constructor; [|constructor]. split; [|discriminate]. constructor; [apply (wf_2 1 0 NX); lia|constructor; [|constructor]]. apply (wf_2 1 0 NY). lia.
  - exact W.
  - constructor; [reflexivity|constructor].
  - exists els. split; [exact W|]. split; [repeat constructor; discriminate|]. split; [exact E|]. rewrite F. split.
    + cbn. intros H. apply (f_equal snd) in H. cbn in H. lra.
    + cbn. apply C_eq; cbn; lra.
Qed.
Print Assumptions C12_order_refuted.

(** ** C13: spin algebra.  Strings of the code: a number times local operators. *)
Definition str (c : C) (ops : list localop) : ostring unit := (Some (PConst c), ops).
Definition op (l : list (ostring unit)) : list (opstr unit) := map to_opstr l.
Definition half : C := RtoC (/ 2).

Ltac spin :=
  match goal with |- same_operator 2 ?n (op ?la) (op ?lb) =>
    let pa := constr:(map (fun st : ostring unit => (st, match fst st with Some (PConst c) => c | _ => C1 end)) la) in
    let pb := constr:(map (fun st : ostring unit => (st, match fst st with Some (PConst c) => c | _ => C1 end)) lb) in
    apply (same_operator_intro n pa pb)
  end.
Ltac spin_wf := cbn [map fst snd str]; repeat (constructor; [split; [split; [repeat (constructor; [first [apply (wf_2 _ _ NId) | apply (wf_2 _ _ NX) | apply (wf_2 _ _ NY) | apply (wf_2 _ _ NZ) | apply (wf_2 _ _ NP) | apply (wf_2 _ _ NM)]; lia|]); constructor|discriminate]|reflexivity]|]); constructor.

(** action of one or two operators on the same site *)
Lemma spin1 n o i s : i < n -> wf_config 2 n s -> act [op_of o i] s =
  (put i (nth (nth i s 0) (lo_map (op_of o i)) 0) s, nth (nth i s 0) (lo_els (op_of o i)) C0).
Proof. intros Hi Hs. rewrite act_1. destruct o; unfold act1; cbn [op_of lo_idx lo_fermi Sx Sy Sz Sp Sm Id fst snd]; f_equal; ring. Qed.
Lemma spin2 n o p i s : i < n -> wf_config 2 n s -> act [op_of o i; op_of p i] s =
  let x := nth i s 0 in let y := nth x (lo_map (op_of p i)) 0 in
  (put i (nth y (lo_map (op_of o i)) 0) s, (nth y (lo_els (op_of o i)) C0 * nth x (lo_els (op_of p i)) C0)%C).
Proof.
  intros Hi Hs. assert (L : length s = n) by apply Hs. rewrite act_2. cbv zeta.
  assert (I : forall o, lo_idx (op_of o i) = i) by (intros []; reflexivity). assert (Fm : forall o, lo_fermi (op_of o i) = false) by (intros []; reflexivity).
  unfold act1. rewrite !I, !Fm. cbn [fst snd]. rewrite nth_put_same by lia. rewrite put_put_same by lia. f_equal. ring.
Qed.
Ltac spin_eval n i Hi := intros f s Hs; unfold total; cbn [map fst snd str];
  change (Sx i) with (op_of NX i); change (Sy i) with (op_of NY i); change (Sz i) with (op_of NZ i); change (Id i 2) with (op_of NId i);
  change (Sp i) with (op_of NP i); change (Sm i) with (op_of NM i);
  rewrite ?(spin1 n _ i s Hi Hs), ?(spin2 n _ _ i s Hi Hs); cbn [fst snd];
  destruct (bit n s i Hs Hi) as [B|B]; rewrite !B; cbn [op_of lo_map lo_els Sx Sy Sz Sp Sm Id nth seq map];
  rewrite ?(put_self n s i _ Hs Hi B); repeat rewrite csum_cons; rewrite csum_nil;
  repeat match goal with |- context [f ?x] => generalize (f x); intro end; Cdestr; Cunf; unfold half; apply C_eq; cbn; try lra.

(** Squares, the products and the ladder operators with the opposite sign of i. *)
Theorem C13_algebra_partial n i : i < n ->
  same_operator 2 n (op [str C1 [Sx i; Sx i]]) (op [str C1 [Id i 2]])
  /\ same_operator 2 n (op [str C1 [Sy i; Sy i]]) (op [str C1 [Id i 2]])
  /\ same_operator 2 n (op [str C1 [Sz i; Sz i]]) (op [str C1 [Id i 2]])
  /\ same_operator 2 n (op [str C1 [Sx i; Sy i]]) (op [str (- Ci)%C [Sz i]])
  /\ same_operator 2 n (op [str C1 [Sy i; Sz i]]) (op [str (- Ci)%C [Sx i]])
  /\ same_operator 2 n (op [str C1 [Sz i; Sx i]]) (op [str (- Ci)%C [Sy i]])
  /\ same_operator 2 n (op [str C1 [Sy i; Sx i]]) (op [str Ci [Sz i]])
  /\ same_operator 2 n (op [str C1 [Sp i]]) (op [str half [Sx i]; str (- Ci * half)%C [Sy i]])
  /\ same_operator 2 n (op [str C1 [Sm i]]) (op [str half [Sx i]; str (Ci * half)%C [Sy i]]).
Proof.
  intros Hi. repeat apply conj; (spin; [spin_wf|spin_wf|]); spin_eval n i Hi.
Qed.
Print Assumptions C13_algebra_partial.
Example C13_example : 1 < 3 /\ wf_config 2 3 [0; 1; 1]. Proof. repeat split; cbn; lia. Qed.

(** operators on different sites commute *)
Theorem C13_commute n i j o p : i < n -> j < n -> i <> j ->
  same_operator 2 n (op [str C1 [op_of o i; op_of p j]]) (op [str C1 [op_of p j; op_of o i]]).
Proof.
  intros Hi Hj Hne. apply (same_operator_intro n [(str C1 [op_of o i; op_of p j], C1)] [(str C1 [op_of p j; op_of o i], C1)]).
  - constructor; [split; [split; [constructor; [apply wf_2; lia|constructor; [apply wf_2; lia|constructor]]|discriminate]|reflexivity]|constructor].
  - constructor; [split; [split; [constructor; [apply wf_2; lia|constructor; [apply wf_2; lia|constructor]]|discriminate]|reflexivity]|constructor].
  - intros f s Hs. assert (L : length s = n) by apply Hs. unfold total. cbn [map fst snd str]. rewrite !act_2.
    assert (I : forall o i, lo_idx (op_of o i) = i) by (intros [] ?; reflexivity). assert (Fm : forall o i, lo_fermi (op_of o i) = false) by (intros [] ?; reflexivity).
    unfold act1. rewrite !I, !Fm. cbn [fst snd]. rewrite !nth_put_other by lia. rewrite (put_put_comm i j) by lia.
    repeat rewrite csum_cons. rewrite csum_nil. ring.
Qed.
Print Assumptions C13_commute.
Example C13_commute_example : 0 < 3 /\ 2 < 3 /\ 0 <> 2. Proof. lia. Qed.

(** The algebra with the usual sign fails: Sx Sy = i Sz and Sp = (Sx + i Sy)/2 are false
    of the code's operators (they act with the opposite sign of Sy). *)
Theorem C13_algebra_refuted :
  ~ same_operator 2 1 (op [str C1 [Sx 0; Sy 0]]) (op [str Ci [Sz 0]])
  /\ ~ same_operator 2 1 (op [str C1 [Sp 0]]) (op [str half [Sx 0]; str (Ci * half)%C [Sy 0]]).
Proof.
  assert (W : wf_config 2 1 [0]) by (repeat split; cbn; try lia).
  assert (U : forall la lb (va vb : list C), Forall (wf_string 2 1) la -> Forall (wf_string 2 1) lb -> Forall2 (prefactor_is []) la va -> Forall2 (prefactor_is []) lb vb ->
     same_operator 2 1 (op la) (op lb) -> forall f, 
     csum (map (fun sv => (snd sv * snd (act (snd (fst sv)) [0]) * f (fst (act (snd (fst sv)) [0])))%C) (combine la va))
     = csum (map (fun sv => (snd sv * snd (act (snd (fst sv)) [0]) * f (fst (act (snd (fst sv)) [0])))%C) (combine lb vb))).
  { intros la lb va vb Wa Wb Pa Pb H f. destruct (H [0] W) as (ea & eb & Ea & Eb & E).
    destruct (C11_action 2 1 la [] va [0] Wa W Pa) as (ea' & Ea' & _ & _ & Fa). destruct (C11_action 2 1 lb [] vb [0] Wb W Pb) as (eb' & Eb' & _ & _ & Fb).
    unfold op in *. rewrite Ea in Ea'. rewrite Eb in Eb'. inversion Ea'; inversion Eb'; subst. rewrite <- Fa, <- Fb. apply E. }
  assert (WS : forall c ops, Forall (wf_op 2 1) ops -> wf_string 2 1 (str c ops)) by (intros; split; [assumption|discriminate]).
  assert (WO : forall o, wf_op 2 1 (op_of o 0)) by (intros; apply wf_2; lia).
  split; intros H.
  - eapply (U _ _ [C1] [Ci]) with (f := fun _ => C1) in H.
    + cbn in H. apply (f_equal snd) in H. cbn in H. lra.
    + constructor; [|constructor]. apply WS. constructor; [apply (WO NX)|constructor; [apply (WO NY)|constructor]].
    + constructor; [|constructor]. apply WS. constructor; [apply (WO NZ)|constructor].
    + repeat constructor.
    + repeat constructor.
  - eapply (U _ _ [C1] [half; (Ci * half)%C]) with (f := fun _ => C1) in H.
    + cbn in H. apply (f_equal fst) in H. cbn in H. unfold Rdiv in H. lra.
    + constructor; [|constructor]. apply WS. constructor; [apply (WO NP)|constructor].
    + constructor; [apply WS; constructor; [apply (WO NX)|constructor]|constructor; [|constructor]]. apply WS. constructor; [apply (WO NY)|constructor].
    + repeat constructor.
    + repeat constructor.
Qed.
Print Assumptions C13_algebra_refuted.

(** ** C14: canonical anticommutation relations *)
Lemma wf_fermi n i : i < n -> wf_op 2 n (creation i) /\ wf_op 2 n (annihilation i) /\ wf_op 2 n (number i) /\ wf_op 2 n (Id i 2).
Proof. intros H. repeat split; cbn; intuition (try lia; try discriminate). Qed.
Lemma str_ok_intro n c ops : Forall (wf_op 2 n) ops -> str_ok 2 n (str c ops) c.
Proof. intros H. split; [split; [exact H|discriminate]|reflexivity]. Qed.

Lemma anti n a b : flipper a -> flipper b -> wf_op 2 n a -> wf_op 2 n b -> lo_idx a <> lo_idx b ->
  is_zero_operator 2 n (op [str C1 [a; b]; str C1 [b; a]]).
Proof.
  intros Fa Fb Wa Wb Hne. apply (zero_operator_intro n [(str C1 [a; b], C1); (str C1 [b; a], C1)]).
  - constructor; [apply str_ok_intro; auto|constructor; [apply str_ok_intro; auto|constructor]].
  - intros f s Hs. unfold total. cbn [map fst snd str].
    destruct (flippers_anticommute n a b s Fa Fb Hs Hne (proj1 Wa) (proj1 Wb)) as [E1 E2]. rewrite E1, E2. repeat rewrite csum_cons. rewrite csum_nil. ring.
Qed.

Theorem C14_car n i j : i < n -> j < n ->
  (if i =? j
   then same_operator 2 n (op [str C1 [annihilation i; creation j]; str C1 [creation j; annihilation i]]) (op [str C1 [Id i 2]])
   else is_zero_operator 2 n (op [str C1 [annihilation i; creation j]; str C1 [creation j; annihilation i]]))
  /\ is_zero_operator 2 n (op [str C1 [annihilation i; annihilation j]; str C1 [annihilation j; annihilation i]])
  /\ is_zero_operator 2 n (op [str C1 [creation i; creation j]; str C1 [creation j; creation i]])
  /\ same_operator 2 n (op [str C1 [number i]]) (op [str C1 [creation i; annihilation i]]).
Proof.
  intros Hi Hj. destruct (wf_fermi n i Hi) as (Ci1 & Ai & Ni & Ii). destruct (wf_fermi n j Hj) as (Cj & Aj & Nj & Ij).
  assert (FC : forall i, flipper (creation i)) by (split; reflexivity). assert (FA : forall i, flipper (annihilation i)) by (split; reflexivity).
  assert (I1 : forall i s, i < n -> wf_config 2 n s -> act [Id i 2] s = (s, C1)).
  { intros k s Hk Hs. rewrite act_1, (act1_Id 2 n k s Hk Hs). cbn [fst snd]. f_equal. ring. }
  assert (SS : forall a b s, flipper a -> flipper b -> wf_config 2 n s -> lo_idx a = lo_idx b -> lo_idx a < n ->
     act [a; b] s = (s, (nth (1 - nth (lo_idx a) s 0) (lo_els a) C0 * nth (nth (lo_idx a) s 0) (lo_els b) C0)%C)) by (intros; apply (flippers_same_site n); assumption).
  assert (Z0 : forall a b, flipper a -> flipper b -> wf_op 2 n a -> wf_op 2 n b -> lo_idx a = lo_idx b -> lo_els a = lo_els b ->
      (nth 0 (lo_els a) C0 * nth 1 (lo_els a) C0)%C = C0 -> is_zero_operator 2 n (op [str C1 [a; b]; str C1 [b; a]])).
  { intros a b Fa Fb Wa Wb E El Z. apply (zero_operator_intro n [(str C1 [a; b], C1); (str C1 [b; a], C1)]).
    - constructor; [apply str_ok_intro; auto|constructor; [apply str_ok_intro; auto|constructor]].
    - intros f s Hs. unfold total. cbn [map fst snd str]. rewrite (SS a b), (SS b a) by (auto; apply Wa || apply Wb). cbn [fst snd]. rewrite <- E, <- El.
      repeat rewrite csum_cons. rewrite csum_nil.
      destruct (bit n s (lo_idx a) Hs (proj1 Wa)) as [B|B]; rewrite B; cbn [Nat.sub].
      + transitivity ((nth 0 (lo_els a) C0 * nth 1 (lo_els a) C0) * (f s + f s))%C; [ring|]. rewrite Z. ring.
      + transitivity ((nth 0 (lo_els a) C0 * nth 1 (lo_els a) C0) * (f s + f s))%C; [ring|]. rewrite Z. ring. }
  split; [|split; [|split]].
  - destruct (Nat.eqb_spec i j) as [<-|Hne]; [|apply anti; cbn; auto].
    apply (same_operator_intro n [(str C1 [annihilation i; creation i], C1); (str C1 [creation i; annihilation i], C1)] [(str C1 [Id i 2], C1)]).
    + constructor; [apply str_ok_intro; auto|constructor; [apply str_ok_intro; auto|constructor]].
    + constructor; [apply str_ok_intro; auto|constructor].
    + intros f s Hs. unfold total. cbn [map fst snd str]. rewrite I1 by assumption. rewrite !SS by (auto || exact Hi).
      cbn [fst snd]. cbn [lo_idx annihilation creation lo_els]. repeat rewrite csum_cons. rewrite csum_nil.
      destruct (bit n s i Hs Hi) as [B|B]; rewrite B; cbn [Nat.sub nth]; ring.
  - destruct (Nat.eq_dec i j) as [<-|Hne]; [apply Z0; auto; cbn; ring|apply anti; cbn; auto].
  - destruct (Nat.eq_dec i j) as [<-|Hne]; [apply Z0; auto; cbn; ring|apply anti; cbn; auto].
  - apply (same_operator_intro n [(str C1 [number i], C1)] [(str C1 [creation i; annihilation i], C1)]).
    + constructor; [apply str_ok_intro; auto|constructor].
    + constructor; [apply str_ok_intro; auto|constructor].
    + intros f s Hs. unfold total. cbn [map fst snd str]. rewrite SS by (auto || exact Hi). rewrite act_1. unfold act1.
      cbn [fst snd lo_idx number creation annihilation lo_map lo_els lo_fermi]. repeat rewrite csum_cons. rewrite csum_nil.
      destruct (bit n s i Hs Hi) as [B|B]; rewrite B; cbn [Nat.sub nth]; rewrite (put_self n s i _ Hs Hi B); ring.
Qed.
Print Assumptions C14_car.
Example C14_example : 0 < 3 /\ 2 < 3 /\ wf_config 2 3 [1; 1; 0]. Proof. repeat split; cbn; lia. Qed.

(** ** C18: expressions built with * *)
(** The operators always appear in the written order.  The prefactor is the product
    of the factors if the string is evaluated without arguments or has at most one
    factor.  Missing: two or more factors with arguments; there the call of the
    prefactor raises TypeError for every expression. *)
Theorem C18_arithmetic_partial {A} (e : expr A) (args : list A) (s : opstr A) (c : C) :
  eval e = Ok (VStr s) -> coef args e = Ok c ->
  exists po, s = to_opstr (po, ops_of e)
    /\ (args = [] \/ factors e <= 1 -> prefactor_is args (po, ops_of e) c)
    /\ (args <> [] -> 1 < factors e -> exists p, po = Some p /\ call p args = Err TypeError).
Proof.
  intros He Hc. destruct (eval_den args e _ c He Hc) as (Hne & po & -> & Hd). exists po. split; [reflexivity|].
  unfold prefactor_is. cbn [fst]. destruct po as [p|].
  - destruct Hd as (Hk & H1 & H2). split; [|eauto]. intros [->|H]; apply H1; [auto|right; lia].
  - destruct Hd as [Hk ->]. split; [reflexivity|]. intros; lia.
Qed.
Print Assumptions C18_arithmetic_partial.
(** every well-typed expression with an operator evaluates to an operator or a string *)
Theorem C18_evaluates {A} (e : expr A) : well_typed e -> ops_of e <> [] -> (exists o, eval e = Ok (VOp o)) \/ exists s, eval e = Ok (VStr s).
Proof.
  intros W H. destruct (well_typed_eval e W) as (x & E & _ & _ & F). destruct (F H) as [(o & ->)|(s & -> & _)]; eauto.
Qed.
Print Assumptions C18_evaluates.

(** The constructor OpStr(...) itself, with factors at any positions.  Missing: as above. *)
Theorem C18_constructor_partial {A} (args : list A) (l : list (oarg A)) vals ops : factor_values args l vals ops ->
  exists po, OpStr l = to_opstr (po, ops)
    /\ (args = [] \/ length vals <= 1 -> prefactor_is args (po, ops) (big C1 Cmul vals))
    /\ (args <> [] -> 1 < length vals -> exists p, po = Some p /\ call p args = Err TypeError).
Proof.
  intros H. assert (HF : Forall2 (fun p v => call p args = Ok v) (afactors l) vals /\ aops l = ops).
  { induction H as [|c l vs ops H [IH1 IH2]|p v l vs ops Hp H [IH1 IH2]|o l vs ops H [IH1 IH2]]; unfold afactors, aops in *; cbn [flat_map app].
    - split; [constructor|reflexivity].
    - split; [constructor; [reflexivity|assumption]|assumption].
    - split; [constructor; assumption|assumption].
    - split; [assumption|now rewrite IH2]. }
  destruct HF as [HF HO]. rewrite OpStr_build, HO. unfold build. clear HO H. exists (match afactors l with [] => None | f0 :: r => Some (fold_factors f0 (rev r)) end). split; [reflexivity|].
  destruct HF as [|p v fs vs Hp HF]; [split; [reflexivity|cbn; lia]|]. unfold prefactor_is. cbn [fst length]. split.
  - intros [->|HL].
    + rewrite (fold_factors_call p (rev fs) v (rev vs)) by (assumption || now apply Forall2_rev). now rewrite cprod_rev.
    + destruct HF; [|cbn in HL; lia]. cbn. rewrite Hp. f_equal. ring.
  - intros Ha HL. eexists. split; [reflexivity|]. destruct HF as [|q w fs vs Hq HF]; [cbn in HL; lia|].
    assert (N : rev (q :: fs) <> []) by (cbn; now destruct (rev fs)). destruct (rev (q :: fs)) as [|x r]; [contradiction|].
    destruct (fold_factors_prod p x r) as (a & b & ->). cbn. now destruct args.
Qed.
Print Assumptions C18_constructor_partial.
Example C18_constructor_example : factor_values (@nil R) [ANum Ci; AOp (Sx 0); AFun (PUser (fun _ => Ok (RtoC 2))); ANum (RtoC 3); AOp (Sz 1)] [Ci; RtoC 2; RtoC 3] [Sx 0; Sz 1].
Proof. repeat constructor. Qed.

(** (2 * 3) * Sx_0 * Sz_1 and f * Sx_0 with a time argument; 2 * (3 * Sx_0) * Sz_1 without *)
Definition ex_f : list R -> result C := fun a => match a with t :: _ => Ok (RtoC t) | [] => Err TypeError end.
Example C18_example :
  (exists s, eval (XMul (XMul (XMul (XNum C1) (XNum Ci)) (XOp (Sx 0))) (XOp (Sz 1))) = Ok (@VStr R s) /\
     factors (@XMul R (XMul (XMul (XNum C1) (XNum Ci)) (XOp (Sx 0))) (XOp (Sz 1))) = 1)
  /\ (exists s, eval (XMul (XFun ex_f) (XOp (Sx 0))) = Ok (VStr s) /\ coef [2%R] (XMul (XFun ex_f) (XOp (Sx 0))) = Ok (RtoC 2 * C1)%C)
  /\ (exists s, eval (XMul (XMul (XNum Ci) (XMul (XNum Ci) (XOp (Sx 0)))) (XOp (Sz 1))) = Ok (@VStr R s)
        /\ ops_of (@XMul R (XMul (XNum Ci) (XMul (XNum Ci) (XOp (Sx 0)))) (XOp (Sz 1))) = [Sx 0; Sz 1]).
Proof. repeat split; eexists; split; reflexivity. Qed.

(** 2 * (f * Sx_0) with a time argument *)
Theorem C18_arithmetic_refuted : exists (e : expr R) args p ops c,
  well_typed e /\ eval e = Ok (VStr (EFun p :: ops)) /\ coef args e = Ok c /\ call p args = Err TypeError.
Proof.
  exists (XMul (XNum (RtoC 2)) (XMul (XFun ex_f) (XOp (Sx 0)))), [1%R]. eexists _, _, _.
  split; [cbn; repeat split; auto; right; left; discriminate|]. split; [reflexivity|]. split; reflexivity.
Qed.
Print Assumptions C18_arithmetic_refuted.

(** ** C19: prefactors evaluated on several ranks *)
(** A rank that obtains a vector obtains the serial one, i.e. f_o(args) for strings with
    a prefactor and the initial 1 otherwise; every rank obtains it if there are fewer than 50
    prefactors, or if every rank has work and a string without prefactor precedes each
    boundary.  Missing: the remaining operator lists, see C19_parallel_refuted. *)
Theorem C19_parallel_partial {A} (prefs : list (nat * pfun A)) args init m rank v :
  StronglySorted lt (map fst prefs) -> (forall i p, In (i, p) prefs -> i < length init) -> 1 <= m ->
  nth_error (arg_fun prefs init args m) rank = Some (Ok v) ->
  arg_fun_serial prefs init args = Ok v /\ length v = length init
  /\ forall i, prefactor_at args prefs (nth i init C0) i (nth i v C0).
Proof.
  intros Hs Hb Hm Hv.
  assert (E : arg_fun_serial prefs init args = Ok v).
  { destruct (Nat.lt_ge_cases (length prefs) 50) as [H|H].
    - unfold arg_fun in Hv. destruct (Nat.ltb_spec (length prefs) 50); [|lia]. rewrite nth_error_map in Hv.
      destruct (nth_error (seq 0 m) rank); [|discriminate]. now inversion Hv.
    - eapply parallel_sound; eauto; lia. }
  split; [exact E|]. apply serial_value; [|exact E].
  clear -Hs. induction (map fst prefs) as [|a l IH]; [constructor|]. inversion Hs; subst. constructor; [|auto].
  intros Hin. rewrite Forall_forall in H2. specialize (H2 _ Hin). lia.
Qed.
Print Assumptions C19_parallel_partial.

Theorem C19_all_ranks_partial {A} (prefs : list (nat * pfun A)) args init m :
  StronglySorted lt (map fst prefs) -> (forall i p, In (i, p) prefs -> i < length init) -> 1 <= m ->
  (forall i p, In (i, p) prefs -> exists v, call p args = Ok v) ->
  length prefs < 50 \/
  (let q := (length prefs + m - 1) / m in
   forall r, 1 <= r < m -> q * r < length prefs
     /\ fst (nth (q * r - 1) prefs (0, PConst C0)) + 1 < fst (nth (q * r) prefs (0, PConst C0))) ->
  forall rank, rank < m -> exists v, nth_error (arg_fun prefs init args m) rank = Some (Ok v).
Proof.
  intros Hs Hb Hm Hc H rank Hr. destruct (Nat.lt_ge_cases (length prefs) 50) as [L|L].
  - destruct (store_all_total args 0 prefs init) as (v & E); [intros i f Hin; split; [specialize (Hb _ _ Hin); lia|eauto]|].
    exists v. unfold arg_fun. destruct (Nat.ltb_spec (length prefs) 50); [|lia]. rewrite nth_error_map.
    rewrite (nth_error_nth' _ 0) by (rewrite seq_length; lia). cbn. f_equal. exact E.
  - destruct H as [H|H]; [lia|]. apply parallel_complete; auto; lia.
Qed.
Print Assumptions C19_all_ranks_partial.

(** prefactors on every second string: 50 prefactors, two ranks *)
Definition ex_prefs : list (nat * pfun unit) := map (fun k => (2 * k, PConst Ci)) (seq 0 50).
Example C19_example : StronglySorted lt (map fst ex_prefs) /\ (forall i p, In (i, p) ex_prefs -> i < length (map (fun _ => C1) (seq 0 100)))
  /\ (forall i p, In (i, p) ex_prefs -> exists v, call p [] = Ok v)
  /\ (let q := (length ex_prefs + 2 - 1) / 2 in forall r, 1 <= r < 2 -> q * r < length ex_prefs
     /\ fst (nth (q * r - 1) ex_prefs (0, PConst C0)) + 1 < fst (nth (q * r) ex_prefs (0, PConst C0))).
Proof.
  split; [|split; [|split]].
  - unfold ex_prefs. rewrite map_map. cbn [fst].
    assert (G : forall k a, StronglySorted lt (map (fun x => 2 * x) (seq a k))).
    { induction k as [|k IH]; intros a; [apply SSorted_nil|].
      cbn [seq map]. apply SSorted_cons; [apply IH|]. apply Forall_forall. intros x Hx. apply in_map_iff in Hx as (y & <- & Hy). apply in_seq in Hy. lia. }
    apply G.
  - intros i p Hin. rewrite map_length, seq_length. unfold ex_prefs in Hin. apply in_map_iff in Hin as (k & E & Hk). apply in_seq in Hk. inversion E. lia.
  - intros i p Hin. unfold ex_prefs in Hin. apply in_map_iff in Hin as (k & E & Hk). inversion E. cbn. eauto.
  - cbv zeta. intros r Hr. assert (r = 1) as -> by lia. replace (length ex_prefs) with 50 by reflexivity. cbn. lia.
Qed.

(** A prefactor on each of 50 strings, two ranks: the first rank raises IndexError and
    the second one waits in allgather forever. *)
Theorem C19_parallel_refuted : exists (prefs : list (nat * pfun unit)) init vals,
  arg_fun_serial prefs init [] = Ok vals
  /\ arg_fun prefs init [] 2 = [Err IndexError; Err Blocked].
Proof.
  exists (map (fun k => (k, PConst Ci)) (seq 0 50)), (map (fun _ => C1) (seq 0 50)), (map (fun _ => Ci) (seq 0 50)).
  split; vm_compute; reflexivity.
Qed.
Print Assumptions C19_parallel_refuted.
(** 50 well separated prefactors on 11 ranks: 10 ranks suffice, the last boundary does not exist. *)
Theorem C19_idle_rank_refuted : exists (prefs : list (nat * pfun unit)) init vals,
  arg_fun_serial prefs init [] = Ok vals
  /\ arg_fun prefs init [] 11 = map (fun _ => Err IndexError) (seq 0 11).
Proof.
  exists ex_prefs, (map (fun _ => C1) (seq 0 100)), (map (fun k => if Nat.even k then Ci else C1) (seq 0 100)).
  split; vm_compute; reflexivity.
Qed.
Print Assumptions C19_idle_rank_refuted.

(** ** C20: sample shapes *)
(** The sample has shape [shape] with last dimension [last shape 1].  One-dimensional
    samples work, and shapes whose last dimension is one if no operator is fermionic.
    Missing: all other shapes, for which every evaluation of an operator with at least
    one local operator raises. *)
Theorem C20_shapes_partial {A} lDim (shape : list nat) (sts : list (ostring A)) args vals s :
  wf_config lDim (nprod shape) s -> Forall (wf_string lDim (nprod shape)) sts -> Forall2 (prefactor_is args) sts vals ->
  last shape 1 = nprod shape \/ (last shape 1 = 1 /\ Forall (fun st => Forall (fun o => lo_fermi o = false) (snd st)) sts) ->
  exists els, operator_elements lDim (last shape 1) (map to_opstr sts) args s = Ok els
    /\ Forall (fun sm => length (fst sm) = nprod shape) els
    /\ forall f, contract els f
       = csum (map (fun sv => (snd sv * snd (act (snd (fst sv)) s) * f (fst (act (snd (fst sv)) s)))%C) (combine sts vals)).
Proof.
  intros Hs Hw Hv Hd. destruct (operator_elements_ok lDim (nprod shape) (last shape 1) sts args vals s Hw Hs Hv) as (els & E & _ & W & F).
  - apply Forall_forall. intros st Hst. destruct Hd as [->|[-> Hd]]; [now left|right]. split; [reflexivity|]. rewrite Forall_forall in Hd. auto.
  - exists els. split; [exact E|]. split; [|exact F]. eapply Forall_impl; [|exact W]. intros sm H. apply H.
Qed.
Print Assumptions C20_shapes_partial.
Example C20_example : wf_config 2 (nprod [3]) [0; 1; 0] /\ last [3] 1 = nprod [3] /\ last [3; 1] 1 = 1 /\ nprod [3; 1] = 3.
Proof. repeat split; cbn; lia. Qed.

Theorem C20_shapes_fail_partial {A} lDim (shape : list nat) (sts : list (ostring A)) args vals s :
  wf_config lDim (nprod shape) s -> Forall (wf_string lDim (nprod shape)) sts -> Forall2 (prefactor_is args) sts vals ->
  Exists (fun st => snd st <> []) sts ->
  last shape 1 <> nprod shape -> last shape 1 <> 1 -> nprod shape <> 1 ->
  operator_elements lDim (last shape 1) (map to_opstr sts) args s = Err ShapeError.
Proof.
  intros Hs Hw Hv Hex H1 H2 H3. set (n := nprod shape) in *. set (d := last shape 1) in *. unfold operator_elements.
  destruct (compile_ok lDim n sts Hw) as (c & -> & Hr & Hdg & Hp). cbn [bind].
  rewrite map_map, Hp, (arg_fun_serial_ok sts args vals Hv). cbn [bind]. unfold get_s_primes_fun. rewrite Hr, map_length.
  assert (HL : length vals = length sts) by (clear -Hv; induction Hv; cbn; lia). rewrite HL, Nat.eqb_refl.
  assert (SF : forall fermi i, sign_factor d fermi i s = Err ShapeError).
  { intros fermi i. unfold sign_factor, broadcast2. rewrite mask_row_length. destruct Hs as (L & _). rewrite L.
    destruct (Nat.eqb_spec d n); [contradiction|]. pose proof (mask_row_length d i) as LM.
    destruct (mask_row d i) as [|a [|b r]]; destruct s as [|x [|y q]]; cbn in *; try reflexivity; lia. }
  assert (M : 0 < max_len (map to_opstr sts)).
  { apply Exists_exists in Hex as (st & Hin & Hne). pose proof (max_len_ge sts st Hin). destruct (snd st); [congruence|cbn in *; lia]. }
  destruct sts as [|st sts']; [inversion Hex|]. destruct vals as [|v vals]; [discriminate|]. cbn [map combine mapM fst snd].
  assert (R : exists o r, padded lDim (st :: sts') st = o :: r).
  { unfold padded. destruct (rev (snd st)) as [|o r] eqn:E; [|cbn; eauto]. apply (f_equal (@length _)) in E. rewrite rev_length in E. cbn in E.
    rewrite E, Nat.sub_0_r. destruct (max_len _); [lia|]. cbn. eauto. }
  destruct R as (o & r & ->). cbn [apply_multi apply_fun]. rewrite SF. reflexivity.
Qed.
Print Assumptions C20_shapes_fail_partial.

(** a 2 x 2 lattice *)
Theorem C20_shapes_refuted : exists (shape : list nat) (st : ostring unit) s,
  wf_config 2 (nprod shape) s /\ wf_string 2 (nprod shape) st
  /\ operator_elements 2 (last shape 1) [to_opstr st] [] s = Err ShapeError.
Proof.
  exists [2; 2], (None, [Sx 0]), [0; 0; 1; 1]. split; [repeat split; cbn; lia|].
  split; [split; [constructor; [apply (wf_2 4 0 NX); lia|constructor]|discriminate]|]. reflexivity.
Qed.
Print Assumptions C20_shapes_refuted.
(** shape (2, 1): the sign of a fermionic operator is lost *)
Theorem C20_fermion_refuted : exists (shape : list nat) (o : localop) s els els',
  wf_config 2 (nprod shape) s /\ wf_op 2 (nprod shape) o
  /\ operator_elements 2 (last shape 1) [to_opstr (@None (pfun unit), [o])] [] s = Ok els
  /\ operator_elements 2 (nprod shape) [to_opstr (@None (pfun unit), [o])] [] s = Ok els'
  /\ contract els (fun _ => C1) <> contract els' (fun _ => C1).
Proof.
  exists [2; 1], (creation 0), [0; 1]. eexists _, _. split; [repeat split; cbn; lia|]. split; [apply wf_fermi; cbn; lia|].
  split; [reflexivity|]. split; [reflexivity|]. intros H. apply (f_equal fst) in H. cbn in H. lra.
Qed.
Print Assumptions C20_fermion_refuted.
