(** Properties of POVM operators and of the operator registry: C24, C25. *)
From Coq Require Import String List Reals Bool Arith Lia Lra Permutation.
From Verif Require Povm_Model.
From Verif Require Import Base Cplx PovmOp_Model PovmOp_Spec PovmOp_Proofs PovmOp2_Proofs.
Import ListNotations.

(** the dictionaries added to operator k, in order *)
Definition added (k : nat) (events : list (nat * nat)) : list nat := map snd (filter (fun e => fst e =? k) events).
Definition history (h : heap) (events : list (nat * nat)) : heap * (nat -> list nat) := fold_left add_to events (h, fun _ => []).
(** a term that can be applied to the configuration s *)
Definition applicable (operators : list (string * sized)) (s : config) (o : op) : Prop :=
  NoDup (op_sites o) /\ op_sites o <> [] /\ (forall i, In i (op_sites o) -> i < length s) /\
  exists A, lookup (op_name o) operators = Some (4 ^ length (op_sites o), A).
(** no dictionary of operator k is added to another operator afterwards *)
Definition unshared (k : nat) (events : list (nat * nat)) : Prop :=
  forall pre j p post, events = pre ++ (j, p) :: post -> j <> k -> ~ In p (added k pre).
(** the sum over the connected configurations *)
Definition represented (mc : nat * list (list nat * (nat -> nat -> R))) (f : config -> R) (s : config) : R :=
  rsum (map (fun cw => (snd cw * f (fst cw))%R) (get_s_primes mc s)).
(** the sum over the added terms *)
Definition intended (operators : list (string * sized)) (h : heap) (l : list nat) (f : config -> R) (s : config) : R :=
  rsum (map (fun p => term_value operators (op_name (h p)) (op_strength (h p)) (op_sites (h p)) f s) l).

Lemma history_snoc h ev e : history h (ev ++ [e]) = add_to (history h ev) e.
Proof. unfold history. now rewrite fold_left_app. Qed.
Lemma added_snoc k ev e : added k (ev ++ [e]) = added k ev ++ (if fst e =? k then [snd e] else []).
Proof. unfold added. rewrite filter_app, map_app. cbn. now destruct (fst e =? k). Qed.
Lemma history_ops h ev k : snd (history h ev) k = added k ev.
Proof.
  induction ev as [|e ev IH] using rev_ind; [reflexivity|]. rewrite history_snoc, added_snoc. unfold add_to, add. cbn [snd].
  rewrite (Nat.eqb_sym (fst e) k). destruct (Nat.eqb_spec k (fst e)) as [->|_]; rewrite IH; [reflexivity|]. now rewrite app_nil_r.
Qed.
Lemma history_heap h ev p : op_name (fst (history h ev) p) = op_name (h p) /\ op_strength (fst (history h ev) p) = op_strength (h p) /\ op_sites (fst (history h ev) p) = op_sites (h p).
Proof.
  induction ev as [|e ev IH] using rev_ind; [auto|]. rewrite history_snoc. unfold add_to, add. cbn [fst].
  destruct (Nat.eqb_spec p (snd e)) as [->|_]; [|exact IH]. cbn. exact IH.
Qed.
Lemma unshared_ids h ev k : unshared k ev ->
  (forall p, In p (added k ev) -> op_id (fst (history h ev) p) <= length (added k ev)) /\
  (forall p q, In p (added k ev) -> In q (added k ev) -> op_id (fst (history h ev) p) = op_id (fst (history h ev) q) -> p = q).
Proof.
  induction ev as [|[j r] ev IH] using rev_ind; intros U; [split; cbn; contradiction|].
  destruct IH as [I1 I2]. { intros pre i p post -> Hi. apply (U pre i p (post ++ [(j, r)])); [|exact Hi]. now rewrite <- app_assoc. }
  rewrite added_snoc, history_snoc. unfold add_to, add. cbn [fst snd]. rewrite history_ops. destruct (Nat.eqb_spec j k) as [->|Hjk].
  - rewrite app_length. cbn [length]. split.
    + intros p Hp. destruct (Nat.eqb_spec p r) as [->|Hpr]; [cbn; lia|]. apply in_app_iff in Hp as [Hp|[->|[]]]; [|congruence]. specialize (I1 p Hp). lia.
    + intros p q Hp Hq. destruct (Nat.eqb_spec p r) as [->|Hpr], (Nat.eqb_spec q r) as [->|Hqr]; cbn [set_id op_id]; intros E; try reflexivity.
      * apply in_app_iff in Hq as [Hq|[->|[]]]; [|congruence]. specialize (I1 q Hq). lia.
      * apply in_app_iff in Hp as [Hp|[->|[]]]; [|congruence]. specialize (I1 p Hp). lia.
      * apply in_app_iff in Hp as [Hp|[->|[]]]; [|congruence]. apply in_app_iff in Hq as [Hq|[->|[]]]; [|congruence]. now apply I2.
  - rewrite app_nil_r. pose proof (U ev j r [] eq_refl Hjk) as Hr.
    assert (E : forall p, In p (added k ev) -> (p =? r) = false) by (intros p Hp; apply Nat.eqb_neq; intros ->; contradiction). split.
    + intros p Hp. rewrite (E p Hp). now apply I1.
    + intros p q Hp Hq. rewrite (E p Hp), (E q Hq). now apply I2.
Qed.
Lemma py_max_ok l : l <> [] -> py_max l = Ok (list_max l).
Proof. destruct l; [contradiction|reflexivity]. Qed.
Lemma list_max_ge l x : In x l -> x <= list_max l.
Proof. intros H. pose proof (proj1 (list_max_le l (list_max l)) (Nat.le_refl _)) as F. rewrite Forall_forall in F. now apply F. Qed.
Lemma list_max_in l : l <> [] -> In (list_max l) l.
Proof.
  induction l as [|x l IH]; [contradiction|]. intros _. destruct l as [|y l]; [left; cbn; lia|]. specialize (IH ltac:(discriminate)). change (list_max (x :: y :: l)) with (Nat.max x (list_max (y :: l))).
  destruct (Nat.max_spec x (list_max (y :: l))) as [[_ E]|[_ E]]; rewrite E; [right; exact IH|now left].
Qed.

(** ** C24 *)
(** for operators whose dictionaries are not added to another operator afterwards *)
Theorem C24_counts_partial operators order h events k f s :
  (forall l, iterates l (order l)) -> unshared k events -> added k events <> [] ->
  (forall p, In p (added k events) -> applicable operators s (h p)) -> (forall x, In x s -> x < 4) ->
  exists mc, compile operators order (fst (history h events)) (snd (history h events) k) = Ok mc /\
    represented mc f s = intended operators h (added k events) f s.
Proof.
  intros HO HU HNE HA H4. destruct (unshared_ids h events k HU) as [_ HI]. rewrite history_ops. set (h' := fst (history h events)) in *. set (l := added k events) in *.
  unfold compile. set (ops := map h' l).
  assert (NE : forall B (g : op -> B), map g ops <> []). { intros B g E. apply HNE. unfold ops in E. destruct l; [reflexivity|discriminate E]. }
  rewrite py_max_ok by apply NE. cbn [bind]. set (m := list_max _).
  assert (SO : forall o, In o ops -> exists p, In p l /\ o = h' p) by (intros o Ho; apply in_map_iff in Ho as (p & <- & Hp); now exists p).
  assert (AP : forall o, In o ops -> applicable operators s o).
  { intros o Ho. destruct (SO o Ho) as (p & Hp & ->). destruct (HA p Hp) as (A1 & A2 & A3 & A4). unfold applicable, h'. destruct (history_heap h events p) as (-> & _ & ->). repeat split; assumption. }
  rewrite (mapM_ok _ (fun o => list_max (op_sites o))) by (intros o Ho; apply py_max_ok; apply (AP o Ho)). cbn [bind]. rewrite py_max_ok by apply NE. cbn [bind].
  set (ms := list_max (map (fun o => list_max (op_sites o)) ops)).
  assert (MS : forall o i, In o ops -> In i (op_sites o) -> i <= ms).
  { intros o i Ho Hi. apply Nat.le_trans with (list_max (op_sites o)); [now apply list_max_ge|]. apply list_max_ge. now apply (in_map (fun o => list_max (op_sites o))). }
  assert (LT : ms < length s).
  { pose proof (list_max_in (map (fun o => list_max (op_sites o)) ops) (NE _ _)) as Hin. fold ms in Hin. apply in_map_iff in Hin as (o & <- & Ho). destruct (AP o Ho) as (_ & A2 & A3 & _). apply A3. now apply list_max_in. }
  assert (FIT : m <= ms + 1).
  { pose proof (list_max_in (map (fun o => length (op_sites o)) ops) (NE _ _)) as Hin. fold m in Hin. apply in_map_iff in Hin as (o & E & Ho). rewrite <- E. destruct (AP o Ho) as (A1 & _).
    assert (INC : incl (op_sites o) (seq 0 (ms + 1))) by (intros i Hi; apply in_seq; specialize (MS o i Ho Hi); lia). apply NoDup_incl_length in INC; [|exact A1]. now rewrite seq_length in INC. }
  assert (SD : forall o, In o ops -> sound operators m ms o).
  { intros o Ho. destruct (AP o Ho) as (A1 & A2 & A3 & A4). split; [exact A1|]. split; [|split; [intros; now apply (MS o)|exact A4]]. split.
    - destruct (op_sites o); [contradiction|cbn; lia].
    - apply list_max_ge. now apply (in_map (fun o => length (op_sites o))). }
  destruct (all_sites_ok operators order f s ops m ms HO) as (out & E1 & E2 & E3); [intros i Hi; apply H4; apply nth_In; lia|exact FIT|exact SD| |].
  { intros o o' Ho Ho' E. destruct (SO o Ho) as (p & Hp & ->), (SO o' Ho') as (q & Hq & ->). now rewrite (HI p q Hp Hq E). }
  rewrite E1. cbn [bind]. eexists. split; [reflexivity|]. unfold represented. rewrite (s_primes_value f s m ms FIT out LT E2), E3. unfold intended, ops. rewrite map_map. apply rsum_ext. intros p Hp.
  unfold W, h'. destruct (history_heap h events p) as (-> & -> & ->). reflexivity.
Qed.
Print Assumptions C24_counts_partial.

(** example: a transverse-field term and a coupling, iteration in the order of insertion *)
Definition dedup (l : list (list nat)) : list (list nat) := nodup (list_eq_dec Nat.eq_dec) l.
Lemma dedup_iterates l : iterates l (dedup l).
Proof. split; [apply NoDup_nodup|intros x; apply nodup_In]. Qed.
Definition demo_ops : list (string * sized) := [("X"%string, (4, fun a b => if a =? b then 0%R else 1%R)); ("ZZ"%string, (16, fun a b => if (a =? 0) && (b =? 0) then 1%R else 0%R))].
Definition demo_heap : heap := fun p => nth p [mk_op "ZZ" 2%R [0; 1] 0; mk_op "X" 3%R [0] 0; mk_op "ZZ" 5%R [0; 2] 0] (mk_op "X" 0%R [0] 0).
Example C24_case : unshared 0 [(0, 0); (0, 1); (1, 2)] /\ added 0 [(0, 0); (0, 1); (1, 2)] = [0; 1] /\
  (forall p, In p [0; 1] -> applicable demo_ops [1; 3; 0] (demo_heap p)) /\ (forall x, In x [1; 3; 0] -> x < 4).
Proof.
  split; [|split; [reflexivity|split]].
  - intros pre j p post E Hj. destruct pre as [|e0 [|e1 [|e2 pre]]].
    1-3: inversion E; subst; try congruence; cbn; lia.
    apply (f_equal (@length _)) in E. cbn in E. rewrite app_length in E. cbn in E. lia.
  - intros p [<-|[<-|[]]]; cbn; (split; [repeat constructor; cbn; lia|]); (split; [discriminate|]); (split; [cbn; lia|]); eexists; reflexivity.
  - cbn. lia.
Qed.

(** A dictionary that is added to a second operator loses its id in the first one, and a term disappears:
    operator 0 gets the terms (0,1) and (0,2), then operator 1 gets the second one. *)
Definition clash_heap : heap := fun p => match p with 0 => mk_op "ZZ" 1%R [0; 1] 0 | _ => mk_op "ZZ" 1%R [0; 2] 0 end.
Theorem C24_shared_refuted : exists operators order h events k f s,
  (forall l, iterates l (order l)) /\ added k events <> [] /\
  (forall p, In p (added k events) -> applicable operators s (h p)) /\ (forall x, In x s -> x < 4) /\
  exists mc, compile operators order (fst (history h events)) (snd (history h events) k) = Ok mc /\
    represented mc f s <> intended operators h (added k events) f s.
Proof.
  exists demo_ops, dedup, clash_heap, [(0, 0); (0, 1); (1, 1)], 0, (fun _ => 1%R), [0; 0; 0].
  split; [apply dedup_iterates|]. split; [discriminate|]. split.
  - intros p [<-|[<-|[]]]; cbn; (split; [repeat constructor; cbn; lia|]); (split; [discriminate|]); (split; [cbn; lia|]); eexists; reflexivity.
  - split; [cbn; lia|]. eexists. split; [reflexivity|]. unfold represented, intended, term_value, acts. cbn. lra.
Qed.
Print Assumptions C24_shared_refuted.

Theorem C24_empty operators order h : compile operators order h [] = Err ValueError.
Proof. reflexivity. Qed.
Print Assumptions C24_empty.

(** ** C25: the registry *)
Section Reg.
  Context {V : Type}.
  Implicit Types (d : list (string * V)) (r : @registry V).
  Lemma lookup_set d k v x : lookup x (dict_set d k v) = if String.eqb x k then Some v else lookup x d.
  Proof.
    induction d as [|[k' v'] d IH]; cbn; [reflexivity|]. destruct (String.eqb_spec k k') as [<-|Hk]; cbn.
    - destruct (String.eqb_spec x k); reflexivity.
    - destruct (String.eqb_spec x k') as [->|Hx]; [|exact IH]. destruct (String.eqb_spec k' k); [congruence|reflexivity].
  Qed.
  Lemma lookup_merge a d x : NoDup (map fst d) -> lookup x (dict_merge a d) = match lookup x d with Some v => Some v | None => lookup x a end.
  Proof.
    unfold dict_merge. revert a. induction d as [|[k v] d IH]; intros a ND; [reflexivity|]. cbn in *. inversion ND as [|? ? Hk ND']; subst. rewrite (IH _ ND'), lookup_set.
    destruct (String.eqb_spec x k) as [->|_]; [|reflexivity].
    destruct (lookup k d) eqn:E; [|reflexivity]. exfalso. apply Hk. clear -E. induction d as [|[k' v'] d IH]; [discriminate E|]. cbn in *. destruct (String.eqb_spec k k'); [left; congruence|right; now apply IH].
  Qed.
  Lemma has_key_lookup d k : has_key d k = match lookup k d with Some _ => true | None => false end.
  Proof. induction d as [|[k' v] d IH]; [reflexivity|]. cbn. now destruct (String.eqb k k'). Qed.
  Lemma keys_set d k v : lookup k d = None -> map fst (dict_set d k v) = map fst d ++ [k].
  Proof. induction d as [|[k' v'] d IH]; cbn; [reflexivity|]. destruct (String.eqb_spec k k'); [discriminate|]. intros H. cbn. now rewrite IH. Qed.
  Lemma lookup_in d k : In k (map fst d) <-> lookup k d <> None.
  Proof.
    induction d as [|[k' v'] d IH]; cbn; [tauto|]. destruct (String.eqb_spec k k') as [->|Hk]; [split; [discriminate|now left]|]. rewrite IH. split; [intros [|]; congruence|now right].
  Qed.
  (** each name is known to one dictionary only, and [operators] knows all names *)
  Definition reg_ok r : Prop :=
    NoDup (map fst (unitaries r)) /\ NoDup (map fst (dissipators r)) /\ NoDup (map fst (imaginaries r)) /\
    forall x, lookup x (operators r) = match lookup x (imaginaries r) with Some v => Some v | None => match lookup x (dissipators r) with Some v => Some v | None => lookup x (unitaries r) end end.
  Lemma update_ok r : NoDup (map fst (unitaries r)) -> NoDup (map fst (dissipators r)) -> NoDup (map fst (imaginaries r)) -> reg_ok (update_operators r).
  Proof. intros H1 H2 H3. repeat split; try assumption. intros x. cbn. rewrite lookup_merge by assumption. rewrite lookup_merge by assumption. reflexivity. Qed.
  Lemma set_NoDup d k v : NoDup (map fst d) -> lookup k d = None -> NoDup (map fst (dict_set d k v)).
  Proof. intros ND H. rewrite keys_set by exact H. apply NoDup_app_snoc_; [exact ND|]. rewrite lookup_in. now rewrite H. Qed.
  Definition get (r : @registry V) (name : string) : option V := lookup name (operators r).
  Definition kind_dict r (k : kind) := match k with KUnitary => unitaries r | KDissipator => dissipators r | KImaginary => imaginaries r end.
  Lemma register_ok r k name w : reg_ok r ->
    (forall v, get r name = Some v -> register r (k, name, w) = (r, Err ValueError)) /\
    (get r name = None -> exists r', register r (k, name, w) = (r', Ok tt) /\ reg_ok r' /\
       (forall x, get r' x = if String.eqb x name then Some w else get r x) /\
       (forall k' x, lookup x (kind_dict r' k') = if match k, k' with KUnitary, KUnitary | KDissipator, KDissipator | KImaginary, KImaginary => String.eqb x name | _, _ => false end then Some w else lookup x (kind_dict r k'))).
  Proof.
    intros (N1 & N2 & N3 & HL). unfold get, register, check_name. rewrite !has_key_lookup. rewrite HL. split.
    - intros v. destruct (lookup name (unitaries r)); [reflexivity|]. destruct (lookup name (dissipators r)); [reflexivity|]. destruct (lookup name (imaginaries r)); [reflexivity|discriminate].
    - destruct (lookup name (imaginaries r)) eqn:E3; [discriminate|]. destruct (lookup name (dissipators r)) eqn:E2; [discriminate|]. intros E1. rewrite E1. eexists. split; [reflexivity|].
      assert (SN : forall d, NoDup (map fst d) -> lookup name d = None -> NoDup (map fst (dict_set d name w))) by (intros; now apply set_NoDup).
      split; [|split].
      + apply update_ok; destruct k; cbn; auto.
      + intros x. rewrite HL. destruct k; cbn [update_operators operators unitaries dissipators imaginaries]; rewrite !lookup_merge by auto; rewrite ?lookup_set; destruct (String.eqb_spec x name) as [->|_]; rewrite ?E1, ?E2, ?E3; reflexivity.
      + intros k' x. destruct k, k'; cbn; rewrite ?lookup_set; reflexivity.
  Qed.
End Reg.
Definition session {V} (u d : list (string * V)) (calls : list (kind * string * V)) : registry :=
  fold_left (fun r c => fst (register r c)) calls (standard u d).
Lemma session_ok {V} (u d : list (string * V)) calls : NoDup (map fst u) -> NoDup (map fst d) -> reg_ok (session u d calls).
Proof.
  intros H1 H2. unfold session. induction calls as [|c calls IH] using rev_ind.
  - apply update_ok; try assumption. constructor.
  - rewrite fold_left_app. cbn [fold_left]. set (r := fold_left _ calls _) in *. destruct c as [[k name] w]. destruct (register_ok r k name w IH) as [R1 R2].
    destruct (get r name) as [v|] eqn:E; [now rewrite (R1 v eq_refl)|]. destruct (R2 eq_refl) as (r' & -> & H & _). exact H.
Qed.

(** after any sequence of registrations: a taken name raises and changes nothing; a free name is entered, in its own
    dictionary and in [operators], and nothing else changes *)
Theorem C25_step {V} (u d : list (string * V)) calls k name w : NoDup (map fst u) -> NoDup (map fst d) ->
  let r := session u d calls in
  match lookup name (operators r) with
  | Some v => register r (k, name, w) = (r, Err ValueError)
  | None => exists r', register r (k, name, w) = (r', Ok tt) /\
      lookup name (kind_dict r' k) = Some w /\
      (forall x, lookup x (operators r') = if String.eqb x name then Some w else lookup x (operators r)) /\
      (forall k' x, x <> name -> lookup x (kind_dict r' k') = lookup x (kind_dict r k'))
  end.
Proof.
  intros H1 H2 r. destruct (register_ok r k name w (session_ok u d calls H1 H2)) as [R1 R2]. unfold get in *.
  destruct (lookup name (operators r)) as [v|]; [now apply (R1 v)|]. destruct (R2 eq_refl) as (r' & E & _ & E1 & E2). exists r'. split; [exact E|]. split.
  - rewrite E2. destruct k; now rewrite String.eqb_refl.
  - split; [exact E1|]. intros k' x Hx. rewrite E2. apply String.eqb_neq in Hx. rewrite Hx. now destruct k, k'.
Qed.
Print Assumptions C25_step.

(** every registered name keeps its matrix *)
Theorem C25_keeps {V} (u d : list (string * V)) calls calls' name v : NoDup (map fst u) -> NoDup (map fst d) ->
  lookup name (operators (session u d calls)) = Some v -> lookup name (operators (session u d (calls ++ calls'))) = Some v.
Proof.
  intros H1 H2 H. induction calls' as [|[[k n] w] calls' IH] using rev_ind; [now rewrite app_nil_r|]. rewrite app_assoc. unfold session at 1. rewrite fold_left_app. cbn [fold_left].
  fold (session u d (calls ++ calls')). pose proof (C25_step u d (calls ++ calls') k n w H1 H2) as S0. cbn zeta in S0.
  destruct (lookup n (operators (session u d (calls ++ calls')))) eqn:E; [now rewrite S0|]. destruct S0 as (r' & -> & _ & E1 & _). cbn [fst]. rewrite E1.
  destruct (String.eqb_spec name n) as [->|_]; [congruence|exact IH].
Qed.
Print Assumptions C25_keeps.

(** the predefined operators are registered at the start and no name belongs to two dictionaries *)
Theorem C25_start {V} (u d : list (string * V)) name v : NoDup (map fst u ++ map fst d) ->
  In (name, v) (u ++ d) -> lookup name (operators (session u d [])) = Some v.
Proof.
  intros ND HIn. assert (N1 : NoDup (map fst u)) by (revert ND; generalize (map fst d) as b; intros b; induction b as [|x b IH] using rev_ind; [now rewrite app_nil_r|]; rewrite app_assoc; intros ND; apply NoDup_remove_1 in ND; rewrite app_nil_r in ND; auto).
  assert (N2 : NoDup (map fst d)) by (revert ND; generalize (map fst u) as b; intros b; induction b as [|x b IH]; [auto|]; cbn; intros ND; inversion ND; auto).
  destruct (session_ok u d [] N1 N2) as (_ & _ & _ & HL). rewrite HL. cbn [session fold_left standard update_operators imaginaries dissipators unitaries lookup].
  assert (FI : forall l : list (string * V), NoDup (map fst l) -> In (name, v) l -> lookup name l = Some v).
  { clear. induction l as [|[k w] l IH]; intros ND H; [destruct H|]. cbn in *. inversion ND; subst. destruct H as [H|H]; [injection H as -> ->; now rewrite String.eqb_refl|].
    destruct (String.eqb_spec name k) as [->|_]; [|now apply IH]. exfalso. apply H2. apply in_map_iff. now exists (k, v). }
  apply in_app_iff in HIn as [HIn|HIn].
  - destruct (lookup name d) as [v'|] eqn:E; [|now apply FI]. exfalso. assert (Hu : In name (map fst u)) by (apply in_map_iff; now exists (name, v)). assert (Hd : In name (map fst d)) by (apply lookup_in; now rewrite E).
    clear -ND Hu Hd. induction (map fst u) as [|x l IH]; [destruct Hu|]. cbn in ND. inversion ND; subst. destruct Hu as [->|Hu]; [apply H1; apply in_app_iff; now right|now apply IH].
  - now rewrite (FI d N2 HIn).
Qed.
Print Assumptions C25_start.

(** an operator written into [operators] directly is dropped, silently, by the next registration *)
Theorem C25_direct_lost {V} (u d : list (string * V)) calls k name other v w : NoDup (map fst u) -> NoDup (map fst d) ->
  let r := session u d calls in
  lookup name (operators r) = None -> lookup other (operators r) = None -> name <> other ->
  lookup name (operators (set_directly r name v)) = Some v /\
  exists r', register (set_directly r name v) (k, other, w) = (r', Ok tt) /\ lookup name (operators r') = None.
Proof.
  intros H1 H2 r Hn Ho Hne. destruct (session_ok u d calls H1 H2) as (N1 & N2 & N3 & HL). fold r in N1, N2, N3, HL.
  split; [cbn; rewrite lookup_set; now rewrite String.eqb_refl|]. rewrite HL in Hn, Ho.
  destruct (lookup name (imaginaries r)) eqn:A3; [discriminate|]. destruct (lookup name (dissipators r)) eqn:A2; [discriminate|].
  destruct (lookup other (imaginaries r)) eqn:B3; [discriminate|]. destruct (lookup other (dissipators r)) eqn:B2; [discriminate|].
  unfold register, check_name. rewrite !has_key_lookup. cbn [set_directly unitaries dissipators imaginaries operators]. rewrite Ho, B2, B3, lookup_set.
  destruct (String.eqb_spec other name); [congruence|]. rewrite HL, B3, B2, Ho. eexists. split; [reflexivity|]. apply String.eqb_neq in Hne.
  assert (SN : forall dd, NoDup (map fst dd) -> lookup other dd = None -> NoDup (map fst (dict_set dd other w))) by (intros; now apply set_NoDup).
  destruct k; cbn [update_operators operators unitaries dissipators imaginaries]; rewrite !lookup_merge by auto; rewrite ?lookup_set, ?Hne, ?A3, ?A2; exact Hn.
Qed.
Print Assumptions C25_direct_lost.
Example C25_case : let u := [("X", 1); ("ZZ", 2)]%string in let d := [("decayup", 3)]%string in
  NoDup (map fst u ++ map fst d) /\ lookup "XZ" (operators (session u d [(KUnitary, "XZ", 7); (KDissipator, "X", 8)]))%string = Some 7 /\
  lookup "X" (operators (session u d [(KUnitary, "XZ", 7); (KDissipator, "X", 8)]))%string = Some 1.
Proof. split; [|split; reflexivity]. cbn. repeat constructor; cbn; intros H; repeat destruct H as [H|H]; try discriminate H; exact H. Qed.
(** the predefined names are distinct *)
Example C25_names : NoDup (map fst Povm_Model.unitaries_DM ++ map fst Povm_Model.dissipators_DM).
Proof. cbn. repeat constructor; cbn; intros H; repeat destruct H as [H|H]; try discriminate H; exact H. Qed.
