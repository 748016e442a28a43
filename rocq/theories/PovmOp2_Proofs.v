(** The compile loops count every term once. *)
From Coq Require Import String List Reals Bool Arith Lia Lra Permutation.
From Verif Require Import Base Cplx PovmOp_Model PovmOp_Spec PovmOp_Proofs.
Import ListNotations.

Lemma tuple_eqb_eq a b : tuple_eqb a b = true <-> a = b.
Proof. unfold tuple_eqb. destruct (list_eq_dec Nat.eq_dec a b); split; congruence. Qed.
Lemma get_item_lookup {A} (d : list (string * A)) k : get_item d k = match lookup k d with Some v => Ok v | None => Err KeyError end.
Proof. induction d as [|[k' v] d IH]; [reflexivity|]. cbn. now destruct (String.eqb k k'). Qed.
Lemma mapM_ok {A B} (f : A -> result B) (g : A -> B) l : (forall x, In x l -> f x = Ok (g x)) -> mapM f l = Ok (map g l).
Proof. induction l as [|x l IH]; intros H; [reflexivity|]. cbn. rewrite (H x) by now left. cbn. rewrite IH by (intros; apply H; now right). reflexivity. Qed.
Lemma foldM_app {A S} (f : S -> A -> result S) l1 l2 s : foldM f (l1 ++ l2) s = do s' <- foldM f l1 s; foldM f l2 s'.
Proof. revert s. induction l1 as [|x l1 IH]; intros s; [reflexivity|]. cbn. destruct (f s x); [apply IH|reflexivity]. Qed.
Lemma rsum_filter_split {A} (p : A -> bool) (g : A -> R) l : (rsum (map g (filter p l)) + rsum (map g (filter (fun x => negb (p x)) l)))%R = rsum (map g l).
Proof. induction l as [|x l IH]; [cbn; lra|]. cbn [filter map]. destruct (p x); cbn [negb map]; rewrite ?rsum_cons, <- IH; lra. Qed.

Section Main.
  Variables (operators : list (string * sized)) (order : list (list nat) -> list (list nat)) (f : config -> R) (s : config).
  Variables (ops : list op) (m max_site : nat).
  Hypothesis order_ok : forall l, iterates l (order l).
  Hypothesis local : forall i, i <= max_site -> nth i s 0 < 4.
  Hypothesis fits : m <= max_site + 1.
  Definition sound (o : op) : Prop :=
    NoDup (op_sites o) /\ 1 <= length (op_sites o) <= m /\ (forall i, In i (op_sites o) -> i <= max_site) /\
    exists A, lookup (op_name o) operators = Some (4 ^ length (op_sites o), A).
  Hypothesis ops_sound : forall o, In o ops -> sound o.
  Hypothesis ids : forall o o', In o ops -> In o' ops -> op_id o = op_id o' -> op_sites o = op_sites o'.
  Definition W (o : op) : R := term_value operators (op_name o) (op_strength o) (op_sites o) f s.
  Definition entry_value (pw : list nat * (nat -> nat -> R)) : R := acts (snd pw) (fst pw) f s.
  Definition value (out : list (list nat * (nat -> nat -> R))) : R := rsum (map entry_value out).
  Definition total (ordered : list (list op)) : R := rsum (map W (concat ordered)).

  Lemma add_term_ok j o acc P : sound o -> length (op_sites o) = j + 1 -> length P = m -> NoDup P -> (forall i, In i P -> i <= max_site) ->
    op_sites o = firstn (j + 1) P ->
    exists w, add_term operators m j acc o = Ok w /\ acts w P f s = (acts acc P f s + W o)%R.
  Proof.
    intros (_ & Hm & _ & A & EA) Hj HP ND HI Hs. unfold add_term. rewrite get_item_lookup, EA. cbn [bind]. rewrite pad_dim. cbn [fst].
    assert (E : 4 ^ length (op_sites o) * 4 ^ (m - j - 1) = 4 ^ m) by (rewrite <- Nat.pow_add_r; f_equal; lia). rewrite E, Nat.eqb_refl.
    eexists. split; [reflexivity|]. rewrite acts_add. f_equal. unfold W, term_value, sized in *. rewrite EA. f_equal. cbn [snd].
    rewrite <- (firstn_skipn (j + 1) P) at 1. rewrite Hs.
    apply (acts_pad (m - j - 1) (4 ^ length (firstn (j + 1) P), A) (firstn (j + 1) P) (skipn (j + 1) P)).
    - rewrite skipn_length. lia.
    - now rewrite firstn_skipn.
    - intros i Hi. apply local. apply HI. rewrite <- (firstn_skipn (j + 1) P). apply in_app_iff. now right.
  Qed.
  Lemma add_terms_ok j l acc P : (forall o, In o l -> sound o /\ length (op_sites o) = j + 1 /\ op_sites o = firstn (j + 1) P) ->
    length P = m -> NoDup P -> (forall i, In i P -> i <= max_site) ->
    exists w, foldM (add_term operators m j) l acc = Ok w /\ acts w P f s = (acts acc P f s + rsum (map W l))%R.
  Proof.
    revert acc. induction l as [|o l IH]; intros acc Hl HP ND HI.
    - exists acc. split; [reflexivity|]. cbn. lra.
    - destruct (Hl o (or_introl eq_refl)) as (S1 & S2 & S3). destruct (add_term_ok j o acc P S1 S2 HP ND HI S3) as (w & E1 & E2).
      cbn [foldM]. rewrite E1. cbn [bind]. destruct (IH w) as (w' & F1 & F2); try assumption; [intros; apply Hl; now right|].
      exists w'. split; [exact F1|]. rewrite F2, E2. cbn [map]. rewrite rsum_cons. lra.
  Qed.
  Lemma neighbour_ok j0 same acc P : (forall k o, k < length same -> In o (nth k same []) -> sound o /\ length (op_sites o) = j0 + k + 1 /\ op_sites o = firstn (j0 + k + 1) P) ->
    length P = m -> NoDup P -> (forall i, In i P -> i <= max_site) ->
    exists w, foldM (fun acc jops => foldM (add_term operators m (fst jops)) (snd jops) acc) (combine (seq j0 (length same)) same) acc = Ok w /\
      acts w P f s = (acts acc P f s + rsum (map W (concat same)))%R.
  Proof.
    revert j0 acc. induction same as [|l same IH]; intros j0 acc Hs HP ND HI.
    - exists acc. split; [reflexivity|]. cbn. lra.
    - cbn [length seq combine foldM fst snd]. destruct (add_terms_ok j0 l acc P) as (w & E1 & E2); try assumption.
      { intros o Ho. specialize (Hs 0 o). cbn in Hs. rewrite Nat.add_0_r in Hs. apply Hs; [lia|exact Ho]. }
      rewrite E1. cbn [bind]. destruct (IH (S j0) w) as (w' & F1 & F2); try assumption.
      { intros k o Hk Ho. specialize (Hs (S k) o). cbn [length nth] in Hs. replace (S j0 + k + 1) with (j0 + S k + 1) by lia. apply Hs; [lia|exact Ho]. }
      exists w'. split; [exact F1|]. rewrite F2, E2. cbn [concat]. rewrite map_app, rsum_app. lra.
  Qed.

  (** remaining operators: sorted by length, all from [ops], none above level n *)
  Definition Inv (n : nat) (ordered : list (list op)) : Prop :=
    length ordered = m /\ (forall k o, In o (nth k ordered []) -> In o ops /\ length (op_sites o) = k + 1) /\ (forall k, n < k -> nth k ordered [] = []).
  Definition prefix_of (I : list nat) (k : nat) (o : op) : bool := tuple_eqb (op_sites o) (firstn (k + 1) I).
  Definition rest (I : list nat) (n : nat) (ordered : list (list op)) : list (list op) :=
    map (fun k => filter (fun o => negb (prefix_of I k o)) (nth k ordered [])) (seq 0 m).
  Lemma filter_ext_in_ {A} (p q : A -> bool) l : (forall x, In x l -> p x = q x) -> filter p l = filter q l.
  Proof. induction l as [|x l IH]; intros H; [reflexivity|]. cbn. rewrite (H x) by now left. rewrite IH by (intros; apply H; now right). reflexivity. Qed.
  Lemma remove_used_ok n ordered I : Inv n ordered -> remove_used m (used_ids (ops_same n ordered I)) ordered = Ok (rest I n ordered).
  Proof.
    intros (Hl & HO & HN). unfold remove_used, rest. apply mapM_ok. intros k Hk. apply in_seq in Hk.
    destruct (nth k ordered []) as [|o l] eqn:E; [reflexivity|]. destruct (le_lt_dec k n) as [Hkn|Hkn]; [|rewrite (HN k Hkn) in E; discriminate E]. rewrite <- E. clear o l E.
    - (* k <= n *) unfold used_ids, ops_same. rewrite !map_length, seq_length. destruct (Nat.ltb_spec k (n + 1)); [|lia]. f_equal. apply filter_ext_in_. intros o Ho. f_equal.
      rewrite map_map. rewrite nth_map_seq_ by lia. apply eq_true_iff_eq. rewrite mem_in, in_map_iff. unfold prefix_of. rewrite tuple_eqb_eq. split.
      + intros (o' & E & H'). apply filter_In in H' as [H1 H2]. apply tuple_eqb_eq in H2. rewrite <- H2. symmetry. apply ids; [apply (HO k o' H1)|apply (HO k o Ho)|exact E].
      + intros E. exists o. split; [reflexivity|]. apply filter_In. split; [exact Ho|now apply tuple_eqb_eq].
  Qed.
  Lemma nth_rest I n ordered k : length ordered = m -> nth k (rest I n ordered) [] = filter (fun o => negb (prefix_of I k o)) (nth k ordered []).
  Proof.
    intros Hl. destruct (le_lt_dec m k) as [H|H].
    - rewrite (nth_overflow ordered) by lia. apply nth_overflow. unfold rest. rewrite map_length, seq_length. exact H.
    - unfold rest. now rewrite nth_map_seq_.
  Qed.
  Lemma rest_Inv I n ordered : Inv n ordered -> Inv n (rest I n ordered).
  Proof.
    intros (Hl & HO & HN). split; [unfold rest; now rewrite map_length, seq_length|]. split.
    - intros k o Ho. rewrite nth_rest in Ho by exact Hl. apply filter_In in Ho as [Ho _]. now apply HO.
    - intros k Hk. rewrite nth_rest by exact Hl. now rewrite HN.
  Qed.
  Lemma total_by_level ordered : length ordered = m -> total ordered = rsum (map (fun k => rsum (map W (nth k ordered []))) (seq 0 m)).
  Proof.
    intros Hl. unfold total. rewrite concat_map, rsum_concat, !map_map. rewrite <- (map_map (fun k => nth k ordered []) (fun l => rsum (map W l))). f_equal. f_equal. rewrite <- Hl. clear.
    apply (nth_ext _ _ [] []); [now rewrite map_length, seq_length|]. intros i Hi. now rewrite nth_map_seq_.
  Qed.
  Lemma rest_total I n ordered : Inv n ordered -> n < m -> (total (rest I n ordered) + rsum (map W (concat (ops_same n ordered I))))%R = total ordered.
  Proof.
    intros (Hl & HO & HN) Hn. rewrite total_by_level by (unfold rest; now rewrite map_length, seq_length). rewrite (total_by_level ordered Hl).
    assert (E : rsum (map W (concat (ops_same n ordered I))) = rsum (map (fun k => rsum (map W (filter (prefix_of I k) (nth k ordered [])))) (seq 0 m))).
    { unfold ops_same. rewrite concat_map, rsum_concat, !map_map. assert (ES : seq 0 m = seq 0 (n + 1) ++ seq (n + 1) (m - (n + 1))) by (pose proof (seq_app (n + 1) (m - (n + 1)) 0) as Q; cbn [Nat.add] in Q; rewrite <- Q; f_equal; lia). rewrite ES, map_app, rsum_app.
      rewrite (rsum_ext (fun k => rsum (map W (filter (prefix_of I k) (nth k ordered [])))) (fun _ => 0%R) (seq (n + 1) _)).
      - rewrite rsum_zero. unfold prefix_of. lra.
      - intros k Hk. apply in_seq in Hk. rewrite HN by lia. reflexivity. }
    rewrite E, <- rsum_map_add. apply rsum_ext. intros k _. rewrite nth_rest by exact Hl. rewrite Rplus_comm. apply (rsum_filter_split (prefix_of I k)).
  Qed.

  Definition good_entry (pw : list nat * (nat -> nat -> R)) : Prop := length (fst pw) = m /\ NoDup (fst pw) /\ forall i, In i (fst pw) -> i <= max_site.
  Lemma visit_ok n ordered out I : Inv n ordered -> n < m -> NoDup I -> length I = n + 1 -> (forall i, In i I -> i <= max_site) ->
    exists pw, visit operators m max_site n (ordered, out) I = Ok (rest I n ordered, out ++ [pw]) /\ good_entry pw /\
      (total (rest I n ordered) + entry_value pw)%R = total ordered.
  Proof.
    intros HInv Hn ND HL HI. pose proof HInv as (Hl & HO & HN).
    destruct (pad_indices_ok (m - length I) max_site I ND HI ltac:(lia)) as (ext & E1 & E2 & E3 & E4).
    destruct (neighbour_ok 0 (ops_same n ordered I) (fun _ _ => 0%R) (I ++ ext)) as (w & F1 & F2).
    - intros k o Hk Ho. unfold ops_same in Hk, Ho. rewrite map_length, seq_length in Hk. rewrite nth_map_seq_ in Ho by exact Hk. apply filter_In in Ho as [Ho He].
      apply tuple_eqb_eq in He. destruct (HO k o Ho) as [H1 H2]. split; [now apply ops_sound|]. split; [exact H2|]. cbn [Nat.add]. rewrite He. rewrite firstn_app.
      replace (k + 1 - length I) with 0 by lia. cbn. now rewrite app_nil_r.
    - rewrite app_length. lia.
    - exact E3.
    - exact E4.
    - exists (I ++ ext, w). unfold visit. unfold neighbour_op_comp. rewrite F1. cbn [bind]. rewrite (remove_used_ok n ordered I HInv). cbn [bind]. rewrite E1. cbn [bind].
      split; [reflexivity|]. split; [split; [cbn; rewrite app_length; lia|split; assumption]|].
      unfold entry_value. cbn [fst snd]. rewrite F2, acts_zero, Rplus_0_l. now apply rest_total.
  Qed.

  Lemma visits_ok n L : forall ordered out, Inv n ordered -> n < m -> (forall I, In I L -> NoDup I /\ length I = n + 1 /\ forall i, In i I -> i <= max_site) ->
    exists ordered' new, foldM (visit operators m max_site n) L (ordered, out) = Ok (ordered', out ++ new) /\ Inv n ordered' /\ Forall good_entry new /\
      (total ordered' + value new)%R = total ordered /\
      forall o, In o (nth n ordered' []) -> In o (nth n ordered []) /\ ~ In (op_sites o) L.
  Proof.
    induction L as [|I L IH]; intros ordered out HInv Hn HL.
    - exists ordered, []. cbn. rewrite app_nil_r. split; [reflexivity|]. split; [exact HInv|]. split; [constructor|]. split; [unfold value; cbn; lra|]. tauto.
    - destruct (HL I (or_introl eq_refl)) as (H1 & H2 & H3). destruct (visit_ok n ordered out I HInv Hn H1 H2 H3) as (pw & E1 & E2 & E3).
      cbn [foldM]. rewrite E1. cbn [bind]. destruct (IH (rest I n ordered) (out ++ [pw]) (rest_Inv I n ordered HInv) Hn) as (ordered' & new & F1 & F2 & F3 & F4 & F5); [intros; apply HL; now right|].
      exists ordered', (pw :: new). rewrite F1, <- app_assoc. split; [reflexivity|]. split; [exact F2|]. split; [now constructor|]. split.
      + unfold value in *. cbn [map]. rewrite rsum_cons. lra.
      + intros o Ho. destruct (F5 o Ho) as [G1 G2]. rewrite nth_rest in G1 by apply HInv. apply filter_In in G1 as [G1 G3]. split; [exact G1|].
        intros [G|G]; [|contradiction]. unfold prefix_of in G3. rewrite <- G in G3. rewrite firstn_all2 in G3 by lia.
        assert (TE : tuple_eqb I I = true) by now apply tuple_eqb_eq. rewrite TE in G3. discriminate G3.
  Qed.

  Lemma level_ok n ordered out : Inv n ordered -> n < m ->
    exists ordered' new, level operators order m max_site (ordered, out) n = Ok (ordered', out ++ new) /\ Inv n ordered' /\ nth n ordered' [] = [] /\
      Forall good_entry new /\ (total ordered' + value new)%R = total ordered.
  Proof.
    intros HInv Hn. unfold level. cbn [fst]. destruct (order_ok (map op_sites (nth n ordered []))) as [_ HO].
    destruct (visits_ok n (order (map op_sites (nth n ordered []))) ordered out HInv Hn) as (ordered' & new & F1 & F2 & F3 & F4 & F5).
    - intros I HI. apply HO in HI. apply in_map_iff in HI as (o & <- & Ho). destruct HInv as (_ & HO' & _). destruct (HO' n o Ho) as [H1 H2]. destruct (ops_sound o H1) as (S1 & _ & S3 & _). repeat split; assumption.
    - exists ordered', new. split; [exact F1|]. split; [exact F2|]. split; [|split; assumption].
      destruct (nth n ordered' []) as [|o l] eqn:E; [reflexivity|]. exfalso. destruct (F5 o (or_introl eq_refl)) as [G1 G2]. apply G2. apply HO. now apply in_map.
  Qed.

  Lemma levels_ok k : forall ordered out, k <= m -> Inv (k - 1) ordered -> (forall j, k <= j -> nth j ordered [] = []) ->
    exists ordered' new, foldM (level operators order m max_site) (rev (seq 0 k)) (ordered, out) = Ok (ordered', out ++ new) /\
      Forall good_entry new /\ value new = total ordered.
  Proof.
    induction k as [|k IH]; intros ordered out Hk HInv HE.
    - exists ordered, []. cbn. rewrite app_nil_r. split; [reflexivity|]. split; [constructor|].
      assert (E : total ordered = 0%R). { rewrite total_by_level by apply HInv. rewrite (rsum_ext _ (fun _ => 0%R)) by (intros j _; rewrite HE by lia; reflexivity). apply rsum_zero. }
      rewrite E. reflexivity.
    - rewrite seq_S, rev_app_distr. cbn [rev app Nat.add foldM]. replace (S k - 1) with k in HInv by lia.
      destruct (level_ok k ordered out HInv ltac:(lia)) as (ordered' & new & E1 & E2 & E3 & E4 & E5). rewrite E1. cbn [bind].
      destruct (IH ordered' (out ++ new)) as (ordered'' & new' & F1 & F2 & F3); [lia| | |].
      + destruct E2 as (G1 & G2 & G3). split; [exact G1|]. split; [exact G2|]. intros j Hj. destruct (Nat.eq_dec j k) as [->|]; [exact E3|]. destruct (Nat.eq_dec k 0) as [->|]; apply G3; lia.
      + intros j Hj. destruct (Nat.eq_dec j k) as [->|]; [exact E3|]. apply E2. lia.
      + exists ordered'', (new ++ new'). rewrite F1, app_assoc. split; [reflexivity|]. split; [apply Forall_app; now split|].
        unfold value in *. rewrite map_app, rsum_app, F3. lra.
  Qed.

  Definition first_is (idx : nat) (o : op) : bool := nth 0 (op_sites o) 0 =? idx.
  Lemma site_loop_ok out idx : exists new, site_loop operators order m max_site ops out idx = Ok (out ++ new) /\ Forall good_entry new /\
    value new = rsum (map W (filter (first_is idx) ops)).
  Proof.
    unfold site_loop. set (ordered := map _ (seq 0 m)).
    assert (Hl : length ordered = m) by (unfold ordered; now rewrite map_length, seq_length).
    assert (HN : forall k, nth k ordered [] = if k <? m then filter (fun o => first_is idx o && (length (op_sites o) =? k + 1)) ops else []).
    { intros k. unfold ordered. destruct (Nat.ltb_spec k m); [now rewrite nth_map_seq_|]. apply nth_overflow. now rewrite map_length, seq_length. }
    destruct (levels_ok m ordered out ltac:(lia)) as (ordered' & new & E1 & E2 & E3).
    - split; [exact Hl|]. split.
      + intros k o Ho. rewrite HN in Ho. destruct (k <? m); [|destruct Ho]. apply filter_In in Ho as [H1 H2]. apply andb_true_iff in H2 as [_ H2]. apply Nat.eqb_eq in H2. now split.
      + intros k Hk. rewrite HN. destruct (Nat.ltb_spec k m); [lia|reflexivity].
    - intros k Hk. rewrite HN. destruct (Nat.ltb_spec k m); [lia|reflexivity].
    - rewrite E1. cbn [bind snd]. exists new. split; [reflexivity|]. split; [exact E2|]. rewrite E3, total_by_level by exact Hl.
      rewrite (rsum_ext _ (fun k => rsum (map (fun o => if length (op_sites o) =? k + 1 then W o else 0%R) (filter (first_is idx) ops)))).
      + rewrite rsum_swap. apply rsum_ext. intros o Ho. apply filter_In in Ho as [Ho _]. destruct (ops_sound o Ho) as (_ & Hlen & _).
        assert (Q : forall a n, a <= length (op_sites o) - 1 < a + n -> rsum (map (fun k => if length (op_sites o) =? k + 1 then W o else 0%R) (seq a n)) = W o).
        { intros a n. revert a. induction n as [|n IHn]; intros a Ha; [lia|]. cbn [seq map]. rewrite rsum_cons. destruct (Nat.eqb_spec (length (op_sites o)) (a + 1)).
          - rewrite (rsum_ext _ (fun _ => 0%R)); [rewrite rsum_zero; lra|]. intros k Hk. apply in_seq in Hk. destruct (Nat.eqb_spec (length (op_sites o)) (k + 1)); [lia|reflexivity].
          - rewrite IHn by lia. lra. }
        apply Q. lia.
      + intros k Hk. apply in_seq in Hk. rewrite HN. destruct (Nat.ltb_spec k m); [|lia]. clear. induction ops as [|o l IH]; [reflexivity|]. cbn [filter]. destruct (first_is idx o); cbn [andb]; [|exact IH].
        cbn [map]. rewrite rsum_cons. destruct (_ =? _); cbn [map]; rewrite ?rsum_cons, IH; lra.
  Qed.
  Lemma sites_ok L : forall out, exists new, foldM (site_loop operators order m max_site ops) L out = Ok (out ++ new) /\ Forall good_entry new /\
    value new = rsum (map (fun idx => rsum (map W (filter (first_is idx) ops))) L).
  Proof.
    induction L as [|idx L IH]; intros out.
    - exists []. cbn. rewrite app_nil_r. repeat split. constructor.
    - destruct (site_loop_ok out idx) as (new & E1 & E2 & E3). cbn [foldM]. rewrite E1. cbn [bind]. destruct (IH (out ++ new)) as (new' & F1 & F2 & F3). rewrite F1, <- app_assoc.
      exists (new ++ new'). split; [reflexivity|]. split; [apply Forall_app; now split|]. unfold value in *. rewrite map_app, rsum_app, E3, F3. cbn [map]. now rewrite rsum_cons.
  Qed.
  Lemma all_sites_ok : exists out, foldM (site_loop operators order m max_site ops) (seq 0 (max_site + 1)) [] = Ok out /\ Forall good_entry out /\ value out = rsum (map W ops).
  Proof.
    destruct (sites_ok (seq 0 (max_site + 1)) []) as (out & E1 & E2 & E3). exists out. split; [exact E1|]. split; [exact E2|]. rewrite E3.
    rewrite (rsum_ext _ (fun idx => rsum (map (fun o => if first_is idx o then W o else 0%R) ops))).
    - rewrite rsum_swap. apply rsum_ext. intros o Ho. destruct (ops_sound o Ho) as (_ & Hlen & Hle & _). unfold first_is.
      assert (H0 : nth 0 (op_sites o) 0 <= max_site) by (apply Hle; apply nth_In; lia). set (x := nth 0 (op_sites o) 0) in *.
      assert (Q : forall a n, a <= x < a + n -> rsum (map (fun k => if x =? k then W o else 0%R) (seq a n)) = W o).
      { intros a n. revert a. induction n as [|n IHn]; intros a Ha; [lia|]. cbn [seq map]. rewrite rsum_cons. destruct (Nat.eqb_spec x a).
        - rewrite (rsum_ext _ (fun _ => 0%R)); [rewrite rsum_zero; lra|]. intros k Hk. apply in_seq in Hk. destruct (Nat.eqb_spec x k); [lia|reflexivity].
        - rewrite IHn by lia. lra. }
      apply Q. lia.
    - intros idx _. clear. induction ops as [|o l IH]; [reflexivity|]. cbn [filter map]. rewrite rsum_cons. destruct (first_is idx o); cbn [map]; rewrite ?rsum_cons, IH; lra.
  Qed.
  Lemma s_primes_value out : (max_site < length s) -> Forall good_entry out ->
    rsum (map (fun cw => (snd cw * f (fst cw))%R) (get_s_primes (m, out) s)) = value out.
  Proof.
    intros Hs HG. unfold get_s_primes. cbn [fst snd]. rewrite rsum_flat_map. unfold value. apply rsum_ext. intros pw Hpw. rewrite Forall_forall in HG. destruct (HG pw Hpw) as (G1 & G2 & G3).
    unfold apply_on_single, entry_value, acts. rewrite map_map, product4_outcomes, G1. apply rsum_ext. intros b Hb. apply outcomes_length in Hb. cbn [fst snd]. rewrite !flat_index_digits.
    rewrite set_sites_replaced; [reflexivity|exact G2|intros i Hi; apply G3 in Hi; lia|lia].
  Qed.
End Main.
