From Coq Require Import ZArith List Reals Lra Lia Bool Arith Sorted.
From Verif Require Import Base Cplx Mpi_Model Mpi_Proofs BranchFree_Model BranchFree_Spec BranchFree_Proofs.
Import ListNotations.

(** ** cutting a list into slices *)
Definition slice {B} (l : list B) (a b : nat) : list B := firstn (b - a) (skipn a l).

Lemma firstn_skipn_add {B} i j (q : list B) : firstn (i + j) q = firstn i q ++ firstn j (skipn i q).
Proof. revert q. induction i as [|i IH]; intros q; [reflexivity|]. destruct q; [cbn; now rewrite firstn_nil|]. cbn. now rewrite IH. Qed.
Lemma skipn_add {B} i j (q : list B) : skipn (i + j) q = skipn j (skipn i q).
Proof. revert q. induction i as [|i IH]; intros q; [reflexivity|]. destruct q; [cbn; now rewrite skipn_nil|]. cbn. apply IH. Qed.

Lemma slice_app {B} (l : list B) a b c : a <= b -> b <= c -> slice l a b ++ slice l b c = slice l a c.
Proof.
  intros H1 H2. unfold slice. replace (c - a) with ((b - a) + (c - b)) by lia. rewrite firstn_skipn_add.
  do 2 f_equal. replace b with (a + (b - a)) at 1 by lia. apply skipn_add.
Qed.

Lemma slices_concat {B} (l : list B) (cut : nat -> nat) m : (forall r, r < m -> cut r <= cut (S r)) ->
  concat (map (fun r => slice l (cut r) (cut (S r))) (seq 0 m)) = slice l (cut 0) (cut m).
Proof.
  induction m as [|m IH]; intros H.
  - cbn. unfold slice. now rewrite Nat.sub_diag.
  - rewrite seq_S, map_app, concat_app, IH by (intros; apply H; lia). cbn [map concat plus]. rewrite app_nil_r.
    apply slice_app; [|apply H; lia].
    clear IH. induction m as [|m IHm]; [lia|]. etransitivity; [apply IHm; intros; apply H; lia|]. apply H; lia.
Qed.
Lemma slice_all {B} (l : list B) n : length l <= n -> slice l 0 n = l.
Proof. intros H. unfold slice. cbn [skipn]. apply firstn_all2. lia. Qed.
Lemma slice_length {B} (l : list B) a b : b <= length l -> length (slice l a b) = b - a.
Proof. intros H. unfold slice. rewrite firstn_length, skipn_length. lia. Qed.

Lemma all_ok_inv {B} (xs : list (result B)) l : all_ok xs = Some l -> xs = map Ok l.
Proof.
  revert l. induction xs as [|[x|e] xs IH]; intros l H; cbn in H; [now inversion H| |discriminate].
  destruct (all_ok xs) as [r|]; [|discriminate]. inversion H. cbn. now rewrite (IH r).
Qed.

Lemma mapM_ok_inv {X Y} (f : X -> result Y) l r d : mapM f l = Ok r -> length r = length l /\ forall i, i < length l -> forall dx, f (nth i l dx) = Ok (nth i r d).
Proof.
  revert r. induction l as [|a l IH]; intros r H; cbn in H.
  - inversion H. split; [reflexivity|]. cbn; lia.
  - destruct (f a) as [b|] eqn:E; cbn in H; [|discriminate]. destruct (mapM f l) as [bs|]; cbn in H; [|discriminate].
    inversion H; subst. destruct (IH bs eq_refl) as [L N]. cbn. split; [lia|]. intros [|i] Hi dx; [exact E|]. apply N. lia.
Qed.

Section Par.
Context {A : Type}.
Implicit Types (prefs : list (nat * pfun A)) (args : list A) (init res : list C).

Lemma set_nth_mid {B} (P X X' Y : list B) i v : set_nth X i v = Ok X' -> set_nth (P ++ X ++ Y) (length P + i) v = Ok (P ++ X' ++ Y).
Proof.
  intros H. induction P as [|p P IH]; cbn [app length plus].
  - revert i X' H. induction X as [|x X IH]; intros i X' H; [destruct i; discriminate|].
    destruct i as [|i]; cbn in *; [now inversion H|]. destruct (set_nth X i v) as [r|] eqn:E; cbn in H; [|discriminate].
    inversion H; subst. rewrite (IH i r E). reflexivity.
  - cbn. rewrite IH. reflexivity.
Qed.
Lemma set_nth_length {B} (X X' : list B) i v : set_nth X i v = Ok X' -> length X' = length X.
Proof.
  revert i X'. induction X as [|x X IH]; intros [|i] X' H; cbn in H; try discriminate; [now inversion H|].
  destruct (set_nth X i v) as [r|] eqn:E; cbn in H; [|discriminate]. inversion H; subst. cbn. f_equal. eauto.
Qed.
Lemma store_all_length off prefs args res res' : store_all off prefs args res = Ok res' -> length res' = length res.
Proof.
  revert res. induction prefs as [|[i f] prefs IH]; intros res H; cbn in H; [now inversion H|].
  destruct (call f args); cbn in H; [|discriminate]. destruct (set_nth res (i - off) _) as [r|] eqn:E; cbn in H; [|discriminate].
  rewrite (IH _ H). eapply set_nth_length; eassumption.
Qed.

Lemma store_all_app off p1 p2 args res : store_all off (p1 ++ p2) args res = do r <- store_all off p1 args res; store_all off p2 args r.
Proof.
  revert res. induction p1 as [|[i f] p1 IH]; intros res; [reflexivity|]. cbn. destruct (call f args); cbn; [|reflexivity].
  destruct (set_nth res (i - off) _); cbn; [apply IH|reflexivity].
Qed.

Lemma store_all_mid prefs args (P X X' Y : list C) : (forall i f, In (i, f) prefs -> length P <= i) ->
  store_all (length P) prefs args X = Ok X' -> store_all 0 prefs args (P ++ X ++ Y) = Ok (P ++ X' ++ Y).
Proof.
  revert X. induction prefs as [|[i f] prefs IH]; intros X Hi H; cbn in H; [now inversion H|].
  cbn [store_all]. destruct (call f args) as [v|]; cbn in *; [|discriminate].
  destruct (set_nth X (i - length P) v) as [r|] eqn:E; cbn in H; [|discriminate].
  assert (length P <= i) by (apply (Hi i f); now left). rewrite Nat.sub_0_r.
  replace i with (length P + (i - length P)) at 1 by lia. rewrite (set_nth_mid P X r Y _ _ E). cbn.
  apply IH; [|assumption]. intros j g Hj. apply (Hi j g). now right.
Qed.

(** parts stored slice by slice *)
Lemma store_all_slices args (pss : list (list (nat * pfun A))) : forall (Xs Xs' : list (list C)) (P : list C) offs,
  length pss = length Xs -> length Xs = length Xs' -> length offs = length pss ->
  (forall k, k < length pss -> nth k offs 0 = length P + nsum (map (@length C) (firstn k Xs))) ->
  (forall k i f, k < length pss -> In (i, f) (nth k pss []) -> nth k offs 0 <= i) ->
  (forall k, k < length pss -> store_all (nth k offs 0) (nth k pss []) args (nth k Xs []) = Ok (nth k Xs' [])) ->
  store_all 0 (concat pss) args (P ++ concat Xs) = Ok (P ++ concat Xs').
Proof.
  induction pss as [|ps pss IH]; intros Xs Xs' P offs L1 L2 L3 Ho Hi Hs.
  - destruct Xs; [|discriminate]. destruct Xs'; [|discriminate]. reflexivity.
  - destruct Xs as [|X Xs]; [discriminate|]. destruct Xs' as [|X' Xs']; [discriminate|]. destruct offs as [|o offs]; [discriminate|].
    cbn [concat]. rewrite store_all_app.
    pose proof (Ho 0 ltac:(cbn; lia)) as H0. cbn in H0. rewrite Nat.add_0_r in H0. subst o.
    pose proof (Hs 0 ltac:(cbn; lia)) as S0. cbn [nth] in S0.
    rewrite (store_all_mid ps args P X X' (concat Xs)); [|intros i f Hin; apply (Hi 0 i f); [cbn; lia|exact Hin]|exact S0]. cbn [bind].
    rewrite !app_assoc.
    apply (IH Xs Xs' (P ++ X') offs); [cbn in *; lia|cbn in *; lia|cbn in *; lia| | |].
    + intros k Hk. specialize (Ho (S k) ltac:(cbn; lia)). cbn [nth firstn map] in Ho. rewrite nsum_cons in Ho. rewrite Ho, app_length.
      rewrite (store_all_length _ _ _ _ _ S0). lia.
    + intros k i f Hk. apply (Hi (S k) i f). cbn; lia.
    + intros k Hk. apply (Hs (S k)). cbn; lia.
Qed.

Definition d0 : nat * pfun A := (0, PConst C0).
Definition idx prefs k := fst (nth k prefs d0).

Lemma sorted_idx prefs k l : StronglySorted lt (map fst prefs) -> k < l -> l < length prefs -> idx prefs k < idx prefs l.
Proof.
  intros H. unfold idx. revert k l. induction prefs as [|p prefs IH]; intros k l Hk Hl; cbn in *; [lia|].
  inversion H as [|? ? Hs Hf]; subst. destruct l as [|l]; [lia|]. destruct k as [|k].
  - rewrite Forall_forall in Hf. apply Hf. apply in_map. apply nth_In. lia.
  - apply IH; [assumption|lia|lia].
Qed.
Lemma sorted_idx_le prefs k l : StronglySorted lt (map fst prefs) -> k <= l -> l < length prefs -> idx prefs k <= idx prefs l.
Proof. intros H Hk Hl. destruct (Nat.eq_dec k l) as [->|]; [lia|]. pose proof (sorted_idx prefs k l H). lia. Qed.

Lemma pref_idx_ok prefs k : k < length prefs -> pref_idx prefs k = Ok (idx prefs k).
Proof. intros H. unfold pref_idx, idx. rewrite (nth_error_nth' _ d0 H). destruct (nth k prefs d0); reflexivity. Qed.
Lemma pref_idx_inv prefs k i : pref_idx prefs k = Ok i -> k < length prefs.
Proof. unfold pref_idx. destruct (nth_error prefs k) eqn:E; [|discriminate]. intros _. apply nth_error_Some. congruence. Qed.

Definition nels prefs m := (length prefs + m - 1) / m.
Definition cut prefs init m r := if r =? 0 then 0 else if r <? m then idx prefs (nels prefs m * r) - 1 else length init.

Definition ranks_fed prefs m := forall r, 1 <= r < m -> nels prefs m * r < length prefs.

Lemma rank_fed prefs init args m rank v : arg_fun_rank prefs init args m rank = Ok v -> ranks_fed prefs m.
Proof.
  unfold arg_fun_rank. fold (nels prefs m). destruct (mapM _ (seq 1 (m - 1))) as [firsts|] eqn:E; cbn [bind]; [|discriminate]. intros _ r Hr.
  destruct (mapM_ok_inv _ _ _ 0 E) as [L N]. rewrite seq_length in N. specialize (N (r - 1) ltac:(lia) 0). rewrite seq_nth in N by lia.
  replace (1 + (r - 1)) with r in N by lia. destruct (pref_idx prefs (nels prefs m * r)) eqn:P; [|discriminate]. eapply pref_idx_inv; eassumption.
Qed.

Lemma rank_value prefs init args m rank : 0 < length prefs -> ranks_fed prefs m -> rank < m ->
  arg_fun_rank prefs init args m rank
  = store_all (cut prefs init m rank) (slice prefs (nels prefs m * rank) (Nat.min (nels prefs m * rank + nels prefs m) (length prefs))) args
      (slice init (cut prefs init m rank) (cut prefs init m (S rank))).
Proof.
  intros HN Hf Hr. unfold arg_fun_rank. fold (nels prefs m).
  rewrite (mapM_ok_map _ (fun r => idx prefs (nels prefs m * r) - 1)).
  2: { intros r Hin. apply in_seq in Hin. rewrite pref_idx_ok by (apply Hf; lia). reflexivity. }
  cbn [bind]. rewrite (mapM_ok_map _ (fun r => idx prefs (nels prefs m * (r + 1)) - 1)).
  2: { intros r Hin. apply in_seq in Hin. pose proof (Hf (r + 1) ltac:(lia)).
       replace (Nat.min (nels prefs m * (r + 1)) (length prefs - 1)) with (nels prefs m * (r + 1)) by lia. rewrite pref_idx_ok by assumption. reflexivity. }
  cbn [bind].
  assert (E1 : nth rank (0 :: map (fun r => idx prefs (nels prefs m * r) - 1) (seq 1 (m - 1))) 0 = cut prefs init m rank).
  { unfold cut. destruct rank as [|rank]; [reflexivity|]. cbn [nth Nat.eqb]. destruct (Nat.ltb_spec (S rank) m); [|lia].
    rewrite (nth_indep _ 0 ((fun r => idx prefs (nels prefs m * r) - 1) 0)) by (rewrite map_length, seq_length; lia).
    rewrite (map_nth (fun r => idx prefs (nels prefs m * r) - 1)), seq_nth by lia. reflexivity. }
  assert (E2 : nth rank (map (fun r => idx prefs (nels prefs m * (r + 1)) - 1) (seq 0 (m - 1)) ++ [length init]) 0 = cut prefs init m (S rank)).
  { unfold cut. cbn [Nat.eqb]. destruct (Nat.ltb_spec (S rank) m).
    - rewrite app_nth1 by (rewrite map_length, seq_length; lia).
      rewrite (nth_indep _ 0 ((fun r => idx prefs (nels prefs m * (r + 1)) - 1) 0)) by (rewrite map_length, seq_length; lia).
      rewrite (map_nth (fun r => idx prefs (nels prefs m * (r + 1)) - 1)), seq_nth by lia. cbn [plus]. now rewrite Nat.add_1_r.
    - rewrite app_nth2 by (rewrite map_length, seq_length; lia). rewrite map_length, seq_length. replace (rank - (m - 1)) with 0 by lia. reflexivity. }
  rewrite E1, E2. reflexivity.
Qed.

Lemma nsum_length_concat {B} (l : list (list B)) : nsum (map (@length B) l) = length (concat l).
Proof. induction l as [|a l IH]; [reflexivity|]. cbn [map concat]. rewrite nsum_cons, IH, app_length. reflexivity. Qed.

Lemma set_nth_ok {B} (X : list B) i v : i < length X -> exists X', set_nth X i v = Ok X'.
Proof.
  revert i. induction X as [|x X IH]; intros [|i] H; cbn in *; try lia; [eauto|].
  destruct (IH i ltac:(lia)) as (X' & ->). cbn. eauto.
Qed.
Lemma store_all_total args off ps X : (forall i f, In (i, f) ps -> off <= i < off + length X /\ exists v, call f args = Ok v) ->
  exists X', store_all off ps args X = Ok X'.
Proof.
  revert X. induction ps as [|[i f] ps IH]; intros X H; [cbn; eauto|]. cbn [store_all].
  destruct (H i f (or_introl eq_refl)) as (Hi & v & ->). cbn [bind]. destruct (set_nth_ok X (i - off) v ltac:(lia)) as (X' & E). rewrite E. cbn [bind].
  apply IH. intros j g Hj. rewrite (set_nth_length _ _ _ _ E). apply H. now right.
Qed.

Section Sorted.
Variables (prefs : list (nat * pfun A)) (args : list A) (init : list C) (m : nat).
Hypothesis Hsort : StronglySorted lt (map fst prefs).
Hypothesis Hbound : forall i p, In (i, p) prefs -> i < length init.
Hypothesis Hm : 1 <= m.
Hypothesis HN : 0 < length prefs.

Lemma nels_pos : 0 < nels prefs m.
Proof. unfold nels. apply Nat.div_str_pos. lia. Qed.
Lemma nels_cover : length prefs <= nels prefs m * m.
Proof.
  unfold nels. pose proof (Nat.div_mod (length prefs + m - 1) m ltac:(lia)) as E.
  pose proof (Nat.mod_upper_bound (length prefs + m - 1) m ltac:(lia)). nia.
Qed.
Lemma idx_bound k : k < length prefs -> idx prefs k < length init.
Proof. intros Hk. unfold idx. destruct (nth k prefs d0) as [i p] eqn:E. cbn. apply (Hbound i p). rewrite <- E. now apply nth_In. Qed.

Lemma cut_mono : ranks_fed prefs m -> forall r, r < m -> cut prefs init m r <= cut prefs init m (S r).
Proof.
  intros Hf r Hr. unfold cut. destruct r as [|r]; cbn [Nat.eqb]; [lia|].
  destruct (Nat.ltb_spec (S r) m); [|lia]. pose proof (Hf (S r) ltac:(lia)) as F1. destruct (Nat.ltb_spec (S (S r)) m).
  - pose proof (Hf (S (S r)) ltac:(lia)) as F2. pose proof (sorted_idx_le prefs (nels prefs m * S r) (nels prefs m * S (S r)) Hsort ltac:(nia) F2). lia.
  - pose proof (idx_bound _ F1). lia.
Qed.

Lemma cut_le_idx : ranks_fed prefs m -> forall r k, r < m -> nels prefs m * r <= k -> k < length prefs -> cut prefs init m r <= idx prefs k.
Proof.
  intros Hf r k Hr Hk Hl. unfold cut. destruct (Nat.eqb_spec r 0); [lia|]. destruct (Nat.ltb_spec r m); [|lia].
  pose proof (sorted_idx_le prefs _ _ Hsort Hk Hl). lia.
Qed.

Lemma in_slice_idx a b i f : In (i, f) (slice prefs a b) -> b <= length prefs -> exists k, a <= k < b /\ i = idx prefs k.
Proof.
  intros H Hb. apply (In_nth _ _ d0) in H as (j & Hj & E). rewrite slice_length in Hj by assumption.
  unfold slice in E. exists (a + j). split; [lia|]. unfold idx.
  assert (nth (a + j) prefs d0 = (i, f)) as ->; [|reflexivity].
  rewrite <- E. symmetry. rewrite <- (firstn_skipn a prefs) at 2.
  destruct (Nat.le_gt_cases (length prefs) a); [lia|].
  rewrite (app_nth2 (firstn a prefs)) by (rewrite firstn_length; lia). rewrite firstn_length.
  replace (a + j - Nat.min a (length prefs)) with j by lia.
  rewrite <- (firstn_skipn (b - a) (skipn a prefs)) at 2. rewrite app_nth1 by (rewrite firstn_length, skipn_length; lia). reflexivity.
Qed.

Theorem parallel_sound rank v : ~ length prefs < 50 -> nth_error (arg_fun prefs init args m) rank = Some (Ok v) ->
  arg_fun_serial prefs init args = Ok v.
Proof.
  intros H50 Hv. unfold arg_fun in Hv. destruct (Nat.ltb_spec (length prefs) 50); [lia|]. unfold collective in Hv.
  destruct (all_ok _) as [l|] eqn:E.
  2: { rewrite nth_error_map in Hv. destruct (nth_error _ rank) as [[x|e]|]; discriminate. }
  rewrite nth_error_map in Hv. destruct (nth_error (map _ _) rank) as [x0|]; [|discriminate]. inversion Hv; subst v. clear Hv.
  apply all_ok_inv in E.
  assert (Ll : length l = m) by (apply (f_equal (@length _)) in E; now rewrite !map_length, seq_length in E).
  assert (Hr : forall r, r < m -> arg_fun_rank prefs init args m r = Ok (nth r l [])).
  { intros r Hr. apply (f_equal (fun x => nth r x (Err IndexError))) in E.
    rewrite (nth_indep _ (Err IndexError) (arg_fun_rank prefs init args m 0)) in E by (rewrite map_length, seq_length; lia).
    rewrite map_nth, seq_nth in E by lia. cbn [plus] in E. rewrite E.
    rewrite (nth_indep _ (Err IndexError) (Ok [])) by (rewrite map_length; lia). now rewrite map_nth. }
  assert (Hf : ranks_fed prefs m) by (eapply rank_fed; apply (Hr 0); lia).
  set (q := nels prefs m).
  set (pc := fun r => Nat.min (q * r) (length prefs)).
  assert (Hp : prefs = concat (map (fun r => slice prefs (pc r) (pc (S r))) (seq 0 m))).
  { rewrite (slices_concat prefs pc); [|intros r Hrm; unfold pc; nia]. unfold pc at 1. rewrite Nat.mul_0_r. cbn [Nat.min]. symmetry.
    apply slice_all. unfold pc. pose proof nels_cover. fold q in H0. lia. }
  assert (Hi : init = concat (map (fun r => slice init (cut prefs init m r) (cut prefs init m (S r))) (seq 0 m))).
  { rewrite (slices_concat init (cut prefs init m)) by (apply cut_mono; assumption). symmetry. change (cut prefs init m 0) with 0.
    apply slice_all. unfold cut. destruct (Nat.eqb_spec m 0); [lia|]. now rewrite Nat.ltb_irrefl. }
  unfold arg_fun_serial. rewrite Hp at 1. rewrite Hi at 1.
  assert (NM : forall B (f : nat -> B) d k, k < m -> nth k (map f (seq 0 m)) d = f k).
  { intros B f d k Hk. rewrite (nth_indep _ d (f 0)) by (rewrite map_length, seq_length; lia). rewrite map_nth, seq_nth by lia. reflexivity. }
  assert (Epc : forall k, k < m -> pc k = q * k).
  { intros k Hk. unfold pc. destruct (Nat.eq_dec k 0) as [->|]; [lia|]. pose proof (Hf k ltac:(lia)). unfold q. lia. }
  apply (store_all_slices args (map (fun r => slice prefs (pc r) (pc (S r))) (seq 0 m))
           (map (fun r => slice init (cut prefs init m r) (cut prefs init m (S r))) (seq 0 m)) l [] (map (cut prefs init m) (seq 0 m)));
    rewrite ?map_length, ?seq_length; try lia.
  - intros k Hk. rewrite NM by assumption. rewrite firstn_map.
    assert (firstn k (seq 0 m) = seq 0 k) as ->.
    { replace m with (k + (m - k)) by lia. rewrite seq_app, firstn_app, seq_length, Nat.sub_diag, firstn_O, app_nil_r. apply firstn_all2. now rewrite seq_length. }
    rewrite nsum_length_concat, (slices_concat init (cut prefs init m)) by (intros; apply cut_mono; [assumption|lia]).
    change (cut prefs init m 0) with 0. rewrite slice_length; [cbn [length plus]; lia|]. unfold cut. destruct (Nat.eqb_spec k 0); [lia|].
    destruct (Nat.ltb_spec k m); [|lia]. pose proof (idx_bound (nels prefs m * k) ltac:(apply Hf; lia)). lia.
  - intros k i f Hk Hin. rewrite NM in Hin by assumption. rewrite NM by assumption.
    apply in_slice_idx in Hin as (p & Hp1 & ->); [|unfold pc; lia]. rewrite (Epc k Hk) in Hp1. apply cut_le_idx; [assumption|assumption|unfold q in *; lia|unfold pc in Hp1; lia].
  - intros k Hk. rewrite !NM by assumption. rewrite <- (Hr k Hk). rewrite rank_value by assumption. fold q.
    rewrite (Epc k Hk). unfold pc. replace (q * S k) with (q * k + q) by lia. reflexivity.
Qed.

Theorem parallel_complete : ~ length prefs < 50 ->
  (forall r, 1 <= r < m -> nels prefs m * r < length prefs /\ idx prefs (nels prefs m * r - 1) + 1 < idx prefs (nels prefs m * r)) ->
  (forall i p, In (i, p) prefs -> exists v, call p args = Ok v) ->
  forall rank, rank < m -> exists v, nth_error (arg_fun prefs init args m) rank = Some (Ok v).
Proof.
  intros H50 Hgap Hcall rank Hrank. assert (Hf : ranks_fed prefs m) by (intros r Hr; apply Hgap; assumption).
  assert (Hall : forall r, r < m -> exists v, arg_fun_rank prefs init args m r = Ok v).
  { intros r Hr. rewrite rank_value by assumption. apply store_all_total. intros i f Hin. split.
    - apply in_slice_idx in Hin as (k & Hk & ->); [|lia]. pose proof (cut_le_idx Hf r k Hr ltac:(lia) ltac:(lia)).
      assert (cut prefs init m (S r) <= length init).
      { unfold cut. cbn [Nat.eqb]. destruct (Nat.ltb_spec (S r) m); [|lia]. pose proof (idx_bound _ (Hf (S r) ltac:(lia))). lia. }
      rewrite slice_length by assumption. split; [assumption|].
      assert (idx prefs k < cut prefs init m (S r)).
      { unfold cut. cbn [Nat.eqb]. destruct (Nat.ltb_spec (S r) m); [|apply idx_bound; lia].
        pose proof (Hgap (S r) ltac:(lia)) as [G1 G2].
        pose proof (sorted_idx_le prefs k (nels prefs m * S r - 1) Hsort ltac:(lia) ltac:(lia)). lia. }
      lia.
    - apply (Hcall i). unfold slice in Hin.
      rewrite <- (firstn_skipn (nels prefs m * r) prefs). apply in_or_app. right.
      rewrite <- (firstn_skipn (Nat.min (nels prefs m * r + nels prefs m) (length prefs) - nels prefs m * r) (skipn (nels prefs m * r) prefs)).
      apply in_or_app. left. exact Hin. }
  unfold arg_fun. destruct (Nat.ltb_spec (length prefs) 50); [lia|]. unfold collective.
  assert (exists l, all_ok (map (arg_fun_rank prefs init args m) (seq 0 m)) = Some l) as (l & ->).
  { clear -Hall. assert (G : forall s k, s + k <= m -> exists l, all_ok (map (arg_fun_rank prefs init args m) (seq s k)) = Some l).
    { intros s k. revert s. induction k as [|k IH]; intros s H; [cbn; eauto|]. cbn. destruct (Hall s ltac:(lia)) as (v & ->).
      destruct (IH (S s) ltac:(lia)) as (l & ->). eauto. }
    apply G. lia. }
  exists (concat l). rewrite nth_error_map. destruct (nth_error (map _ _) rank) eqn:E; [reflexivity|].
  apply nth_error_None in E. rewrite map_length, seq_length in E. lia.
Qed.
End Sorted.

(** the serial result *)
Lemma set_nth_nth {B} (X X' : list B) i v d j : set_nth X i v = Ok X' -> nth j X' d = if j =? i then v else nth j X d.
Proof.
  revert i X' j. induction X as [|x X IH]; intros [|i] X' j H; cbn in H; try discriminate.
  - inversion H. destruct j; reflexivity.
  - destruct (set_nth X i v) as [r|] eqn:E; cbn in H; [|discriminate]. inversion H; subst. destruct j; [reflexivity|]. cbn. apply (IH i r j E).
Qed.
Lemma serial_value prefs args init v : NoDup (map fst prefs) -> arg_fun_serial prefs init args = Ok v ->
  length v = length init /\ forall i, prefactor_at args prefs (nth i init C0) i (nth i v C0).
Proof.
  intros HN H. split; [eapply store_all_length; exact H|]. unfold arg_fun_serial in H. revert init H.
  induction prefs as [|[k f] prefs IH]; intros init H i; cbn in H.
  - inversion H; subst. right. split; [intros p []|reflexivity].
  - inversion HN as [|? ? Hk HN']; subst. destruct (call f args) as [x|] eqn:Ef; cbn in H; [|discriminate].
    rewrite Nat.sub_0_r in H. destruct (set_nth init k x) as [r|] eqn:E; cbn in H; [|discriminate].
    specialize (IH HN' r H i). rewrite (set_nth_nth _ _ _ _ C0 i E) in IH.
    destruct IH as [(p & Hp & Ep)|[Hno Ev]].
    + left. exists p. split; [now right|assumption].
    + destruct (Nat.eqb_spec i k) as [->|Hne].
      * left. exists f. split; [now left|]. now rewrite Ef, Ev.
      * right. split; [|assumption]. intros p [Hp|Hp]; [inversion Hp; congruence|]. exact (Hno p Hp).
Qed.
End Par.
