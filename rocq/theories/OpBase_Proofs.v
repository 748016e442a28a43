From Coq Require Import ZArith List Reals Lra Lia Bool Arith Sorted Permutation.
From Verif Require Import Base Cplx Mpi_Model Stats_Model Stats_Proofs Mpi_Proofs BranchFree_Model BranchFree_Spec BranchFree_Proofs BranchFree3_Proofs
  OpBase_Model OpBase_Spec.
Import ListNotations.

(** ** sorting *)
Lemma insert_perm x l : Permutation (insert x l) (x :: l).
Proof.
  induction l as [|y l IH]; [reflexivity|]. cbn. destruct (x <=? y); [reflexivity|].
  rewrite IH. apply perm_swap.
Qed.
Lemma sort_perm l : Permutation (sort l) l.
Proof. induction l as [|x l IH]; [reflexivity|]. cbn. rewrite insert_perm. now constructor. Qed.
Lemma insert_sorted x l : StronglySorted le l -> StronglySorted le (insert x l).
Proof.
  induction 1 as [|y l Hl IH Hy]; cbn; [repeat constructor|].
  destruct (Nat.leb_spec x y).
  - constructor; [constructor; assumption|]. constructor; [assumption|]. eapply Forall_impl; [|exact Hy]. intros; lia.
  - constructor; [assumption|]. apply Forall_forall. intros z Hz. apply (Permutation_in _ (insert_perm x l)) in Hz.
    destruct Hz as [<-|Hz]; [lia|]. rewrite Forall_forall in Hy. auto.
Qed.
Lemma sort_sorted l : StronglySorted le (sort l).
Proof. induction l; cbn; [constructor|]. now apply insert_sorted. Qed.
Lemma sorted_unique l1 l2 : StronglySorted le l1 -> StronglySorted le l2 -> Permutation l1 l2 -> l1 = l2.
Proof.
  intros H1. revert l2. induction H1 as [|x l1 Hl IH Hx]; intros l2 H2 P.
  - now apply Permutation_nil in P.
  - destruct l2 as [|y l2]; [symmetry in P; apply Permutation_nil in P; discriminate|]. inversion H2 as [|? ? H2' Hy]; subst.
    assert (x = y) as ->.
    { rewrite Forall_forall in Hx, Hy. assert (In y (x :: l1)) by (eapply Permutation_in; [symmetry; exact P|now left]).
      assert (In x (y :: l2)) by (eapply Permutation_in; [exact P|now left]).
      destruct H as [->|H]; [reflexivity|]. destruct H0 as [->|H0]; [reflexivity|]. specialize (Hx _ H). specialize (Hy _ H0). lia. }
    f_equal. apply IH; [assumption|]. eapply Permutation_cons_inv; exact P.
Qed.

(** ** find_nonzero *)
Definition nz_idx (i : nat) (m : list C) : list nat :=
  map fst (filter (fun kx => is_nonzero (snd kx)) (combine (seq i (length m)) m)).

Lemma find_scan_spec last i m :
  let '(ch, n) := find_scan last i m in
  n = length (nz_idx i m) /\ n <= length m /\ Permutation ch (nz_idx i m ++ repeat last (length m - n)).
Proof.
  revert i. induction m as [|x m IH]; intros i; cbn [find_scan].
  - cbn. split; [reflexivity|]. split; [lia|constructor].
  - specialize (IH (S i)). destruct (find_scan last (S i) m) as [ch n]. destruct IH as (E & Hle & P).
    unfold nz_idx in *. cbn [length seq combine filter snd]. destruct (is_nonzero x); cbn [map fst length app].
    + split; [lia|]. split; [lia|]. constructor. exact P.
    + split; [exact E|]. split; [lia|]. replace (S (length m) - n) with (S (length m - n)) by lia. cbn [repeat].
      rewrite P. apply Permutation_middle.
Qed.

Lemma nz_idx_in i m k : In k (nz_idx i m) -> i <= k < i + length m /\ is_nonzero (nth (k - i) m C0) = true.
Proof.
  unfold nz_idx. intros H. apply in_map_iff in H as ([k' x] & <- & H). apply filter_In in H as [H Hx]. cbn [fst snd] in *.
  revert i H. induction m as [|y m IH]; intros i H; cbn in H; [contradiction|]. destruct H as [H|H].
  - inversion H; subst. cbn [length]. split; [lia|]. rewrite Nat.sub_diag. exact Hx.
  - destruct (IH (S i) H) as [L N]. cbn [length]. split; [lia|]. replace (k' - i) with (S (k' - S i)) by lia. exact N.
Qed.
Lemma nz_idx_sorted i m : StronglySorted le (nz_idx i m).
Proof.
  revert i. induction m as [|x m IH]; intros i; [constructor|]. unfold nz_idx. cbn [length seq combine filter snd].
  specialize (IH (S i)). destruct (is_nonzero x); [|exact IH]. cbn [map fst]. constructor; [exact IH|].
  apply Forall_forall. intros k Hk. apply nz_idx_in in Hk. lia.
Qed.
Lemma sorted_app_repeat l x n : StronglySorted le l -> (forall y, In y l -> y <= x) -> StronglySorted le (l ++ repeat x n).
Proof.
  induction 1 as [|a l Hl IH Ha]; intros H; cbn [app].
  - induction n; cbn; constructor; [assumption|]. apply Forall_forall. intros y Hy. apply repeat_spec in Hy. lia.
  - constructor; [apply IH; intros; apply H; now right|]. apply Forall_app. split; [assumption|].
    apply Forall_forall. intros y Hy. apply repeat_spec in Hy. subst. apply H. now left.
Qed.

Lemma find_nonzero_spec m :
  find_nonzero m = (nz_idx 0 m ++ repeat (length m - 1) (length m - length (nz_idx 0 m)), length (nz_idx 0 m)).
Proof.
  unfold find_nonzero. pose proof (find_scan_spec (length m - 1) 0 m) as H. destruct (find_scan (length m - 1) 0 m) as [ch n].
  destruct H as (-> & Hle & P). f_equal. apply sorted_unique; [apply sort_sorted| |now rewrite sort_perm].
  apply sorted_app_repeat; [apply nz_idx_sorted|]. intros y Hy. apply nz_idx_in in Hy. lia.
Qed.

Lemma contract_nz (e : list (config * C)) f :
  csum (map (fun k => (nth k (map snd e) C0 * f (nth k (map fst e) []))%C) (nz_idx 0 (map snd e))) = contract_large e f.
Proof.
  unfold contract_large.
  assert (G : forall i (pre : list (config * C)), length pre = i ->
    csum (map (fun k => (nth k (map snd (pre ++ e)) C0 * f (nth k (map fst (pre ++ e)) []))%C) (nz_idx i (map snd e)))
    = csum (map (fun sm => if Rlt_dec (/ 1000000) (Cabs (snd sm)) then (snd sm * f (fst sm))%C else C0) e)).
  { induction e as [|[s x] e IH]; intros i pre Hp; [reflexivity|].
    unfold nz_idx. cbn [map length seq combine filter snd fst].
    specialize (IH (S i) (pre ++ [(s, x)])). rewrite <- !app_assoc in IH. cbn [app] in IH.
    rewrite app_length in IH. cbn [length] in IH. specialize (IH ltac:(lia)). unfold nz_idx in IH.
    rewrite csum_cons. rewrite <- IH. clear IH. unfold is_nonzero at 1. fold threshold.
    destruct (Rlt_dec threshold (Cabs x)).
    - cbn [map fst]. rewrite csum_cons. f_equal.
      assert (forall B (g : config * C -> B) d, nth i (map g (pre ++ (s, x) :: e)) d = g (s, x)) as N.
      { intros B g d. rewrite map_app, app_nth2 by (rewrite map_length; lia). rewrite map_length, Hp, Nat.sub_diag. reflexivity. }
      rewrite (N _ snd C0), (N _ fst []). reflexivity.
    - rewrite Cadd0l. reflexivity. }
  apply (G 0 []). reflexivity.
Qed.

(** ** the compacted elements of one sample *)
Definition compact1 (mx : nat) (e : list (config * C)) : list (config * C) :=
  let '(idx, num) := find_nonzero (map snd e) in
  let idx := firstn mx idx in
  combine (map (gather1 [] (map fst e)) idx) (set_zero_to_zero (map snd e) idx num).

Lemma combine_map_same {A B D} (f : A -> B) (g : A -> D) l : combine (map f l) (map g l) = map (fun x => (f x, g x)) l.
Proof. induction l; cbn; congruence. Qed.

Lemma csum_prefix {B} (g : nat -> B -> C) (h : B -> C) (a b : list B) i n :
  (forall k x, k < i + length a -> g k x = h x) -> (forall k x, i + length a <= k -> g k x = C0) -> n = length (a ++ b) ->
  csum (map (fun ki => g (fst ki) (snd ki)) (combine (seq i n) (a ++ b))) = csum (map h a).
Proof.
  intros H1 H2 ->. revert i H1 H2. induction a as [|x a IH]; intros i H1 H2; cbn [app length].
  - cbn [map]. rewrite csum_nil. clear H1. revert i H2. induction b as [|y b IHb]; intros i H2; [reflexivity|].
    cbn [length seq combine map fst snd]. rewrite csum_cons, H2 by (cbn; lia). rewrite IHb; [ring|].
    intros k z Hk. apply H2. cbn in *. lia.
  - cbn [seq combine map fst snd]. rewrite !csum_cons, H1 by (cbn; lia). f_equal. apply IH.
    + intros k z Hk. apply H1. cbn. lia.
    + intros k z Hk. apply H2. cbn. lia.
Qed.

Lemma compact1_contract mx e f : length (nz_idx 0 (map snd e)) <= mx -> contract (compact1 mx e) f = contract_large e f.
Proof.
  intros Hmx. unfold compact1. rewrite find_nonzero_spec. set (a := nz_idx 0 (map snd e)) in *. set (m := map snd e) in *.
  rewrite firstn_app, (firstn_all2 a) by assumption. set (b := firstn (mx - length a) (repeat (length m - 1) (length m - length a))).
  unfold set_zero_to_zero, contract.
  rewrite <- (map_id (a ++ b)) at 1.
  assert (E : map (gather1 [] (map fst e)) (map (fun x => x) (a ++ b)) = map (fun ki => gather1 [] (map fst e) (snd ki)) (combine (seq 0 (length (a ++ b))) (a ++ b))).
  { rewrite map_map. generalize 0. induction (a ++ b) as [|x l IH]; intros i; [reflexivity|]. cbn. f_equal. apply IH. }
  rewrite E, combine_map_same, map_map. cbn [fst snd].
  rewrite (csum_prefix (fun k x => ((if k <? length a then gather1 C0 m x else C0 * gather1 C0 m x) * f (gather1 [] (map fst e) x))%C)
             (fun x => (gather1 C0 m x * f (gather1 [] (map fst e) x))%C) a b 0 (length (a ++ b))).
  - rewrite <- contract_nz. fold m. fold a. apply csum_ext. intros k Hk. unfold a in Hk. apply nz_idx_in in Hk as [Hk _].
    rewrite !gather1_nth; [reflexivity| |]; unfold m in *; rewrite map_length in *; lia.
  - intros k x Hk. destruct (Nat.ltb_spec k (length a)); [reflexivity|lia].
  - intros k x Hk. destruct (Nat.ltb_spec k (length a)); [lia|ring].
  - reflexivity.
Qed.

Lemma contract_large_clean e f : clean e -> contract_large e f = contract e f.
Proof.
  intros H. apply csum_ext. intros [s m] Hin. cbn [fst snd]. destruct (Rlt_dec (/ 1000000) (Cabs m)); [reflexivity|].
  destruct (H s m Hin) as [->|Hm]; [ring|contradiction].
Qed.

Lemma contract_large_error e f :
  (Cabs (contract e f - contract_large e f)%C <= / 1000000 * rsum (map (fun sm => Cabs (f (fst sm))) e))%R.
Proof.
  unfold contract, contract_large. rewrite <- csum_sub. eapply Rle_trans; [apply Cabs_csum_le|]. rewrite <- rsum_scal.
  apply rsum_map_le. intros [s m] _. cbn [fst snd]. destruct (Rlt_dec (/ 1000000) (Cabs m)) as [Hm|Hm].
  - replace (m * f s - m * f s)%C with C0 by ring. rewrite Cabs_C0. apply Rmult_le_pos; [lra|apply Cabs_ge].
  - replace (m * f s - C0)%C with (m * f s)%C by ring. rewrite Cabs_mul. apply Rmult_le_compat_r; [apply Cabs_ge|lra].
Qed.

Lemma list_max_le_in l x : In x l -> x <= list_max l.
Proof.
  intros H. pose proof (proj1 (list_max_le l (list_max l)) (le_n _)) as F. rewrite Forall_forall in F. auto.
Qed.

Theorem compact_ok els : concat els <> [] ->
  exists mx, compact els = Ok (map (map (compact1 mx)) els)
    /\ forall e, In e (concat els) -> length (nz_idx 0 (map snd e)) <= mx.
Proof.
  intros H. unfold compact. destruct (concat els) as [|e0 l] eqn:E; [congruence|].
  set (mx := list_max (map (fun e => snd (find_nonzero (map snd e))) (e0 :: l))).
  exists mx. split; [reflexivity|]. intros e He.
  assert (In (snd (find_nonzero (map snd e))) (map (fun e => snd (find_nonzero (map snd e))) (e0 :: l))) as Hi by (apply (in_map (fun e => snd (find_nonzero (map snd e)))); exact He).
  apply list_max_le_in in Hi. rewrite find_nonzero_spec in Hi. exact Hi.
Qed.

(** ** local estimators *)
(** what one evaluation computes for a sample *)
Definition est (op : config -> list (config * C)) (psi : state) (logged : bool) (sy : config * C) : C :=
  contract_large (op (fst sy)) (fun s' => Cexp ((if logged && negb (st_log psi) then Clog (st_val psi s') else st_val psi s') - snd sy)%C).

Lemma eval_batch_ok op psi logged (Z : list (list (config * C))) : concat Z <> [] ->
  eval_batch op psi logged (map (map fst) Z) (map (map snd) Z) = Ok (map (map (est op psi logged)) Z).
Proof.
  intros H. unfold eval_batch.
  destruct (compact_ok (map (map op) (map (map fst) Z))) as (mx & -> & Hmx).
  { rewrite <- concat_map, <- concat_map. destruct (concat Z); [congruence|discriminate]. }
  cbn [bind]. f_equal. rewrite !map_map.
  assert (G : forall Z' : list (list (config * C)), incl (concat Z') (concat Z) ->
     map2 (map2 (fun e y => O_loc1 (map (fun sm : config * C => (snd sm, if logged && negb (st_log psi) then Clog (st_val psi (fst sm)) else st_val psi (fst sm))) e) y))
       (map (fun x => map (compact1 mx) (map op (map fst x))) Z') (map (map snd) Z') = map (map (est op psi logged)) Z').
  { induction Z' as [|z Z' IH]; intros Hin; [reflexivity|]. unfold map2 at 1. cbn [map combine]. cbn [fst snd]. f_equal.
    - assert (Hz : incl z (concat Z)) by (intros x Hx; apply Hin; cbn; apply in_or_app; now left).
      clear IH Hin. induction z as [|sy z IHz]; [reflexivity|]. unfold map2. cbn [map combine fst snd].
      assert (Hsy : In sy (concat Z)) by (apply Hz; now left). specialize (IHz (fun x Hx => Hz x (or_intror Hx))). unfold map2 in IHz. rewrite IHz. f_equal.
      unfold O_loc1. rewrite map_map. cbn [fst snd]. unfold est.
      rewrite <- (compact1_contract mx); [reflexivity|]. apply Hmx. rewrite <- concat_map, <- concat_map. apply in_map, in_map. exact Hsy.
    - apply IH. intros x Hx. apply Hin. cbn. apply in_or_app. now right. }
  apply G. apply incl_refl.
Qed.

(** ** batches *)
Lemma dslice_map {A B} (f : A -> B) start size d : dslice start size (map (map f) d) = map (map f) (dslice start size d).
Proof.
  unfold dslice. rewrite !map_map. apply map_ext. intros l. rewrite map_length, skipn_map, firstn_map. reflexivity.
Qed.
Lemma expand_map {A B} (f : A -> B) z size d : expand_batch (f z) size (map (map f) d) = map (map f) (expand_batch z size d).
Proof.
  unfold expand_batch. rewrite !map_map. apply map_ext. intros l. rewrite map_length, map_app. f_equal.
  induction (size - length l); cbn; congruence.
Qed.
Lemma dslice_in {A} start size n (d : list (list A)) : Forall (fun l => length l = n) d -> start + size <= n ->
  dslice start size d = map (fun l => firstn size (skipn start l)) d.
Proof.
  intros H Hs. unfold dslice. apply map_ext_in. intros l Hl. rewrite Forall_forall in H. rewrite (H l Hl), Nat.min_l by lia. reflexivity.
Qed.
Lemma dupdate_map {A B} beg (f g : A -> list B) d : dupdate beg (map f d) (map g d) =
  map (fun l => let s := Nat.min beg (length (f l) - length (g l)) in firstn s (f l) ++ g l ++ skipn (s + length (g l)) (f l)) d.
Proof. unfold dupdate, map2. rewrite combine_map_same, map_map. reflexivity. Qed.

Lemma dupdate_at {A B} beg m n (h1 h2 : A -> B) z (d : list (list A)) : Forall (fun l => length l = n) d -> beg + m <= n ->
  dupdate beg (map (fun l => map h1 (firstn beg l) ++ repeat z (n - beg)) d) (map (fun l => map h2 (firstn m (skipn beg l))) d)
  = map (fun l => map h1 (firstn beg l) ++ map h2 (firstn m (skipn beg l)) ++ repeat z (n - (beg + m))) d.
Proof.
  intros H Hb. rewrite dupdate_map. apply map_ext_in. intros l Hl. rewrite Forall_forall in H. specialize (H l Hl). cbv zeta.
  assert (La : length (map h1 (firstn beg l)) = beg) by (rewrite map_length, firstn_length; lia).
  assert (Lb : length (map h2 (firstn m (skipn beg l))) = m) by (rewrite map_length, firstn_length, skipn_length; lia).
  rewrite app_length, La, Lb, repeat_length. rewrite Nat.min_l by lia.
  rewrite firstn_app, La, Nat.sub_diag. cbn [firstn]. rewrite app_nil_r, firstn_all2 by lia. f_equal. f_equal.
  rewrite skipn_app, La, skipn_all2 by lia. cbn [app].
  replace (beg + m - beg) with m by lia. replace (n - beg) with (m + (n - (beg + m))) by lia.
  rewrite repeat_app, skipn_app, repeat_length, skipn_all2 by (rewrite repeat_length; lia). rewrite Nat.sub_diag. reflexivity.
Qed.

Lemma firstn_add {A} a b (l : list A) : firstn (a + b) l = firstn a l ++ firstn b (skipn a l).
Proof. revert l. induction a; intros l; [reflexivity|]. destruct l; [cbn; now rewrite firstn_nil|]. cbn. now f_equal. Qed.

Lemma concat_nonnil {A} (d : list (list A)) n : d <> [] -> 0 < n -> Forall (fun l => length l = n) d -> concat d <> [].
Proof.
  intros Hd Hn H. destruct d as [|l d]; [congruence|]. inversion H; subst. destruct l; cbn in *; [lia|discriminate].
Qed.

Lemma rebatch_ok n bs : 1 <= n -> 1 <= bs ->
  let '(b, nb, rem) := rebatch n bs in 1 <= b /\ 1 <= nb /\ rem = n mod b /\ nb = n / b /\ nb * b + rem = n.
Proof.
  intros Hn Hb. unfold rebatch.
  assert (G : forall b, 1 <= b -> b <= n -> 1 <= b /\ 1 <= n / b /\ n mod b = n mod b /\ n / b = n / b /\ n / b * b + n mod b = n).
  { intros b H1 H2. repeat split; [assumption| |]. - apply Nat.div_str_pos. lia. - pose proof (Nat.div_mod n b ltac:(lia)). lia. }
  destruct (Nat.ltb_spec 0 (n mod bs)).
  - apply G.
    + apply Nat.div_str_pos. split; [lia|]. destruct (Nat.le_gt_cases bs n).
      * destruct (Nat.eq_dec bs 1) as [->|]; [rewrite Nat.mod_1_r in H; lia|].
        assert (n / bs < n) by (apply Nat.div_lt; lia). lia.
      * rewrite Nat.div_small by lia. lia.
    + apply Nat.div_le_upper_bound; [lia|]. nia.
  - apply G; [assumption|]. destruct (Nat.le_gt_cases bs n); [assumption|]. rewrite Nat.mod_small in H by lia. lia.
Qed.

Section Batched.
Variables (op : config -> list (config * C)) (psi : state) (Z : list (list (config * C))) (n : nat).
Hypothesis (HZ : Z <> []) (Hn : 1 <= n) (HL : Forall (fun l => length l = n) Z).

Lemma slice_len {A} start size (d : list (list A)) : Forall (fun l => length l = n) d -> start + size <= n ->
  Forall (fun l => length l = size) (map (fun l => firstn size (skipn start l)) d).
Proof.
  intros H Hs. apply Forall_map. eapply Forall_impl; [|exact H]. cbn. intros l Hl. rewrite firstn_length, skipn_length. lia.
Qed.

Lemma batch_loop_ok bs k todo0 : 1 <= bs -> (todo0 + k) * bs <= n ->
  batch_loop op psi (map (map fst) Z) (map (map snd) Z) bs (seq todo0 k)
    (match todo0 with 0 => None | _ => Some (map (fun l => map (est op psi true) (firstn (todo0 * bs) l) ++ repeat C0 (n - todo0 * bs)) Z) end)
  = Ok (match todo0 + k with 0 => None | _ => Some (map (fun l => map (est op psi true) (firstn ((todo0 + k) * bs) l) ++ repeat C0 (n - (todo0 + k) * bs)) Z) end).
Proof.
  intros Hb. revert todo0. induction k as [|k IH]; intros t Ht.
  - rewrite Nat.add_0_r. reflexivity.
  - cbn [seq batch_loop]. rewrite !dslice_map. rewrite (dslice_in _ _ n) by (try assumption; nia).
    rewrite eval_batch_ok.
    2:{ apply (concat_nonnil _ bs); [destruct Z; [congruence|discriminate]|lia|]. apply slice_len; [assumption|nia]. }
    cbn [bind]. cbv zeta.
    assert (E : match (match t with 0 => None | _ => Some (map (fun l => map (est op psi true) (firstn (t * bs) l) ++ repeat C0 (n - t * bs)) Z) end)
                with Some o => o | None => map (map (fun _ => C0)) (map (map fst) Z) end
              = map (fun l => map (est op psi true) (firstn (t * bs) l) ++ repeat C0 (n - t * bs)) Z).
    { destruct t; [|reflexivity]. rewrite map_map. apply map_ext_in. intros l Hl. rewrite map_map. cbn [Nat.mul firstn map app].
      rewrite Forall_forall in HL. rewrite Nat.sub_0_r, <- (HL l Hl). clear. induction l; cbn; congruence. }
    rewrite E, map_map, (dupdate_at (t * bs) bs n) by (try assumption; nia).
    specialize (IH (S t) ltac:(nia)). replace (t + S k) with (S t + k) by lia.
    rewrite <- IH. f_equal. f_equal. apply map_ext. intros l. replace (S t * bs) with (t * bs + bs) by lia.
    rewrite firstn_add, map_app, <- app_assoc. reflexivity.
Qed.

Theorem batched_ok nsites bs0 : 1 <= bs0 -> let '(bs, nb, rem) := rebatch n bs0 in
  get_O_loc_batched op psi nsites (map (map fst) Z) (map (map snd) Z) bs0
  = Ok (Some (map (fun l => map (est op psi true) (firstn (nb * bs) l) ++ map (est op psi false) (skipn (nb * bs) l)) Z)).
Proof.
  intros Hb0. pose proof (rebatch_ok n bs0 Hn Hb0) as R. destruct (rebatch n bs0) as [[bs nb] rem] eqn:E. destruct R as (H1 & H2 & H3 & H4 & H5).
  unfold get_O_loc_batched.
  assert (N : (match map (map fst) Z with [] => 0 | l :: _ => length l end) = n).
  { destruct Z as [|z Z']; [congruence|]. inversion HL; subst. cbn. now rewrite map_length. }
  rewrite N, E. rewrite (batch_loop_ok bs nb 0 H1) by nia. cbn [bind Nat.add]. destruct nb as [|nb']; [lia|]. set (nb := S nb') in *.
  destruct (Nat.ltb_spec 0 rem) as [Hr|Hr].
  - rewrite !dslice_map, <- H3. rewrite (dslice_in _ rem n) by (try assumption; lia).
    set (D := map (fun l => firstn rem (skipn (nb * bs) l)) Z).
    pose proof (@expand_map (config * C) config fst (repeat 0 nsites, C0) bs D) as X1. pose proof (@expand_map (config * C) C snd (repeat 0 nsites, C0) bs D) as X2.
    cbn [fst snd] in X1, X2.
    change (@expand_batch (list nat)) with (@expand_batch config). rewrite X1, X2. unfold D in *. clear D X1 X2. rewrite eval_batch_ok.
    2:{ apply (concat_nonnil _ bs); [destruct Z; [congruence|discriminate]|lia|]. unfold expand_batch. rewrite map_map. apply Forall_map.
        eapply Forall_impl; [|exact HL]. cbn. intros l Hl. rewrite app_length, repeat_length, firstn_length, skipn_length.
        assert (rem < bs) by (subst rem; apply Nat.mod_upper_bound; lia). lia. }
    cbn [bind]. rewrite dslice_map.
    assert (X : @dslice (config * C) 0 rem (@expand_batch (config * C) (repeat 0 nsites, C0) bs (map (fun l => firstn rem (skipn (nb * bs) l)) Z))
                = map (fun l => firstn rem (skipn (nb * bs) l)) Z).
    { unfold dslice, expand_batch. rewrite !map_map. apply map_ext_in. intros l Hl. rewrite Forall_forall in HL. specialize (HL l Hl).
      rewrite Nat.min_0_l. cbn [skipn]. rewrite firstn_app, firstn_firstn, Nat.min_id, firstn_length, skipn_length, HL.
      replace (rem - Nat.min rem (n - nb * bs)) with 0 by lia. cbn [firstn]. now rewrite app_nil_r. }
    rewrite X, map_map, (dupdate_at (nb * bs) rem n) by (try assumption; lia). do 2 f_equal. apply map_ext_in. intros l Hl.
    rewrite Forall_forall in HL. specialize (HL l Hl). replace (n - (nb * bs + rem)) with 0 by lia. cbn [repeat]. rewrite app_nil_r.
    f_equal. f_equal. apply firstn_all2. rewrite skipn_length. lia.
  - do 2 f_equal. apply map_ext_in. intros l Hl. rewrite Forall_forall in HL. specialize (HL l Hl). f_equal.
    rewrite skipn_all2 by lia. replace (n - nb * bs) with 0 by lia. reflexivity.
Qed.
End Batched.

(** samples with their log-amplitudes *)
Lemma zip_samples (samples : list (list config)) (lps : list (list C)) :
  Forall2 (fun a b => length a = length b) samples lps ->
  exists Z, samples = map (map fst) Z /\ lps = map (map snd) Z.
Proof.
  induction 1 as [|a b samples lps H _ IH]; [exists []; split; reflexivity|]. destruct IH as (Z & -> & ->).
  exists (combine a b :: Z). cbn [map]. split; f_equal; clear -H; revert b H; induction a; intros [|y b] H; try discriminate; cbn in *; f_equal; auto.
Qed.

Lemma est_log op psi b sy : st_log psi = true -> est op psi b sy = est op psi true sy.
Proof. intros H. unfold est. rewrite H. destruct b; reflexivity. Qed.

Lemma Cexp_opp y : Cexp (- y)%C = Cinv (Cexp y).
Proof.
  assert (E : (Cexp (- y) * Cexp y)%C = C1) by (rewrite <- Cexp_add; replace (- y + y)%C with C0 by ring; apply Cexp_C0).
  pose proof (Cexp_neq0 y). replace (Cexp (- y)%C) with (Cexp (- y) * Cexp y * Cinv (Cexp y))%C by (field; assumption). rewrite E. ring.
Qed.

Lemma est_value op psi s y : clean (op s) -> Cexp y = amplitude psi s ->
  (st_log psi = false -> forall s' m, In (s', m) (op s) -> m <> C0 -> amplitude psi s' <> C0) ->
  est op psi true (s, y) = O_loc_spec (op s) (amplitude psi) s.
Proof.
  intros Hc Hy Hz. unfold est. cbn [fst snd]. rewrite contract_large_clean by assumption. apply csum_ext. intros [s' m] Hin. cbn [fst snd].
  assert (D : m = C0 \/ m <> C0) by apply Classical_Prop.classic. destruct D as [->|Hm]; [ring|]. f_equal.
  rewrite <- Hy. unfold Csub. rewrite Cexp_add, Cexp_opp. unfold Cdiv. f_equal.
  unfold amplitude in *. destruct (st_log psi); cbn [andb negb]; [reflexivity|]. apply Cexp_Clog. eapply Hz; eauto.
Qed.

(** ** histories *)
Section Hist.
Context {A : Type} (lDim d : nat).
Notation operator_elements := (@operator_elements A).

Lemma compile_rows (ops : list (opstr A)) c : compile lDim ops = Ok c -> length (c_rows c) = length ops.
Proof.
  unfold compile. destruct (existsb _ ops); [discriminate|]. destruct (mapM (row lDim (max_len ops)) ops) as [rows|] eqn:E; [|discriminate].
  cbn [bind]. intros H. inversion H; subst. cbn. apply (mapM_ok_inv _ _ _ []) in E. apply E.
Qed.
Lemma set_nth_length {B} (l : list B) i v l' : set_nth l i v = Ok l' -> length l' = length l.
Proof.
  revert i l'. induction l as [|x l IH]; intros [|i] l' H; cbn in H; try discriminate.
  - inversion H; reflexivity.
  - destruct (set_nth l i v) eqn:E; [|discriminate]. inversion H; subst. cbn. f_equal. eauto.
Qed.
Lemma store_all_length off (prefs : list (nat * pfun A)) args res v : store_all off prefs args res = Ok v -> length v = length res.
Proof.
  revert res. induction prefs as [|[i p] prefs IH]; intros res H; cbn in H; [inversion H; reflexivity|].
  destruct (call p args); [|discriminate]. cbn [bind] in H. destruct (set_nth res (i - off) a) as [res'|] eqn:E; [|discriminate]. cbn [bind] in H.
  rewrite (IH _ H). eapply set_nth_length; eassumption.
Qed.

(** what always holds of the object *)
Definition inv (o : opobj A) : Prop :=
  (ob_compiled o = true -> exists c, compile lDim (ob_ops o) = Ok c /\ ob_argfun o = Some (c_pref c, map (fun _ => C1) (ob_ops o)))
  /\ (forall c, ob_pmapd o = Some c -> exists old extra, ob_ops o = old ++ extra /\ compile lDim old = Ok c).
(** what holds if no evaluation raised *)
Definition inv_ok (o : opobj A) : Prop :=
  inv o /\ (ob_compiled o = true -> exists c, compile lDim (ob_ops o) = Ok c /\ ob_pmapd o = Some c).

Lemma inv_new : inv_ok new_op.
Proof. split; [split|]; cbn; discriminate. Qed.
Lemma inv_add (o : opobj A) s : inv o -> inv (add o s).
Proof.
  intros [H1 H2]. split; cbn; [discriminate|]. intros c Hc. destruct (H2 c Hc) as (old & extra & E & Ec).
  exists old, (extra ++ [s]). rewrite E, app_assoc. split; [reflexivity|assumption].
Qed.
Lemma inv_eval (o : opobj A) args s : inv o -> inv (snd (get_s_primes lDim d o args s)).
Proof.
  intros H. pose proof H as [H1 H2]. unfold get_s_primes.
  destruct (negb (ob_compiled o) || _).
  - destruct (compile lDim (ob_ops o)) as [c|] eqn:Ec; [|exact H].
    destruct (arg_fun_serial (c_pref c) (map (fun _ => C1) (ob_ops o)) args); cbn [snd].
    + split; cbn; [intros _; exists c; auto|]. intros c' Hc. inversion Hc; subst. exists (ob_ops o), []. rewrite app_nil_r. auto.
    + split; cbn; [intros _; exists c; auto|]. exact H2.
  - destruct (ob_argfun o) as [[prefs init]|]; [|exact H]. destruct (arg_fun_serial prefs init args); exact H.
Qed.

Lemma eval_sound (o : opobj A) args s els : inv o -> fst (get_s_primes lDim d o args s) = Ok els ->
  operator_elements lDim d (ob_ops o) args s = Ok els.
Proof.
  intros [H1 H2] H. unfold get_s_primes in H. unfold BranchFree_Model.operator_elements.
  destruct (ob_compiled o) eqn:Ecomp; cbn [negb orb] in H;
    [destruct (match ob_argnum o with Some k => k =? length args | None => false end); cbn [negb] in H|].
  1:{ destruct (H1 eq_refl) as (c & Ec & Ea). rewrite Ea in H. rewrite Ec. cbn [bind].
      destruct (arg_fun_serial (c_pref c) (map (fun _ => C1) (ob_ops o)) args) as [pref|] eqn:Ep; [|discriminate]. cbn [bind fst] in *.
      destruct (ob_pmapd o) as [c'|] eqn:Em; [|discriminate]. destruct (H2 c' eq_refl) as (old & extra & Eo & Ec').
      cbn [run_pmapd] in H. pose proof H as H'. unfold get_s_primes_fun in H'. destruct (Nat.eqb_spec (length pref) (length (c_rows c'))) as [El|]; [|discriminate].
      apply store_all_length in Ep. rewrite map_length in Ep. rewrite (compile_rows _ _ Ec') in El.
      rewrite Eo, app_length in Ep. destruct extra; [|cbn in Ep; lia]. rewrite app_nil_r in Eo. rewrite Eo, Ec' in Ec. inversion Ec; subst. exact H. }
  all: destruct (compile lDim (ob_ops o)) as [c|] eqn:Ec; [|discriminate]; cbn [bind];
    destruct (arg_fun_serial (c_pref c) (map (fun _ => C1) (ob_ops o)) args) as [pref|] eqn:Ep; [|discriminate]; exact H.
Qed.

Lemma eval_exact (o : opobj A) args s : inv_ok o -> fst (get_s_primes lDim d o args s) = operator_elements lDim d (ob_ops o) args s.
Proof.
  intros [[H1 H2] H3]. unfold get_s_primes, BranchFree_Model.operator_elements.
  destruct (ob_compiled o) eqn:Ecomp; cbn [negb orb];
    [destruct (match ob_argnum o with Some k => k =? length args | None => false end); cbn [negb]|].
  1:{ destruct (H1 eq_refl) as (c & Ec & Ea). destruct (H3 eq_refl) as (c' & Ec' & Em). rewrite Ea, Em, Ec. cbn [bind].
      assert (c' = c) as -> by congruence.
      destruct (arg_fun_serial (c_pref c) (map (fun _ => C1) (ob_ops o)) args); reflexivity. }
  all: destruct (compile lDim (ob_ops o)) as [c|] eqn:Ec; [|reflexivity]; cbn [bind];
    destruct (arg_fun_serial (c_pref c) (map (fun _ => C1) (ob_ops o)) args); reflexivity.
Qed.

Lemma inv_ok_eval (o : opobj A) args s els : inv_ok o -> fst (get_s_primes lDim d o args s) = Ok els -> inv_ok (snd (get_s_primes lDim d o args s)).
Proof.
  intros [H H3] E. split; [now apply inv_eval|]. unfold get_s_primes in *.
  destruct (negb (ob_compiled o) || _).
  - destruct (compile lDim (ob_ops o)) as [c|] eqn:Ec; [|discriminate].
    destruct (arg_fun_serial (c_pref c) (map (fun _ => C1) (ob_ops o)) args); [|discriminate]. cbn. intros _. exists c. auto.
  - destruct (ob_argfun o) as [[prefs init]|]; [|exact H3]. destruct (arg_fun_serial prefs init args); exact H3.
Qed.

Lemma ops_eval (o : opobj A) args s : ob_ops (snd (get_s_primes lDim d o args s)) = ob_ops o.
Proof.
  unfold get_s_primes. destruct (negb (ob_compiled o) || _).
  - destruct (compile lDim (ob_ops o)) as [c|]; [|reflexivity]. destruct (arg_fun_serial (c_pref c) _ args); reflexivity.
  - destruct (ob_argfun o) as [[prefs init]|]; [|reflexivity]. destruct (arg_fun_serial prefs init args); reflexivity.
Qed.

Lemma run_inv h (o : opobj A) : inv o -> inv (fold_left (step lDim d) h o) /\ ob_ops (fold_left (step lDim d) h o) = ob_ops o ++ added h.
Proof.
  revert o. induction h as [|e h IH]; intros o H; cbn [fold_left added flat_map]; [rewrite app_nil_r; auto|].
  destruct e as [s|args s]; cbn [step].
  - destruct (IH (add o s) (inv_add o s H)) as [I E]. split; [exact I|]. rewrite E. cbn. now rewrite <- app_assoc.
  - destruct (IH _ (inv_eval o args s H)) as [I E]. split; [exact I|]. rewrite E, ops_eval. reflexivity.
Qed.
Lemma run_inv_ok h (o : opobj A) : inv_ok o -> all_return lDim d o h -> inv_ok (fold_left (step lDim d) h o).
Proof.
  revert o. induction h as [|e h IH]; intros o H R; cbn [fold_left]; [exact H|]. destruct R as [Re Rh]. apply IH; [|exact Rh].
  destruct e as [s|args s]; cbn [step].
  - split; [apply inv_add, H|]. cbn. discriminate.
  - destruct Re as [els Re]. eapply inv_ok_eval; eassumption.
Qed.
End Hist.
