From Coq Require Import ZArith List Reals Lra Lia Permutation Bool.
From Coq Require Import ZifyBool.
From Verif Require Import Base Cplx Mpi_Model Mpi_Spec.
Import ListNotations.
Ltac Zify.zify_post_hook ::= Z.div_mod_to_equations.

(** ** distribution *)
Section D.
Local Open Scope Z_scope.

Lemma zsum_app a b : zsum (a ++ b) = zsum a + zsum b.
Proof. apply big_app; intros; lia. Qed.
Lemma zsum_cons a b : zsum (a :: b) = a + zsum b.
Proof. reflexivity. Qed.

Lemma over_ranks_S c f : 0 <= c -> over_ranks (c + 1) f = over_ranks c f + f c.
Proof.
  intros H. unfold over_ranks.
  replace (Z.to_nat (c + 1)) with (Z.to_nat c + 1)%nat by lia.
  rewrite seq_app_split, map_app, zsum_app. cbn [seq map]. rewrite zsum_cons.
  rewrite Nat.add_0_l, Z2Nat.id by lia. cbn. lia.
Qed.

(** induction over the number of ranks *)
Lemma ranks_ind (P : Z -> Prop) :
  P 0 -> (forall c, 0 <= c -> P c -> P (c + 1)) -> forall c, 0 <= c -> P c.
Proof.
  intros H0 HS c Hc. revert c Hc. apply natlike_ind; [exact H0|]. intros c Hc. exact (HS c Hc).
Qed.

Lemma over_ranks_split (q a g1 g0 : Z) c :
  0 <= c -> 
  over_ranks c (fun r => if r <? a then g1 else g0) =
  (if a <=? 0 then c * g0 else if c <=? a then c * g1 else a * g1 + (c - a) * g0).
Proof.
  revert c. apply (ranks_ind (fun c => _)).
  - change (over_ranks 0 _) with 0. destruct (a <=? 0) eqn:E1; [lia|]. destruct (0 <=? a) eqn:E2; lia.
  - intros c Hc IH. rewrite over_ranks_S, IH by assumption.
    destruct (a <=? 0) eqn:E1; destruct (c <=? a) eqn:E2; destruct (c + 1 <=? a) eqn:E3;
      destruct (c <? a) eqn:E4; try lia;
      try (assert (a = c) by lia; subst a); ring.
Qed.

Lemma over_ranks_ext c f g :
  (forall r, 0 <= r < c -> f r = g r) -> over_ranks c f = over_ranks c g.
Proof.
  intros H. unfold over_ranks. f_equal. apply map_ext_in. intros r Hr.
  apply in_seq in Hr. apply H. lia.
Qed.

Lemma over_ranks_mul c f k : over_ranks c (fun r => f r * k) = over_ranks c f * k.
Proof.
  unfold over_ranks. induction (seq 0 (Z.to_nat c)) as [|r l IH]; [reflexivity|].
  cbn [map]. rewrite !zsum_cons, IH. lia.
Qed.

Lemma over_ranks_le c f g :
  (forall r, 0 <= r < c -> f r <= g r) -> over_ranks c f <= over_ranks c g.
Proof.
  intros H. unfold over_ranks.
  assert (forall l, incl l (seq 0 (Z.to_nat c)) ->
    zsum (map (fun r => f (Z.of_nat r)) l) <= zsum (map (fun r => g (Z.of_nat r)) l)) as A.
  { induction l as [|r l IH]; intros Hl; [cbn; lia|]. cbn [map]. rewrite !zsum_cons.
    assert (In r (seq 0 (Z.to_nat c))) as Hr by (apply Hl; now left). apply in_seq in Hr.
    specialize (H (Z.of_nat r) ltac:(lia)).
    assert (zsum (map (fun r => f (Z.of_nat r)) l) <= zsum (map (fun r => g (Z.of_nat r)) l))
      by (apply IH; intros x Hx; apply Hl; now right).
    lia. }
  apply A. apply incl_refl.
Qed.

Lemma over_ranks_const c k : 0 <= c -> over_ranks c (fun _ => k) = c * k.
Proof.
  intros Hc. revert c Hc. apply (ranks_ind (fun c => _)); [reflexivity|].
  intros c Hc IH. rewrite over_ranks_S, IH by assumption. lia.
Qed.

Lemma over_ranks_add_const c f k : 0 <= c ->
  over_ranks c (fun r => f r + k) = over_ranks c f + c * k.
Proof.
  intros Hc. revert c Hc. apply (ranks_ind (fun c => _)); [reflexivity|].
  intros c Hc IH. rewrite !over_ranks_S, IH by assumption. lia.
Qed.

Lemma spp_total n c : 0 <= n -> 0 < c ->
  over_ranks c (fun r => samples_per_process r c n) = n.
Proof.
  intros Hn Hc. unfold samples_per_process.
  assert (over_ranks c (fun r => n / c + (if r <? n mod c then 1 else 0))
          = over_ranks c (fun r => if r <? n mod c then n / c + 1 else n / c)) as ->.
  { apply over_ranks_ext. intros r Hr. destruct (r <? n mod c); lia. }
  rewrite (over_ranks_split 0) by lia.
  pose proof (Z.mod_pos_bound n c Hc) as Hm. pose proof (Z.div_mod n c ltac:(lia)) as Hd.
  destruct (n mod c <=? 0) eqn:E1; [nia|]. destruct (c <=? n mod c) eqn:E2; [lia|nia].
Qed.

Lemma distribute_none n c : 0 <= n -> 0 < c -> 
  over_ranks c (fun r => fst (distribute_sampling r c n None 1)) = n.
Proof. intros. cbn. now apply spp_total. Qed.

Lemma spc_spec k s : 0 < k -> 0 <= s -> s <= spc k s * k < s + k.
Proof. intros Hk Hs. unfold spc. pose proof (Z.div_mod (s + k - 1) k ltac:(lia)).
  pose proof (Z.mod_pos_bound (s + k - 1) k Hk). nia. Qed.

Lemma spp_nonneg r n c : 0 <= n -> 0 < c -> 0 <= samples_per_process r c n.
Proof. intros Hn Hc. unfold samples_per_process. pose proof (Z.div_pos n c Hn Hc).
  destruct (r <? n mod c); lia. Qed.

Lemma distribute_some_total n c d k : 0 <= n -> 0 < c -> 0 < d -> 0 < k ->
  forall r0, over_ranks c (fun r => fst (distribute_sampling r c n (Some d) k) * (d * k))
  = snd (distribute_sampling r0 c n (Some d) k).
Proof.
  intros Hn Hc Hd Hk r0. cbn [distribute_sampling fst snd].
  rewrite over_ranks_mul. f_equal.
  assert (over_ranks c (fun r => spc (d * k) (samples_per_process r c n))
          = over_ranks c (fun r => if r <? n mod c then spc (d * k) (1 + n / c) else spc (d * k) (n / c))) as ->.
  { apply over_ranks_ext. intros r Hr. unfold samples_per_process.
    destruct (r <? n mod c); f_equal; lia. }
  rewrite (over_ranks_split 0) by lia.
  pose proof (Z.mod_pos_bound n c Hc) as Hm.
  destruct (n mod c <=? 0) eqn:E1; [|destruct (c <=? n mod c) eqn:E2; [lia|reflexivity]].
  assert (n mod c = 0) as -> by lia. lia.
Qed.

Lemma distribute_some_bounds n c d k : 0 <= n -> 0 < c -> 0 < d -> 0 < k ->
  forall r0, n <= snd (distribute_sampling r0 c n (Some d) k) < n + c * (d * k).
Proof.
  intros Hn Hc Hd Hk r0. rewrite <- distribute_some_total by assumption.
  assert (0 < d * k) as Hdk by nia.
  split.
  - rewrite <- (spp_total n c) at 1 by assumption. apply over_ranks_le.
    intros r Hr. cbn [distribute_sampling fst].
    apply spc_spec; [assumption|]. now apply spp_nonneg.
  - assert (over_ranks c (fun r => fst (distribute_sampling r c n (Some d) k) * (d * k))
            <= over_ranks c (fun r => samples_per_process r c n + (d * k - 1))) as H.
    { apply over_ranks_le. intros r Hr. cbn [distribute_sampling fst].
      pose proof (spc_spec (d * k) (samples_per_process r c n) Hdk (spp_nonneg r n c Hn Hc)). lia. }
    assert (over_ranks c (fun r => samples_per_process r c n + (d * k - 1))
            = n + c * (d * k - 1)) as E.
    { rewrite over_ranks_add_const by lia. now rewrite spp_total. }
    nia.
Qed.

Lemma distribute_even n c : 0 <= n -> 0 < c -> forall r r',
  Z.abs (fst (distribute_sampling r c n None 1) - fst (distribute_sampling r' c n None 1)) <= 1.
Proof.
  intros. cbn. unfold samples_per_process.
  destruct (r <? n mod c), (r' <? n mod c); lia.
Qed.

Lemma distribute_rank_covers n c d k r : 0 <= n -> 0 < c -> 0 < d -> 0 < k ->
  let share := fst (distribute_sampling r c n None 1) in
  let m := fst (distribute_sampling r c n (Some d) k) in
  share <= m * (d * k) /\ forall m', share <= m' * (d * k) -> m <= m'.
Proof.
  intros Hn Hc Hd Hk. cbn. assert (0 < d * k) as Hdk by nia.
  pose proof (spc_spec (d * k) (samples_per_process r c n) Hdk (spp_nonneg r n c Hn Hc)).
  split; [lia|]. intros m' H'. nia.
Qed.

(** ** first_sample_id *)
Lemma first_sample_id_0 c n : 0 <= n -> 0 < c -> first_sample_id 0 c n = 0.
Proof. intros. unfold first_sample_id. pose proof (Z.mod_pos_bound n c ltac:(lia)).
  destruct (0 <? n mod c) eqn:E; lia. Qed.

Lemma first_sample_id_next r c n : 0 <= n -> 0 < c -> 0 <= r ->
  first_sample_id (r + 1) c n = first_sample_id r c n + samples_per_process r c n.
Proof.
  intros. unfold first_sample_id, samples_per_process.
  pose proof (Z.mod_pos_bound n c ltac:(lia)).
  destruct (r + 1 <? n mod c) eqn:E1, (r <? n mod c) eqn:E2; nia.
Qed.

Lemma first_sample_id_end c n : 0 <= n -> 0 < c -> first_sample_id c c n = n.
Proof.
  intros. unfold first_sample_id. pose proof (Z.mod_pos_bound n c ltac:(lia)).
  pose proof (Z.div_mod n c ltac:(lia)).
  destruct (c <? n mod c) eqn:E; nia.
Qed.

Lemma first_sample_id_mono c n : 0 <= n -> 0 < c -> forall k r, 0 <= r -> 0 <= k ->
  first_sample_id r c n <= first_sample_id (r + k) c n.
Proof.
  intros Hn Hc k r Hr Hk. revert k Hk. apply natlike_ind.
  - now rewrite Z.add_0_r.
  - intros k Hk IH. replace (r + Z.succ k) with ((r + k) + 1) by lia.
    rewrite first_sample_id_next by lia. pose proof (spp_nonneg (r + k) n c Hn Hc). lia.
Qed.

Lemma tiling_unique c n i : 0 <= n -> 0 < c -> 0 <= i < n ->
  exists! r, 0 <= r < c /\
    first_sample_id r c n <= i < first_sample_id r c n + fst (distribute_sampling r c n None 1).
Proof.
  intros Hn Hc Hi.
  assert (forall k, 0 <= k -> k <= c -> i < first_sample_id k c n ->
    exists r, 0 <= r < k /\ first_sample_id r c n <= i < first_sample_id (r + 1) c n) as Hex.
  { intros k Hk. revert k Hk. apply (natlike_ind (fun k => k <= c -> i < first_sample_id k c n ->
      exists r, 0 <= r < k /\ first_sample_id r c n <= i < first_sample_id (r + 1) c n)).
    - rewrite first_sample_id_0 by lia. lia.
    - intros k Hk IH Hkc Hlt. unfold Z.succ in *.
      destruct (Z_lt_dec i (first_sample_id k c n)) as [Hl|Hl].
      + destruct (IH ltac:(lia) Hl) as (r & Hr & Hb). exists r. split; [lia|exact Hb].
      + exists k. split; [lia|]. lia. }
  destruct (Hex c ltac:(lia) ltac:(lia)) as (r & Hr & Hb).
  { rewrite first_sample_id_end by lia. lia. }
  exists r. split.
  - split; [lia|]. rewrite first_sample_id_next in Hb by lia. cbn. exact Hb.
  - intros r' (Hr' & Hb'). cbn in Hb'. rewrite <- first_sample_id_next in Hb' by lia.
    destruct (Z.lt_trichotomy r r') as [Hl|[->|Hl]]; [|reflexivity|].
    + pose proof (first_sample_id_mono c n Hn Hc (r' - (r + 1)) (r + 1) ltac:(lia) ltac:(lia)) as Hm.
      replace (r + 1 + (r' - (r + 1))) with r' in Hm by lia. lia.
    + pose proof (first_sample_id_mono c n Hn Hc (r - (r' + 1)) (r' + 1) ltac:(lia) ltac:(lia)) as Hm.
      replace (r' + 1 + (r - (r' + 1))) with r in Hm by lia. lia.
Qed.

Lemma tiling_range c n r : 0 <= n -> 0 < c -> 0 <= r < c ->
  0 <= first_sample_id r c n /\
  first_sample_id r c n + fst (distribute_sampling r c n None 1) <= n.
Proof.
  intros Hn Hc Hr. cbn. rewrite <- first_sample_id_next by lia. split.
  - rewrite <- (first_sample_id_0 c n Hn Hc).
    pose proof (first_sample_id_mono c n Hn Hc r 0 ltac:(lia) ltac:(lia)) as H. now rewrite Z.add_0_l in H.
  - rewrite <- (first_sample_id_end c n Hn Hc) at 2.
    pose proof (first_sample_id_mono c n Hn Hc (c - (r + 1)) (r + 1) ltac:(lia) ltac:(lia)) as H.
    now replace (r + 1 + (c - (r + 1))) with c in H by lia.
Qed.
End D.

(** ** collectives *)
Lemma all_ok_map {A B} (f : A -> B) l : all_ok (map (fun x => Ok (f x)) l) = Some (map f l).
Proof. induction l as [|x l IH]; cbn; [reflexivity|]. now rewrite IH. Qed.

Lemma collective_ok {A B X} (f : list A -> B) (g : X -> A) (xs : list X) ys :
  ys = map (fun x => Ok (g x)) xs ->
  collective f ys = map (fun _ => Ok (f (map g xs))) xs.
Proof. intros ->. unfold collective. rewrite all_ok_map, map_map. reflexivity. Qed.

Lemma index0_sum_up d : d <> [] -> index0 (sum_up_pmapd d) = Ok (csum (map csum d)).
Proof. destruct d; [congruence|reflexivity]. Qed.

Lemma global_sum_ok (data : list local) :
  Forall (fun d => d <> []) data ->
  global_sum (map Ok data) = map (fun _ => Ok (csum (concat (concat data)))) data.
Proof.
  intros H. unfold global_sum.
  rewrite (collective_ok csum (fun d => csum (map csum d)) data).
  - apply map_ext. intros _. apply f_equal. rewrite csum_concat.
    rewrite concat_map, csum_concat, map_map. reflexivity.
  - rewrite map_map. apply map_ext_in. intros d Hd. cbn. apply index0_sum_up.
    rewrite Forall_forall in H. now apply H.
Qed.

Lemma dot_ok p x : length x = length p -> dot p x = Ok (wmean (combine p x)).
Proof. intros H. unfold dot. rewrite H, Nat.eqb_refl. reflexivity. Qed.

Lemma pmap2_ok {A B D} (f : A -> B -> result D) (g : A -> B -> D) xs ys
  (Q : A -> B -> Prop) :
  (forall x y, Q x y -> f x y = Ok (g x y)) ->
  Forall2 Q xs ys ->
  pmap2 f xs ys = Ok (map (fun xy => g (fst xy) (snd xy)) (combine xs ys)).
Proof.
  intros Hf H. induction H as [|x y xs ys Hxy H IH]; [reflexivity|].
  cbn. rewrite Hf by assumption. cbn. rewrite IH. reflexivity.
Qed.

Lemma combine_app {A B} (a1 a2 : list A) (b1 b2 : list B) :
  length a1 = length b1 -> combine (a1 ++ a2) (b1 ++ b2) = combine a1 b1 ++ combine a2 b2.
Proof.
  revert b1. induction a1 as [|x a1 IH]; intros [|y b1] H; try discriminate; [reflexivity|].
  cbn. f_equal. apply IH. now inversion H.
Qed.

Lemma combine_concat {A B} (a : list (list A)) (b : list (list B)) :
  Forall2 (fun x y => length x = length y) a b ->
  combine (concat a) (concat b) = concat (map (fun ab => combine (fst ab) (snd ab)) (combine a b)).
Proof.
  induction 1 as [|x y a b Hxy H IH]; [reflexivity|].
  cbn. rewrite combine_app by assumption. now rewrite IH.
Qed.

Lemma Forall2_flip {A B} (R : A -> B -> Prop) l l' :
  Forall2 R l l' -> Forall2 (fun b a => R a b) l' l.
Proof. induction 1; constructor; auto. Qed.

Lemma Forall2_imp {A B} (P Q : A -> B -> Prop) l l' :
  (forall a b, P a b -> Q a b) -> Forall2 P l l' -> Forall2 Q l l'.
Proof. intros H. induction 1; constructor; auto. Qed.

Lemma Forall2_length {A B} (P : A -> B -> Prop) l l' : Forall2 P l l' -> length l = length l'.
Proof. induction 1; cbn; congruence. Qed.

Lemma concat_length_eq {A B} (a : list (list A)) (b : list (list B)) :
  Forall2 (fun x y => length x = length y) a b -> length (concat a) = length (concat b).
Proof. induction 1 as [|x y a b Hxy H IH]; [reflexivity|]. cbn. rewrite !app_length. lia. Qed.

Lemma combine_swap {A B} (a : list A) (b : list B) :
  combine b a = map (fun xy => (snd xy, fst xy)) (combine a b).
Proof. revert b. induction a as [|x a IH]; intros [|y b]; cbn; try reflexivity. now rewrite IH. Qed.

(** [pairs] rank by rank and device by device *)
Lemma pairs_cons {A} d data w p :
  Forall2 (fun (x : list A) (y : list R) => length x = length y) d w ->
  pairs (d :: data) (w :: p)
  = concat (map (fun xy => combine (snd xy) (fst xy)) (combine d w)) ++ pairs data p.
Proof.
  intros H. unfold pairs. cbn [concat]. rewrite !concat_app.
  rewrite combine_app by (symmetry; apply concat_length_eq; assumption).
  f_equal. rewrite combine_concat by (apply Forall2_flip; revert H; apply Forall2_imp; auto).
  rewrite combine_swap, map_map. reflexivity.
Qed.

Lemma wmean_app a b : wmean (a ++ b) = (wmean a + wmean b)%C.
Proof. unfold wmean. now rewrite map_app, csum_app. Qed.

Lemma wmean_concat l : wmean (concat l) = csum (map wmean l).
Proof. induction l as [|x l IH]; [reflexivity|]. cbn [concat map]. rewrite wmean_app, IH. reflexivity. Qed.

Lemma wmean_pairs data p : same_shape data p ->
  wmean (pairs data p)
  = csum (map (fun dw => csum (map (fun xy => wmean (combine (snd xy) (fst xy))) (combine (fst dw) (snd dw))))
              (combine data p)).
Proof.
  induction 1 as [|d w data p [Hne H] Hr IH]; [reflexivity|].
  rewrite pairs_cons, wmean_app, IH by assumption. cbn [combine map fst snd]. rewrite csum_cons. f_equal.
  rewrite wmean_concat, map_map. reflexivity.
Qed.

Lemma combine_nonempty {A B} (d : list A) (w : list B) Q :
  d <> [] -> Forall2 Q d w -> combine d w <> [].
Proof. intros Hd H. destruct H; [congruence|discriminate]. Qed.

Lemma global_mean_ok data p : same_shape data p ->
  global_mean data p = map (fun _ => Ok (wmean (pairs data p))) data.
Proof.
  intros H. unfold global_mean.
  assert (map (fun dp => mean_helper (fst dp) (snd dp)) (combine data p)
    = map Ok (map (fun dw => map (fun xy => [wmean (combine (snd xy) (fst xy))]) (combine (fst dw) (snd dw)))
              (combine data p))) as ->.
  { induction H as [|d w data p [Hne H] Hr IH]; [reflexivity|].
    cbn [combine map fst snd]. rewrite IH. f_equal. unfold mean_helper.
    rewrite (pmap2_ok (fun x w => dot w x) (fun x w => wmean (combine w x)) d w
               (fun x y => length x = length y)); [|intros; now apply dot_ok|assumption].
    cbn. rewrite map_map. reflexivity. }
  rewrite global_sum_ok.
  - rewrite (wmean_pairs _ _ H).
    assert (length (map (fun dw => map (fun xy => [wmean (combine (snd xy) (fst xy))]) (combine (fst dw) (snd dw)))
              (combine data p)) = length data) as HL.
    { rewrite map_length, combine_length. apply Forall2_length in H. lia. }
    assert (forall {X Y} (a : list X) (b : list Y) (v : result C), length a = length b ->
      map (fun _ => v) a = map (fun _ => v) b) as Hc.
    { intros X Y a. induction a as [|x a IHa]; intros [|y b] v Hab; try discriminate; [reflexivity|].
      cbn. f_equal. apply IHa. now inversion Hab. }
    rewrite (Hc _ _ _ data _ HL). apply map_ext. intros _. apply f_equal.
    rewrite csum_concat, concat_map, map_map. 
    clear. induction (combine data p) as [|dw l IH]; [reflexivity|].
    cbn [map concat]. rewrite csum_app, csum_cons, IH. f_equal. rewrite map_map.
    apply csum_ext. intros xy _. cbn. ring.
  - apply Forall_forall. intros x Hx. apply in_map_iff in Hx as [[d w] [<- Hdw]].
    cbn. clear -H Hdw. induction H as [|d' w' data p [Hne H] Hr IH]; [destruct Hdw|].
    destruct Hdw as [E|Hdw]; [|auto]. injection E as -> ->.
    intros E. apply map_eq_nil in E. now apply (combine_nonempty d w _ Hne H) in E.
Qed.

(** permutation invariance of the weighted mean and variance *)
Lemma wmean_perm a b : Permutation a b -> wmean a = wmean b.
Proof. intros H. unfold wmean. apply csum_perm. now apply Permutation_map. Qed.
Lemma wvar_perm a b : Permutation a b -> wvar a = wvar b.
Proof. intros H. unfold wvar. rewrite (wmean_perm a b H). apply rsum_perm. now apply Permutation_map. Qed.

(** ** variance: one device per rank *)
Lemma sum_sq_term m p x : (Cconj (x - m) * (x - m) * RtoC p)%C = RtoC (p * Cnorm2 (x - m)%C).
Proof. rewrite Cmul_conj, <- RtoC_mul. f_equal. ring. Qed.

Lemma global_variance_one_device data p : same_shape data p ->
  Forall (fun d => length d = 1) data ->
  global_variance data p = map (fun _ => Ok (RtoC (wvar (pairs data p)))) data.
Proof.
  intros H H1. unfold global_variance. rewrite (global_mean_ok _ _ H).
  set (m := wmean (pairs data p)).
  set (g := fun dw : local * list (list R) =>
      csum (map (fun xy => RtoC (rsum (map (fun px => (fst px * Cnorm2 (snd px - m)%C)%R) (combine (snd xy) (fst xy)))))
                (combine (fst dw) (snd dw)))).
  rewrite (collective_ok csum (fun t => g (fst t)) (combine (combine data p) (map (fun _ => tt) data))).
  - assert (forall {X Y} (a : list X) (b : list Y) (v : result C), length a = length b ->
      map (fun _ => v) a = map (fun _ => v) b) as Hc.
    { intros X Y a. induction a as [|x a IHa]; intros [|y b] v Hab; try discriminate; [reflexivity|].
      cbn. f_equal. apply IHa. now inversion Hab. }
    erewrite Hc with (b := data).
    2:{ rewrite !combine_length, map_length. pose proof (Forall2_length _ _ _ H). lia. }
    apply map_ext. intros _. apply f_equal.
    unfold wvar. fold m. rewrite <- csum_RtoC, map_map. clearbody m.
    clear H1. revert g. induction H as [|d w data p [Hne H] Hr IH]; intros g; [reflexivity|].
    rewrite pairs_cons by assumption. rewrite map_app, csum_app.
    cbn [combine map fst]. rewrite csum_cons. f_equal; [|apply IH].
    unfold g. cbn [fst snd]. rewrite concat_map, csum_concat, !map_map.
    apply csum_ext. intros [x y] _. cbn [fst snd]. rewrite <- csum_RtoC, map_map. reflexivity.
  - clearbody m. revert H1. induction H as [|d w data p [Hne H] Hr IH]; intros H1; [reflexivity|].
    inversion H1 as [|? ? Hd1 Hrest]; subst. cbn [combine map fst]. f_equal; [|apply IH; assumption].
    destruct d as [|x [|x' d]]; try discriminate. inversion H as [|? y ? w' Hxy Hw']; subst.
    inversion Hw'; subst. unfold g. cbn [bind pmap2 combine map fst snd csum].
    unfold sum_sq_dev. rewrite Hxy, Nat.eqb_refl. cbn [bind index0]. f_equal.
    rewrite csum_cons. cbn [csum big fold_right]. rewrite <- csum_RtoC, map_map.
    transitivity (csum (map (fun px => RtoC (fst px * Cnorm2 (snd px - m)%C)) (combine y x))).
    + apply csum_ext. intros [a b] _. apply sum_sq_term.
    + change (big C0 Cadd []) with C0. ring.
Qed.

(** ** covariance: what the code computes in terms of the documented formula *)
Lemma global_covariance_ok i j data p : same_shape data p ->
  global_covariance i j data p
  = map (fun _ => Ok (csum (map (fun px => Cscal (fst px) (Cconj (snd px i) * snd px j)%C) (pairs data p)))) data.
Proof.
  intros H. unfold global_covariance.
  set (f := fun px : R * (nat -> C) => Cscal (fst px) (Cconj (snd px i) * snd px j)%C).
  assert (map (fun dp => do l <- pmap2 (cov_helper_dev i j) (fst dp) (snd dp); Ok (map (fun s => [s]) l)) (combine data p)
    = map Ok (map (fun dw => map (fun xy => [csum (map f (combine (snd xy) (fst xy)))]) (combine (fst dw) (snd dw)))
              (combine data p))) as ->.
  { induction H as [|d w data p [Hne H] Hr IH]; [reflexivity|].
    cbn [combine map fst snd]. rewrite IH. f_equal.
    rewrite (pmap2_ok (cov_helper_dev i j) (fun x w => csum (map f (combine w x))) d w
               (fun x y => length x = length y)); [|intros x y Hxy|assumption].
    - cbn. rewrite map_map. reflexivity.
    - unfold cov_helper_dev. rewrite Hxy, Nat.eqb_refl. f_equal. apply csum_ext.
      intros [a b] _. unfold f. cbn [fst snd]. rewrite Cscal_RtoC. ring. }
  rewrite global_sum_ok.
  - assert (length (map (fun dw => map (fun xy => [csum (map f (combine (snd xy) (fst xy)))]) (combine (fst dw) (snd dw)))
              (combine data p)) = length data) as HL.
    { rewrite map_length, combine_length. apply Forall2_length in H. lia. }
    assert (forall {X Y} (a : list X) (b : list Y) (v : result C), length a = length b ->
      map (fun _ => v) a = map (fun _ => v) b) as Hc.
    { intros X Y a. induction a as [|x a IHa]; intros [|y b] v Hab; try discriminate; [reflexivity|].
      cbn. f_equal. apply IHa. now inversion Hab. }
    rewrite (Hc _ _ _ data _ HL). apply map_ext. intros _. apply f_equal.
    clear Hc HL. induction H as [|d w data p [Hne H] Hr IH]; [reflexivity|].
    rewrite pairs_cons by assumption. cbn [combine map fst snd concat].
    rewrite concat_app, csum_app, map_app, csum_app. f_equal; [|exact IH].
    rewrite concat_map, csum_concat, map_map.
    rewrite csum_concat, map_map. rewrite map_map. apply csum_ext. intros xy _. cbn. ring.
  - apply Forall_forall. intros x Hx. apply in_map_iff in Hx as [[d w] [<- Hdw]].
    cbn. clear -H Hdw. induction H as [|d' w' data p [Hne H] Hr IH]; [destruct Hdw|].
    destruct Hdw as [E|Hdw]; [|auto]. injection E as -> ->.
    intros E. apply map_eq_nil in E. now apply (combine_nonempty d w _ Hne H) in E.
Qed.

Lemma cov_code_vs_doc i j (xs : list (R * (nat -> C))) :
  csum (map (fun px => Cscal (fst px) (Cconj (snd px i) * snd px j)%C) xs)
  = (wcov j i xs + wmean (map (fun px => (fst px, snd px j)) xs)
                 * Cconj (wmean (map (fun px => (fst px, snd px i)) xs)))%C.
Proof.
  unfold wcov.
  assert (csum (map (fun px => Cscal (fst px) (Cconj (snd px i) * snd px j)%C) xs)
          = csum (map (fun px : R * (nat -> C) => Cscal (fst px) (snd px j * Cconj (snd px i))%C) xs)) as ->.
  { apply csum_ext. intros px _. f_equal. ring. }
  ring.
Qed.

(** ** bcast and gather *)
Section P.
Context {F : Type}.

Lemma forallb_map' {A B} (f : B -> bool) (g : A -> B) l : forallb f (map g l) = forallb (fun x => f (g x)) l.
Proof. induction l; cbn; [reflexivity|]. now rewrite IHl. Qed.

Lemma forallb_true' {A} (f : A -> bool) l : (forall x, In x l -> f x = true) -> forallb f l = true.
Proof. intros H. apply forallb_forall. exact H. Qed.

Lemma run_bcast_ok (root : nat) (args : list (option (@array F))) d :
  nth_error args root = Some (Some d) -> a_dtype d = Float64 ->
  run_bcast root args = map (fun _ => Ok (a_data d)) args.
Proof.
  intros Hn Hd. unfold run_bcast.
  set (prs := combine (seq 0 (length args)) args).
  assert (Hr : forall r a, In (r, a) prs -> r = root -> a = Some d).
  { intros r a Hin Hrr. subst r. unfold prs in Hin.
    assert (forall k (l : list (option (@array F))) r a, In (r, a) (combine (seq k (length l)) l) -> nth_error l (r - k) = Some a /\ k <= r) as Hgen.
    { intros k l. revert k. induction l as [|x l IH]; intros k r b Hb; cbn in Hb; [destruct Hb|].
      destruct Hb as [E|Hb].
      - injection E as <- <-. rewrite Nat.sub_diag. cbn. split; [reflexivity|lia].
      - destruct (IH (S k) r b Hb) as [H1 H2]. split; [|lia].
        replace (r - k) with (S (r - S k)) by lia. exact H1. }
    destruct (Hgen 0 args root a Hin) as [H1 _]. rewrite Nat.sub_0_r, Hn in H1. congruence. }
  assert (Hin : In (root, Some d) prs).
  { unfold prs. clear -Hn.
    assert (forall k (l : list (option (@array F))) r a, nth_error l r = Some a -> In (k + r, a) (combine (seq k (length l)) l)) as Hgen.
    { intros k l. revert k. induction l as [|x l IH]; intros k [|r] a Ha; cbn in *; try discriminate.
      - injection Ha as ->. left. f_equal. lia.
      - right. replace (k + S r) with (S k + r) by lia. apply IH. exact Ha. }
    apply (Hgen 0 args root (Some d) Hn). }
  assert (Hlen : length args = length prs).
  { unfold prs. rewrite combine_length, seq_length. lia. }
  assert (Hroot : forall r a, In (r, a) prs ->
      bcast_unknown_size r root a =
        if Nat.eqb r root then
          Call (CBcast root) (MLen (length (a_data d))) (fun _ =>
            Call (CBcastBuf root) (MBuf (a_data d)) (fun _ => Done (Ok (a_data d))))
        else bcast_unknown_size r root None).
  { intros r a Ha. unfold bcast_unknown_size. destruct (Nat.eqb r root) eqn:E.
    - apply Nat.eqb_eq in E. rewrite (Hr r a Ha E), Hd. reflexivity.
    - reflexivity. }
  assert (Hidx : forall r0 a0, nth_error prs r0 = Some a0 -> fst a0 = r0).
  { intros r0 a0. unfold prs.
    assert (forall k (l : list (option (@array F))) i x, nth_error (combine (seq k (length l)) l) i = Some x -> fst x = k + i) as Hgen.
    { intros k l. revert k. induction l as [|y l IH]; intros k [|i] x Hx; cbn in *; try discriminate.
      - injection Hx as <-. cbn. lia.
      - rewrite (IH _ _ _ Hx). lia. }
    intros H. apply (Hgen 0 _ _ _ H). }
  (* first collective *)
  assert (Hrep : forall {A} (g : nat * option (@array F) -> A) x0, 
      nth root (map g prs) x0 = g (root, Some d)).
  { intros A g x0. apply In_nth_error in Hin as [i Hi].
    pose proof (Hidx _ _ Hi) as Ei. cbn in Ei. subst i.
    apply nth_error_nth. rewrite nth_error_map, Hi. reflexivity. }
  assert (S1 : map (fun ra => bcast_unknown_size (fst ra) root (snd ra)) prs
    = map (fun ra => if Nat.eqb (fst ra) root then
          Call (CBcast root) (MLen (length (a_data d))) (fun _ =>
            Call (CBcastBuf root) (MBuf (a_data d)) (fun _ => Done (Ok (a_data d))))
        else bcast_unknown_size (fst ra) root None) prs).
  { apply map_ext_in. intros [r a] Ha. cbn. now apply Hroot. }
  rewrite S1. clear S1.
  assert (Hne : prs <> []) by (intros E; rewrite E in Hin; destruct Hin).
  (* generic step: if all programs are at collective c, run unfolds *)
  assert (Hstep : forall (c : coll) (k : nat) (G : nat * option (@array F) -> @prog F (list F)),
      (forall ra, In ra prs -> at_coll c (G ra) = true) ->
      run (S k) (map G prs) = run k (map (fun ra => resume (reply c (map payload (map G prs))) (G ra)) prs)).
  { intros c k G HG.
    destruct prs as [|x l] eqn:Ep; [congruence|].
    assert (at_coll c (G x) = true) as Hx by (apply HG; now left).
    cbn [map run]. destruct (G x) as [rr|c' m kk] eqn:EG; [discriminate|].
    cbn in Hx.
    assert (c' = c) as ->.
    { destruct c, c'; cbn in Hx; try discriminate; try reflexivity; apply Nat.eqb_eq in Hx; now subst. }
    rewrite <- EG. change (G x :: map G l) with (map G (x :: l)).
    rewrite forallb_map', forallb_true'.
    - cbn [map]. rewrite EG. rewrite !map_map. reflexivity.
    - intros y Hy. apply HG. exact Hy. }
  rewrite (Hstep (CBcast root)).
  2:{ intros [r a] _. cbn. unfold bcast_unknown_size. destruct (Nat.eqb r root); cbn; apply Nat.eqb_refl. }
  cbn [reply]. rewrite map_map, Hrep. cbn [fst]. rewrite Nat.eqb_refl. cbn [payload].
  match goal with |- run 2 (map ?G prs) = _ => rewrite (Hstep (CBcastBuf root) 1 G) end.
  2:{ intros [r a] _. cbn. unfold bcast_unknown_size. destruct (Nat.eqb r root) eqn:E; cbn; apply Nat.eqb_refl. }
  cbn [reply]. rewrite map_map, Hrep. cbn [fst]. rewrite Nat.eqb_refl. cbn [payload resume].
  transitivity (map (fun _ => Ok (a_data d)) prs).
  - assert (forall (ps : list (@prog F (list F))), run 1 ps = map finish ps \/ True) as _ by auto.
    assert (Hfin : forall G : nat * option (@array F) -> @prog F (list F),
      (forall ra, In ra prs -> G ra = Done (Ok (a_data d))) -> run 1 (map G prs) = map (fun _ => Ok (a_data d)) prs).
    { intros G HG. destruct prs as [|x l]; [congruence|]. cbn [map run].
      rewrite (HG x (or_introl eq_refl)). cbn [map]. f_equal.
      rewrite map_map. apply map_ext_in. intros y Hy. rewrite HG by (now right). reflexivity. }
    apply Hfin. intros [r a] _. cbn. unfold bcast_unknown_size. destruct (Nat.eqb r root) eqn:E; cbn; [reflexivity|].
    rewrite Nat.eqb_refl. reflexivity.
  - clear -Hlen. clearbody prs. revert args Hlen. induction prs as [|x l IH]; intros [|y args] H; try discriminate; [reflexivity|].
    cbn. f_equal. apply IH. now inversion H.
Qed.

Lemma run_gather_ok (args : list (list (list F))) :
  run_gather args = map (fun _ => Ok (concat (map (@concat F) args))) args.
Proof.
  unfold run_gather. destruct args as [|a args]; [reflexivity|].
  cbn [map run]. unfold gather at 1. cbn [forallb at_coll coll_eqb].
  rewrite forallb_map', forallb_true' by reflexivity. cbn [andb].
  set (rep := reply _ _).
  assert (rep = map (fun x => MBuf (concat x)) (a :: args)) as ->.
  { unfold rep. cbn. f_equal. rewrite map_map. reflexivity. }
  cbn. rewrite !map_map. f_equal. apply map_ext. intros x. cbn. rewrite map_map. reflexivity.
Qed.
End P.
