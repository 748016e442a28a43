(** Proofs about the layers of convolutional networks. *)
From Coq Require Import ZArith List Reals Bool Arith Lia Lra Permutation.
From Verif Require Import Base Cplx BranchFree_Model Stats_Model Sym_Model Sampler2_Proofs Sym_Proofs Vqs_Proofs Cnn_Model Cnn_Spec Cnn_Proofs Layers_Spec.
Import ListNotations.

Lemma indices_nodup sh : NoDup (indices sh).
Proof.
  induction sh as [|n sh IH]; [repeat constructor; intros []|]. cbn [indices]. apply NoDup_flat_map; [apply seq_NoDup| |].
  - intros i _. apply NoDup_map_inj; [|exact IH]. intros x y [=]; assumption.
  - intros x y z _ _ H1 H2. apply in_map_iff in H1 as (u & <- & _). apply in_map_iff in H2 as (v & [= E _] & _). now symmetry.
Qed.
Lemma indices_enumerates sh : enumerates (indices sh) sh.
Proof. split; [apply indices_nodup|]. intros idx. apply in_indices. Qed.
Lemma enumerates_perm l sh : enumerates l sh -> Permutation l (indices sh).
Proof. intros [N H]. apply NoDup_Permutation; [exact N|apply indices_nodup|]. intros idx. rewrite H. symmetry. apply in_indices. Qed.
Lemma indices_length sh : length (indices sh) = fold_right Nat.mul 1 sh.
Proof.
  induction sh as [|n sh IH]; [reflexivity|]. cbn [indices fold_right]. rewrite <- IH. generalize 0 as a. induction n as [|n IHn]; intros a; [reflexivity|].
  cbn [seq flat_map]. rewrite app_length, map_length, IHn. reflexivity.
Qed.

Lemma f2_length {A B} (P : A -> B -> Prop) x y : Forall2 P x y -> length x = length y.
Proof. induction 1; cbn [length]; congruence. Qed.
Lemma map2_cons {A B D} (f : A -> B -> D) a x b y : map2 f (a :: x) (b :: y) = f a b :: map2 f x y. Proof. reflexivity. Qed.
Lemma map2_length {A B D} (f : A -> B -> D) x y : length x = length y -> length (map2 f x y) = length x.
Proof. intros H. unfold map2. rewrite map_length, combine_length. lia. Qed.
Lemma nth_map2 {A B D} (f : A -> B -> D) x y k d da db : k < length x -> length x = length y -> nth k (map2 f x y) d = f (nth k x da) (nth k y db).
Proof.
  revert y k. induction x as [|a x IH]; intros [|b y] k Hk HL; cbn [length] in *; try lia. rewrite map2_cons. destruct k as [|k]; [reflexivity|]. cbn [nth]. apply IH; lia.
Qed.
Lemma nth_combine' {A B} (x : list A) (y : list B) k da db : length x = length y -> nth k (combine x y) (da, db) = (nth k x da, nth k y db).
Proof. intros H. now apply combine_nth. Qed.

Lemma pixel_length st off idx j d : length st = d -> length off = d -> length idx = d -> length j = d -> length (pixel st off idx j) = d.
Proof.
  revert off idx j d. induction st as [|s st IH]; intros [|o off] [|i idx] [|k j] d; cbn [length pixel]; intros; subst; try lia. f_equal. now apply IH; lia.
Qed.

Lemma below_div m s i : 1 <= s -> (i < m / s + 1 <-> i * s <= m).
Proof.
  intros Hs. pose proof (Nat.div_mod m s ltac:(lia)) as D. pose proof (Nat.mod_upper_bound m s ltac:(lia)) as U. split; intros H.
  - assert (i <= m / s) by lia. nia.
  - assert (i <= m / s); [|lia]. apply Nat.div_le_lower_bound; lia.
Qed.

(** ** the model's layers *)
Section Layer.
Variables (F strides : list nat) (d : nat).
Hypothesis (LF : length F = d) (LS : length strides = d).
Hypothesis (HF : Forall (fun n => 1 <= n) F) (HS : Forall (fun n => 1 <= n) strides).
Lemma nth_pos (l : list nat) k : Forall (fun n => 1 <= n) l -> k < length l -> 1 <= nth k l 0.
Proof using. intros H Hk. rewrite Forall_forall in H. apply H, nth_In, Hk. Qed.

Lemma layer_of c f b p x X periodic off extra :
  length (t_shape x) = d -> length (t_shape X) = d -> t_chan X = t_chan x ->
  (forall idx j c, length idx = d -> length j = d -> t_at X (map2 Nat.add (map2 Nat.mul idx strides) j) c = beyond periodic x (pixel strides off idx j) c) ->
  (forall k i, k < d -> (i * nth k strides 0 <= nth k (t_shape X) 0 - nth k F 0 <-> i * nth k strides 0 < nth k (t_shape x) 0 + nth k extra 0)) ->
  conv_layer periodic F strides off extra c f b p x (act f (conv_valid F strides c b p X)).
Proof.
  intros Lx LX EC HB HP. unfold conv_layer, act, conv_valid. cbn [t_chan t_shape t_at].
  assert (LC : length (combine (t_shape X) F) = d) by (rewrite combine_length; lia).
  assert (LM : length (map2 (fun nf s => (fst nf - snd nf) / s + 1) (combine (t_shape X) F) strides) = d) by (rewrite map2_length; lia).
  split; [reflexivity|]. split; [rewrite LM; now symmetry|]. split.
  - intros k i Hk. rewrite (nth_map2 _ _ _ k 0 (0, 0) 0) by lia. rewrite nth_combine' by lia. cbn [fst snd]. rewrite below_div by (apply nth_pos; [exact HS|lia]). apply HP. lia.
  - intros l idx c' HE HI Hc. f_equal. f_equal. rewrite EC. apply f2_length in HI. rewrite LM in HI.
    rewrite (csum_perm _ _ (Permutation_map _ (enumerates_perm _ _ HE))).
    apply csum_ext. intros j Hj. apply in_indices, f2_length in Hj. apply csum_ext. intros c0 _. now rewrite HB by lia.
Qed.

Lemma wrap_at x idx j c : length (t_shape x) = d -> length idx = d -> length j = d ->
  t_at (pad_wrap F x) (map2 Nat.add (map2 Nat.mul idx strides) j) c = beyond true x (pixel strides (map (fun _ => 0) F) idx j) c.
Proof.
  intros H1 H2 H3. unfold pad_wrap, beyond. cbn [t_at]. f_equal. clear HF HS. revert LF LS H1 H2 H3. generalize (t_shape x). revert idx j strides d.
  induction F as [|f F' IH]; intros idx j st d' sh LF' LS' H1 H2 H3; destruct d', sh as [|n sh], st as [|s st], idx as [|i idx], j as [|k j]; cbn [length] in *; try lia; try reflexivity.
  rewrite !map2_cons. cbn [map pixel combine fst snd]. f_equal; [|apply (IH idx j st d'); lia].
  rewrite Z.sub_0_r, <- Nat2Z.inj_mul, <- Nat2Z.inj_add. rewrite <- Nat2Z.inj_mod, Nat2Z.id. reflexivity.
Qed.
Lemma zero_at x pads idx j c : length pads = d -> length (t_shape x) = d -> length idx = d -> length j = d ->
  t_at (pad_zero pads x) (map2 Nat.add (map2 Nat.mul idx strides) j) c = beyond false x (pixel strides (map fst pads) idx j) c.
Proof.
  intros LP H1 H2 H3. unfold pad_zero, beyond. cbn [t_at]. clear HF HS LF F.
  set (I := map2 Nat.add (map2 Nat.mul idx strides) j). set (Z0 := pixel strides (map fst pads) idx j).
  assert (Q : forallb (fun b => b) (map2 (fun ip n => (fst (snd ip) <=? fst ip) && (fst ip <? fst (snd ip) + n)) (combine I pads) (t_shape x))
              = forallb (fun p => (0 <=? fst p)%Z && (fst p <? Z.of_nat (snd p))%Z) (combine Z0 (t_shape x))
            /\ map2 (fun i p => i - fst p) I pads = map Z.to_nat Z0).
  { unfold I, Z0. clear I Z0. revert LP LS H1 H2 H3. generalize (t_shape x). revert idx j strides d.
    induction pads as [|[lo hi] pads IH]; intros idx j st d' sh LP LS' H1 H2 H3; destruct d', sh as [|n sh], st as [|s st], idx as [|i idx], j as [|k j]; cbn [length] in *; try lia; [split; reflexivity|].
    destruct (IH idx j st d' sh ltac:(lia) ltac:(lia) ltac:(lia) ltac:(lia) ltac:(lia)) as [A1 A2].
    rewrite !map2_cons. cbn [combine map pixel fst snd]. rewrite !map2_cons. cbn [forallb fst snd]. rewrite A1, A2. split.
    - f_equal. destruct (Nat.leb_spec lo (i * s + k)), (Z.leb_spec 0 (Z.of_nat i * Z.of_nat s + Z.of_nat k - Z.of_nat lo)); try lia;
        destruct (Nat.ltb_spec (i * s + k) (lo + n)), (Z.ltb_spec (Z.of_nat i * Z.of_nat s + Z.of_nat k - Z.of_nat lo) (Z.of_nat n)); try lia; reflexivity.
    - f_equal. lia. }
  destruct Q as [-> ->]. reflexivity.
Qed.
End Layer.

(** ** the two kinds of layers *)
Section Kinds.
Variables (F strides : list nat) (d : nat).
Hypothesis (LF : length F = d) (LS : length strides = d).
Hypothesis (HF : Forall (fun n => 1 <= n) F) (HS : Forall (fun n => 1 <= n) strides).

Lemma nth_around (per : bool) k : k < d -> nth k (map (fun n => if per then 0 else n - 1) F) 0 = if per then 0 else nth k F 0 - 1.
Proof using. intros _. destruct per; [apply (map_nth (fun _ => 0) F 0 k)|apply (map_nth (fun n => n - 1) F 0 k)]. Qed.

Lemma cnn_layer_ok (periodic : bool) c f b p x : length (t_shape x) = d -> Forall (fun n => 1 <= n) (t_shape x) ->
  let around := map (fun n => if periodic then 0 else n - 1) F in
  conv_layer periodic F strides around around c f b p x (cnn_layer F strides periodic x (c, f, b, p)).
Proof.
  intros Lx Px around. unfold cnn_layer. destruct periodic.
  - apply (layer_of F strides d LF LS HS); [exact Lx|cbn [pad_wrap t_shape]; rewrite map2_length; lia|reflexivity| |].
    + intros idx j c0 H1 H2. now apply (wrap_at F strides d LF LS).
    + intros k i Hk. cbn [pad_wrap t_shape]. rewrite (nth_map2 _ _ _ k 0 0 0) by lia. pose proof (nth_around true k Hk) as NA. cbn beta iota in NA. fold around in NA. rewrite NA.
      pose proof (nth_pos F k HF ltac:(lia)). pose proof (nth_pos (t_shape x) k Px ltac:(lia)). lia.
  - apply (layer_of F strides d LF LS HS); [exact Lx|cbn [pad_zero t_shape]; rewrite map2_length; rewrite ?map_length; lia|reflexivity| |].
    + intros idx j c0 H1 H2. rewrite (zero_at strides d LS) by (rewrite ?map_length; lia). rewrite map_map. reflexivity.
    + intros k i Hk. cbn [pad_zero t_shape]. rewrite (nth_map2 _ _ _ k 0 0 (0 - 1, 0 - 1)) by (rewrite ?map_length; lia).
      pose proof (nth_around false k Hk) as NA. cbn beta iota in NA. fold around in NA. rewrite NA. rewrite (map_nth (fun f0 => (f0 - 1, f0 - 1)) F 0 k). cbn [fst snd].
      pose proof (nth_pos F k HF ltac:(lia)). pose proof (nth_pos (t_shape x) k Px ltac:(lia)). lia.
Qed.

Lemma same_positions n f s i : 1 <= n -> 1 <= f -> 1 <= s ->
  let q := same_pad n f s in (i * s <= fst q + n + snd q - f <-> i * s < n + 0).
Proof using.
  clear LF LS HF HS. intros Hn Hf Hs q. unfold q, same_pad. clear q. cbn [fst snd]. set (out := (n + s - 1) / s).
  assert (D1 : out * s < n + s /\ n <= out * s).
  { pose proof (Nat.div_mod (n + s - 1) s ltac:(lia)) as D. pose proof (Nat.mod_upper_bound (n + s - 1) s ltac:(lia)) as U. fold out in D. nia. }
  set (total := (out - 1) * s + f - n). assert (T : total / 2 <= total) by (apply Nat.div_le_upper_bound; lia).
  replace (total / 2 + n + (total - total / 2) - f) with (total + n - f) by lia. unfold total.
  assert (O1 : 1 <= out) by nia. assert (E1 : (out - 1) * s = out * s - s) by nia. rewrite E1.
  destruct (le_lt_dec n (out * s - s + f)) as [L|L].
  - replace (out * s - s + f - n + n - f) with (out * s - s) by lia. split; intros H; [lia|]. assert (i < out) by nia. nia.
  - replace (out * s - s + f - n) with 0 by lia. split; intros H; [lia|]. assert (i < out) by nia. nia.
Qed.

Lemma same_length (sh : list nat) : length sh = d -> length (map2 (fun nf s => same_pad (fst nf) (snd nf) s) (combine sh F) strides) = d.
Proof using LF LS. intros H. rewrite map2_length; rewrite combine_length; lia. Qed.
Lemma in_front_same (sh : list nat) : length sh = d -> in_front strides F sh = map fst (map2 (fun nf s => same_pad (fst nf) (snd nf) s) (combine sh F) strides).
Proof using LF LS.
  clear HF HS. revert sh F d LF LS. induction strides as [|s st IH]; intros [|n sh] [|f F'] d' LF' LS' H; cbn [length] in *; try lia; try reflexivity.
  cbn [in_front combine]. rewrite map2_cons. cbn [map fst snd]. f_equal. apply (IH sh F' (length F')); lia.
Qed.
Lemma cpx_conv_ok c f b p x : length (t_shape x) = d -> Forall (fun n => 1 <= n) (t_shape x) ->
  conv_layer false F strides (in_front strides F (t_shape x)) (map (fun _ => 0) F) c f b p x (act f (conv_same F strides c b p x)).
Proof.
  intros Lx Px. unfold conv_same. pose proof (same_length (t_shape x) Lx) as LP. rewrite (in_front_same _ Lx).
  apply (layer_of F strides d LF LS HS); [exact Lx|cbn [pad_zero t_shape]; rewrite map2_length; lia|reflexivity| |].
  - intros idx j c0 H1 H2. now apply (zero_at strides d LS).
  - intros k i Hk. cbn [pad_zero t_shape]. rewrite (nth_map2 _ _ _ k 0 0 (0, 0)) by lia.
    assert (LC : length (combine (t_shape x) F) = d) by (rewrite combine_length; lia).
    rewrite (nth_map2 (fun nf s => same_pad (fst nf) (snd nf) s) _ _ k (0, 0) (0, 0) 0) by lia. rewrite nth_combine' by lia. cbn [fst snd].
    replace (nth k (map (fun _ => 0) F) 0) with 0; [apply same_positions; apply nth_pos; (assumption || lia)|].
    symmetry. apply (map_nth (fun _ : nat => 0) F 0 k).
Qed.
Lemma wrap_continued x : length (t_shape x) = d -> Forall (fun n => 1 <= n) (t_shape x) -> continued F x (pad_wrap F x).
Proof.
  intros Lx Px. unfold continued, pad_wrap. cbn [t_chan t_shape t_at]. split; [reflexivity|]. split; [rewrite map2_length; lia|]. split.
  - intros k Hk. rewrite (nth_map2 _ _ _ k 0 0 0) by lia. pose proof (nth_pos F k HF ltac:(lia)). lia.
  - intros idx c HI. unfold beyond. f_equal. apply f2_length in HI. rewrite map2_length in HI by lia. revert HI. generalize (t_shape x). clear. intros sh. revert idx.
    induction sh as [|n sh IH]; intros [|i idx] H; cbn [length] in *; try lia; [reflexivity|]. rewrite map2_cons. cbn [map combine fst snd]. f_equal; [|apply IH; lia].
    rewrite <- Nat2Z.inj_mod, Nat2Z.id. reflexivity.
Qed.
End Kinds.

(** ** a layer is determined by its description *)
Definition agree (x y : tensor) : Prop :=
  t_shape x = t_shape y /\ t_chan x = t_chan y /\ forall idx c, in_box idx (t_shape x) -> c < t_chan x -> t_at x idx c = t_at y idx c.
Lemma agree_refl x : agree x x. Proof. repeat split. Qed.
Lemma beyond_agree per x y z c : agree x y -> Forall (fun n => 1 <= n) (t_shape x) -> length z = length (t_shape x) -> c < t_chan x -> beyond per x z c = beyond per y z c.
Proof.
  intros (ES & EC & EV) HP HL Hc. unfold beyond. rewrite <- ES. destruct per.
  - apply EV; [|exact Hc]. clear EV ES. revert z HL. induction HP as [|n sh Hn HP IH]; intros [|i z] HL; cbn [length] in *; try lia; cbn [map combine]; constructor; [|apply IH; lia].
    cbn [fst snd]. pose proof (Z.mod_pos_bound i (Z.of_nat n) ltac:(lia)). lia.
  - destruct (forallb _ _) eqn:B; [|reflexivity]. apply EV; [|exact Hc]. clear EV ES. revert z HL B. induction HP as [|n sh Hn HP IH]; intros [|i z] HL B; cbn [length] in *; try lia; cbn [map]; constructor.
    + cbn [combine forallb fst snd] in B. apply andb_prop in B as [B _]. apply andb_prop in B as [B1 B2]. apply Z.leb_le in B1. apply Z.ltb_lt in B2. lia.
    + cbn [combine forallb fst snd] in B. apply andb_prop in B as [_ B]. apply IH; [lia|exact B].
Qed.
Lemma nat_ext a b : (forall i, i < a <-> i < b) -> a = b.
Proof. intros H. destruct (lt_eq_lt_dec a b) as [[L|E]|L]; [|exact E|]; [apply H in L|apply H in L]; lia. Qed.
Lemma same_nth (a b : list nat) : length a = length b -> (forall k, k < length a -> nth k a 0 = nth k b 0) -> a = b.
Proof. intros L H. now apply (nth_ext a b 0 0). Qed.
Lemma conv_layer_pos per F st off ex c f b p x y : conv_layer per F st off ex c f b p x y -> Forall (fun n => 1 <= n) (t_shape x) -> Forall (fun n => 1 <= n) (t_shape y).
Proof.
  intros (_ & L & H & _) HP. apply Forall_forall. intros n Hn. apply (In_nth _ _ 0) in Hn as (k & Hk & <-). rewrite L in Hk.
  assert (0 < nth k (t_shape y) 0); [|lia]. apply H; [exact Hk|]. pose proof (nth_pos (t_shape x) k HP Hk). lia.
Qed.
Lemma conv_layer_unique per F st off ex c f b p x y x' y' d :
  length F = d -> length st = d -> length off = d -> length (t_shape x) = d -> Forall (fun n => 1 <= n) (t_shape x) ->
  agree x x' -> conv_layer per F st off ex c f b p x y -> conv_layer per F st off ex c f b p x' y' -> agree y y'.
Proof.
  intros LF LS LO Lx HP A (C1 & L1 & S1 & V1) (C2 & L2 & S2 & V2). pose proof A as (ES & EC & EV). rewrite <- ES in *. rewrite <- EC in *.
  assert (E : t_shape y = t_shape y').
  { apply same_nth; [congruence|]. intros k Hk. apply nat_ext. intros i. rewrite S1, S2 by lia. reflexivity. }
  split; [exact E|]. split; [congruence|]. intros idx c0 HI Hc. rewrite C1 in Hc. rewrite (V1 _ idx c0 (indices_enumerates F) HI Hc).
  rewrite E in HI. rewrite (V2 _ idx c0 (indices_enumerates F) HI Hc). f_equal. f_equal. apply csum_ext. intros j Hj. apply in_indices, f2_length in Hj. apply csum_ext.
  intros c1 Hc1. apply in_seq in Hc1. f_equal. apply beyond_agree; [exact A|exact HP| |lia]. apply f2_length in HI. rewrite <- E in HI. rewrite (pixel_length _ _ _ _ d); lia.
Qed.
Lemma continued_unique F x w x' w' : agree x x' -> Forall (fun n => 1 <= n) (t_shape x) -> Forall (fun n => 1 <= n) F -> length F = length (t_shape x) ->
  continued F x w -> continued F x' w' -> agree w w' /\ length (t_shape w) = length (t_shape x) /\ Forall (fun n => 1 <= n) (t_shape w).
Proof.
  intros A HP HF LF (C1 & L1 & S1 & V1) (C2 & L2 & S2 & V2). pose proof A as (ES & EC & EV). rewrite <- ES in *. rewrite <- EC in *.
  assert (E : t_shape w = t_shape w') by (apply same_nth; [congruence|]; intros k Hk; rewrite S1, S2 by lia; reflexivity).
  split; [split; [exact E|split; [congruence|]]|split; [exact L1|]].
  - intros idx c HI Hc. rewrite V1 by exact HI. rewrite V2 by (rewrite <- E; exact HI). apply beyond_agree; [exact A|exact HP| |lia].
    rewrite map_length. apply f2_length in HI. congruence.
  - apply Forall_forall. intros n Hn. apply (In_nth _ _ 0) in Hn as (k & Hk & <-). rewrite L1 in Hk. rewrite S1 by exact Hk.
    pose proof (nth_pos (t_shape x) k HP Hk). pose proof (nth_pos F k HF ltac:(lia)). lia.
Qed.

(** ** the whole network *)
Section Runs.
Variables (layer : nat -> tensor -> tensor -> Prop) (model : tensor -> nat * (C -> C) * bool * conv_params -> tensor) (lay : list (nat * (C -> C) * bool * conv_params)) (d : nat).
Definition good (x : tensor) : Prop := length (t_shape x) = d /\ Forall (fun n => 1 <= n) (t_shape x).
Hypothesis (sound : forall l q x, nth_error lay l = Some q -> good x -> layer l x (model x q)).
Hypothesis (unique : forall l x x' y y', good x -> agree x x' -> layer l x y -> layer l x' y' -> agree y y' /\ good y).
Lemma runs_sound n : forall l x, good x -> l + n = length lay -> runs layer l x n (fold_left model (skipn l lay) x).
Proof using sound unique.
  induction n as [|n IH]; intros l x G E; [rewrite skipn_all2 by lia; constructor|].
  destruct (nth_error lay l) as [q|] eqn:Q; [|apply nth_error_None in Q; lia].
  assert (SK : skipn l lay = q :: skipn (S l) lay).
  { clear -Q. revert lay Q. induction l as [|l IH]; intros [|a r] Q; try discriminate Q; [injection Q as ->; reflexivity|]. cbn [skipn]. apply IH. exact Q. }
  rewrite SK. cbn [fold_left]. pose proof (sound l q x Q G) as H1. econstructor; [exact H1|]. apply IH; [|lia]. now apply (unique l x x _ _ G (agree_refl x) H1 H1).
Qed.
Lemma runs_unique n l x z : runs layer l x n z -> forall x' z', good x -> agree x x' -> runs layer l x' n z' -> agree z z'.
Proof using unique.
  induction 1 as [l x|l x y n z H1 H2 IH]; intros x' z' G A R.
  - inversion R; subst. exact A.
  - inversion R as [|? ? y' ? ? H3 H4]; subst. destruct (unique l x x' y y' G A H1 H3) as [A' G']. now apply (IH y' z').
Qed.
Lemma result_agree x y r : agree x y -> is_result y r -> r = output x.
Proof using.
  clear. intros (ES & EC & EV) H. rewrite (H _ (indices_enumerates (t_shape y))). unfold output. rewrite <- ES, <- EC, indices_length. f_equal.
  apply csum_ext. intros idx Hi. apply csum_ext. intros c Hc. symmetry. apply EV; [now apply in_indices|apply in_seq in Hc; lia].
Qed.
Lemma result_output y : is_result y (output y).
Proof using.
  intros l HE. unfold output. pose proof (enumerates_perm _ _ HE) as P. rewrite (csum_perm _ _ (Permutation_map _ P)), (Permutation_length P), indices_length. reflexivity.
Qed.
Lemma network shape x r : length shape = d -> Forall (fun n => 1 <= n) shape ->
  ((exists x0 y, is_input shape x x0 /\ runs layer 0 x0 (length lay) y /\ is_result y r) <-> r = output (fold_left model lay (input shape x))).
Proof using sound unique.
  intros L P. assert (G : good (input shape x)) by (split; assumption). pose proof (runs_sound (length lay) 0 _ G eq_refl) as R. cbn [skipn] in R. split.
  - intros (x0 & y & (I1 & I2 & I3) & R' & HR). apply (result_agree _ y); [|exact HR]. refine (runs_unique _ _ _ _ R x0 y G _ R').
    split; [now symmetry|]. split; [now symmetry|]. cbn [input t_shape t_chan t_at]. intros idx c HI Hc. assert (c = 0) as -> by lia. symmetry. apply I3. exact HI.
  - intros ->. exists (input shape x), (fold_left model lay (input shape x)). split; [repeat split|]. split; [exact R|apply result_output].
Qed.
End Runs.
