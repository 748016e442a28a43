(** The predefined proposals. *)
From Coq Require Import ZArith List Reals Lra Lia Bool Arith.
From Verif Require Import Base Cplx Mpi_Model Mpi_Proofs Stats_Model BranchFree_Model BranchFree_Spec BranchFree_Proofs Dist Sampler_Model Sampler_Spec Sampler_Proofs.
Import ListNotations.

(** ** configurations *)
Lemma in_all_configs d n s : In s (all_configs d n) <-> length s = n /\ Forall (fun x => x < d) s.
Proof.
  revert s. induction n as [|n IH]; intros s; cbn [all_configs].
  - split; [intros [<-|[]]; split; [reflexivity|constructor]|]. intros [H _]. destruct s; [now left|discriminate].
  - rewrite in_flat_map. split.
    + intros (x & Hx & H). apply in_map_iff in H as (r & <- & Hr). apply IH in Hr as [El F]. apply in_seq in Hx. split; [cbn; lia|]. constructor; [lia|assumption].
    + intros [El F]. destruct s as [|x s]; [discriminate|]. inversion F; subst. exists x. split; [apply in_seq; lia|]. apply in_map. apply IH. split; [cbn in El; lia|assumption].
Qed.
Lemma NoDup_map_inj {A B} (f : A -> B) l : (forall x y, f x = f y -> x = y) -> NoDup l -> NoDup (map f l).
Proof.
  intros Hf. induction 1 as [|x l Hx _ IH]; cbn; constructor; [|assumption]. intros H. apply in_map_iff in H as (y & E & Hy). apply Hf in E. now subst.
Qed.
Lemma NoDup_app' {A} (a b : list A) : NoDup a -> NoDup b -> (forall x, In x a -> In x b -> False) -> NoDup (a ++ b).
Proof.
  induction 1 as [|x a Hx _ IH]; intros Hb H; [assumption|]. cbn. constructor.
  - rewrite in_app_iff. intros [?|?]; [contradiction|]. apply (H x); [now left|assumption].
  - apply IH; [assumption|]. intros y Hy. apply H. now right.
Qed.
Lemma NoDup_flat_map {A B} (f : A -> list B) l : NoDup l -> (forall x, In x l -> NoDup (f x)) ->
  (forall x y z, In x l -> In y l -> In z (f x) -> In z (f y) -> x = y) -> NoDup (flat_map f l).
Proof.
  induction 1 as [|x l Hx _ IH]; intros H1 H2; cbn; [constructor|]. apply NoDup_app'.
  - apply H1. now left.
  - apply IH; [intros; apply H1; now right|]. intros a b z Ha Hb. apply H2; now right.
  - intros z Hz Hz'. apply in_flat_map in Hz' as (y & Hy & Hzy). assert (x = y) by (apply (H2 x y z); [now left|now right|assumption|assumption]). subst. contradiction.
Qed.
Lemma NoDup_all_configs d n : NoDup (all_configs d n).
Proof.
  induction n as [|n IH]; cbn [all_configs]; [repeat constructor; auto|]. apply NoDup_flat_map; [apply seq_NoDup| |].
  - intros x _. apply NoDup_map_inj; [intros a b E; now inversion E|assumption].
  - intros x y z _ _ Hx Hy. apply in_map_iff in Hx as (a & <- & _). apply in_map_iff in Hy as (b & E & _). now inversion E.
Qed.
Lemma NoDup_filter' {A} (p : A -> bool) l : NoDup l -> NoDup (filter p l).
Proof. induction 1 as [|x l Hx _ IH]; cbn; [constructor|]. destruct (p x); [|assumption]. constructor; [|assumption]. intros H. apply filter_In in H. tauto. Qed.

Lemma nth_scatter1 {B} (l : list B) i v p d : i < length l -> nth p (scatter1 l i v) d = if p =? i then v else nth p l d.
Proof.
  intros Hi. destruct (Nat.eqb_spec p i) as [->|H]; [|now rewrite nth_scatter1_other by auto].
  revert i Hi. induction l as [|a l IH]; intros [|i] Hi; cbn in *; try lia; [reflexivity|]. apply IH. lia.
Qed.
Lemma config_ext (s t : config) n : length s = n -> length t = n -> (forall p, p < n -> nth p s 0 = nth p t 0) -> s = t.
Proof. intros E1 E2 H. apply (nth_ext _ _ 0 0); [lia|]. intros p Hp. apply H. lia. Qed.
Lemma binary_nth s p : binary s -> nth p s 0 < 2.
Proof.
  intros H. destruct (Nat.lt_ge_cases p (length s)) as [Hp|Hp]; [|rewrite nth_overflow; lia]. unfold binary in H. rewrite Forall_forall in H. apply H. now apply nth_In.
Qed.
Lemma nth_binary s : (forall p, p < length s -> nth p s 0 < 2) -> binary s.
Proof. intros H. apply Forall_forall. intros x Hx. apply (In_nth _ _ 0) in Hx as (p & Hp & <-). auto. Qed.
Lemma nth_flip_all s p : p < length s -> nth p (flip_all s) 0 = 1 - nth p s 0.
Proof. intros H. unfold flip_all. rewrite (nth_indep _ 0 (1 - 0)) by (rewrite map_length; exact H). now rewrite (map_nth (fun x => 1 - x)). Qed.
Lemma flip_all_length s : length (flip_all s) = length s. Proof. apply map_length. Qed.

(** ** uniform draws with reversible moves *)
Lemma Pr_draws {D} (draws : list D) (move : D -> config -> config) s t :
  Pr (d <~ uniform draws;; ret (move d s)) t = (/ INR (length draws) * rsum (map (fun d => if config_eq_dec (move d s) t then 1 else 0) draws))%R.
Proof. unfold Pr. rewrite E_bind, E_uniform. f_equal. apply rsum_ext. intros d _. now rewrite E_ret. Qed.

(** ** single flips *)
Definition flip1 (i : nat) (s : config) : config := scatter1 s i ((gather1 0 s i + 1) mod 2).
Lemma flip1_length i s : length (flip1 i s) = length s. Proof. apply scatter1_length. Qed.
Lemma mod2 x : x < 2 -> (x + 1) mod 2 = 1 - x.
Proof. intros H. destruct x as [|[|x]]; [reflexivity|reflexivity|lia]. Qed.
Lemma nth_flip1 i s p : binary s -> i < length s -> nth p (flip1 i s) 0 = if p =? i then 1 - nth i s 0 else nth p s 0.
Proof.
  intros Hb Hi. unfold flip1. rewrite nth_scatter1, gather1_nth by assumption. now rewrite mod2 by (now apply binary_nth).
Qed.
Lemma flip1_binary i s : binary s -> i < length s -> binary (flip1 i s).
Proof.
  intros Hb Hi. apply nth_binary. intros p Hp. rewrite flip1_length in Hp. rewrite nth_flip1 by assumption. pose proof (binary_nth s p Hb). destruct (p =? i); lia.
Qed.
Lemma flip_all_binary s : binary (flip_all s).
Proof. apply Forall_map. apply Forall_forall. intros x _; lia. Qed.
Lemma flip1_inv i s t : binary s -> i < length s -> flip1 i s = t -> flip1 i t = s.
Proof.
  intros Hb Hi <-. apply (config_ext _ _ (length s)); rewrite ?flip1_length; try reflexivity. intros p Hp.
  rewrite nth_flip1 by (rewrite ?flip1_length; auto using flip1_binary). rewrite !nth_flip1 by assumption. rewrite Nat.eqb_refl.
  pose proof (binary_nth s i Hb). destruct (Nat.eqb_spec p i) as [->|]; [lia|reflexivity].
Qed.
Lemma flip1_all_inv i s t : binary s -> i < length s -> flip_all (flip1 i s) = t -> flip_all (flip1 i t) = s.
Proof.
  intros Hb Hi <-. apply (config_ext _ _ (length s)); rewrite ?flip_all_length, ?flip1_length, ?flip_all_length, ?flip1_length; try reflexivity. intros p Hp.
  rewrite nth_flip_all by (now rewrite flip1_length, flip_all_length, flip1_length).
  rewrite nth_flip1 by (rewrite ?flip_all_length, ?flip1_length; auto using flip_all_binary).
  rewrite !nth_flip_all by (now rewrite flip1_length). rewrite !nth_flip1 by assumption. rewrite Nat.eqb_refl.
  pose proof (binary_nth s p Hb). destruct (Nat.eqb_spec p i) as [->|]; lia.
Qed.

Lemma mass_randint a b : a < b -> mass (randint a b) = 1%R.
Proof. intros H. apply mass_uniform. destruct (b - a) eqn:E; [lia|discriminate]. Qed.

Theorem spin_flip_good n : 1 <= n -> good_proposal (all_configs 2 n) propose_spin_flip.
Proof.
  intros Hn. split; [apply NoDup_all_configs|]. split.
  - intros s Hs. apply in_all_configs in Hs as [El Hb]. split.
    + unfold propose_spin_flip. rewrite mass_bind; [apply mass_randint; lia|]. intros; apply mass_ret.
    + intros t Ht. apply outcome_bind in Ht as (i & Hi & Ht). apply outcome_uniform, in_seq in Hi. apply outcome_ret in Ht. subst t.
      fold (flip1 i s). apply in_all_configs. split; [now rewrite flip1_length|]. apply flip1_binary; [assumption|lia].
  - intros s t Hs Ht. apply in_all_configs in Hs as [El Hb]. apply in_all_configs in Ht as [El' Hb'].
    assert (G : forall a b, Pr (propose_spin_flip a) b = (/ INR (length (seq 0 (length a - 0))) * rsum (map (fun d => if config_eq_dec (flip1 d a) b then 1 else 0) (seq 0 (length a - 0))))%R)
      by (intros a b; exact (Pr_draws _ flip1 a b)).
    rewrite !G, El, El'. f_equal. apply rsum_ext. intros i Hi. apply in_seq in Hi.
    destruct (config_eq_dec (flip1 i s) t) as [E|E], (config_eq_dec (flip1 i t) s) as [E'|E']; try reflexivity; exfalso.
    + apply E', flip1_inv; [assumption|lia|assumption]. + apply E, flip1_inv; [assumption|lia|assumption].
Qed.

Definition flipZ2 (i k : nat) (s : config) : config := if k =? 0 then flip_all (flip1 i s) else flip1 i s.
Theorem Z2_good n : 1 <= n -> good_proposal (all_configs 2 n) propose_spin_flip_Z2.
Proof.
  intros Hn. split; [apply NoDup_all_configs|]. split.
  - intros s Hs. apply in_all_configs in Hs as [El Hb]. split.
    + unfold propose_spin_flip_Z2. rewrite mass_bind; [apply mass_randint; lia|]. intros. rewrite mass_bind; [apply mass_randint; lia|]. intros; apply mass_ret.
    + intros t Ht. apply outcome_bind in Ht as (i & Hi & Ht). apply outcome_uniform, in_seq in Hi. apply outcome_bind in Ht as (k & _ & Ht). apply outcome_ret in Ht. subst t.
      fold (flip1 i s). apply in_all_configs. destruct (k =? 0).
      * split; [now rewrite flip_all_length, flip1_length|apply flip_all_binary].
      * split; [now rewrite flip1_length|]. apply flip1_binary; [assumption|lia].
  - intros s t Hs Ht. apply in_all_configs in Hs as [El Hb]. apply in_all_configs in Ht as [El' Hb'].
    assert (G : forall a b, Pr (propose_spin_flip_Z2 a) b = (/ INR (length (seq 0 (length a - 0))) * rsum (map (fun i => / INR (length (seq 0 (5 - 0))) * rsum (map (fun k => if config_eq_dec (flipZ2 i k a) b then 1 else 0) (seq 0 (5 - 0)))) (seq 0 (length a - 0))))%R).
    { intros a b. unfold Pr, propose_spin_flip_Z2, randint. rewrite E_bind, E_uniform. f_equal. apply rsum_ext. intros i _. rewrite E_bind, E_uniform. f_equal. apply rsum_ext.
      intros k _. rewrite E_ret. reflexivity. }
    rewrite !G, El, El'. f_equal. apply rsum_ext. intros i Hi. apply in_seq in Hi. f_equal. apply rsum_ext. intros k _. unfold flipZ2.
    destruct (k =? 0).
    + destruct (config_eq_dec (flip_all (flip1 i s)) t) as [E|E], (config_eq_dec (flip_all (flip1 i t)) s) as [E'|E']; try reflexivity; exfalso.
      * apply E', flip1_all_inv; [assumption|lia|assumption]. * apply E, flip1_all_inv; [assumption|lia|assumption].
    + destruct (config_eq_dec (flip1 i s) t) as [E|E], (config_eq_dec (flip1 i t) s) as [E'|E']; try reflexivity; exfalso.
      * apply E', flip1_inv; [assumption|lia|assumption]. * apply E, flip1_inv; [assumption|lia|assumption].
Qed.

(** ** zero magnetisation *)
Lemma ones_cons x s : ones (x :: s) = (if x =? 1 then 1 else 0) + ones s.
Proof. unfold ones. cbn [filter]. destruct (x =? 1); reflexivity. Qed.
Lemma ones_le s : ones s <= length s.
Proof. induction s; [cbn; lia|]. rewrite ones_cons. cbn [length]. destruct (a =? 1); lia. Qed.
Lemma ones_flip s : binary s -> ones (flip_all s) = length s - ones s.
Proof.
  induction 1 as [|x s Hx Hs IH]; [reflexivity|]. unfold flip_all in *. cbn [map length]. rewrite !ones_cons, IH. pose proof (ones_le s). replace (1 - x =? 1) with (x =? 0) by (destruct x as [|[|x]]; reflexivity). destruct x as [|[|x]]; cbn [Nat.eqb]; lia.
Qed.
Lemma flip_flip s : binary s -> flip_all (flip_all s) = s.
Proof. induction 1; [reflexivity|]. unfold flip_all in *. cbn [map]. f_equal; [lia|assumption]. Qed.

(** the b-th one: all ones are reached by exactly one bound *)
Lemma sum_bounds (g : nat -> R) s : binary s -> forall a, 
  rsum (map (fun b => g (searchsorted (cumsum a s) b)) (seq (a + 1) (ones s)))
  = rsum (map (fun i => if nth i s 0 =? 1 then g i else 0%R) (seq 0 (length s))).
Proof.
  intros Hb. revert g. induction Hb as [|x s Hx Hs IH]; intros g a; [reflexivity|].
  cbn [length seq map]. rewrite rsum_cons, <- seq_shift, map_map. cbn [nth].
  assert (T : forall a', rsum (map (fun i => if nth i s 0 =? 1 then g (S i) else 0%R) (seq 0 (length s))) = rsum (map (fun b => g (S (searchsorted (cumsum a' s) b))) (seq (a' + 1) (ones s)))).
  { intros a'. symmetry. apply (IH (fun i => g (S i))). }
  rewrite ones_cons. destruct x as [|[|x]]; [| |lia]; cbn [Nat.eqb].
  - rewrite Nat.add_0_l, (T a), Rplus_0_l. apply rsum_ext. intros b Hb'. apply in_seq in Hb'. cbn [cumsum searchsorted]. rewrite Nat.add_0_r.
    destruct (Nat.leb_spec b a); [lia|reflexivity].
  - cbn [Nat.add seq map]. rewrite rsum_cons. f_equal.
    + cbn [cumsum searchsorted]. now rewrite Nat.leb_refl.
    + rewrite (T (a + 1)). replace (S (a + 1)) with (a + 1 + 1) by lia. apply rsum_ext. intros b Hb'. apply in_seq in Hb'. cbn [cumsum searchsorted].
      destruct (Nat.leb_spec b (a + 1)); [lia|reflexivity].
Qed.

(** for every bound there is a one at the position found *)
Lemma bound_position s : binary s -> forall a b, a < b <= a + ones s ->
  searchsorted (cumsum a s) b < length s /\ nth (searchsorted (cumsum a s) b) s 0 = 1.
Proof.
  induction 1 as [|x s Hx Hs IH]; intros a b Hab; [cbn in Hab; lia|]. rewrite ones_cons in Hab. cbn [cumsum searchsorted length].
  destruct (Nat.leb_spec b (a + x)).
  - split; [lia|]. cbn [nth]. destruct x as [|[|x]]; cbn in *; lia.
  - cbn [nth]. destruct (IH (a + x) b) as [I1 I2]; [|split; [lia|assumption]]. destruct x as [|[|x]]; cbn in *; lia.
Qed.

Definition swap (i j : nat) (s : config) : config := scatter1 (scatter1 s i 0) j 1.
Lemma swap_length i j s : length (swap i j s) = length s.
Proof. unfold swap. now rewrite !scatter1_length. Qed.
Lemma nth_swap i j s p : i < length s -> j < length s -> nth p (swap i j s) 0 = if p =? j then 1 else if p =? i then 0 else nth p s 0.
Proof. intros Hi Hj. unfold swap. rewrite nth_scatter1 by (now rewrite scatter1_length). destruct (p =? j); [reflexivity|]. now apply nth_scatter1. Qed.
Lemma swap_binary i j s : binary s -> i < length s -> j < length s -> binary (swap i j s).
Proof.
  intros Hb Hi Hj. apply nth_binary. intros p _. rewrite nth_swap by assumption. pose proof (binary_nth s p Hb). destruct (p =? j), (p =? i); lia.
Qed.
Lemma ones_scatter s i v : i < length s -> v < 2 -> ones (scatter1 s i v) + (if nth i s 0 =? 1 then 1 else 0) = ones s + v.
Proof.
  revert i. induction s as [|x s IH]; intros [|i] Hi Hv; cbn [length] in Hi; try lia; cbn [scatter1 nth]; rewrite !ones_cons.
  - destruct v as [|[|v]]; cbn [Nat.eqb]; lia.
  - specialize (IH i ltac:(lia) Hv). lia.
Qed.
Lemma ones_swap i j s : i < length s -> j < length s -> nth i s 0 = 1 -> nth j s 0 = 0 -> ones (swap i j s) = ones s.
Proof.
  intros Hi Hj H1 H0. unfold swap. assert (i <> j) by (intros ->; lia).
  pose proof (ones_scatter s i 0 Hi ltac:(lia)) as A. pose proof (ones_scatter (scatter1 s i 0) j 1 ltac:(now rewrite scatter1_length) ltac:(lia)) as B.
  rewrite nth_scatter1_other in B by auto. rewrite H1 in A. rewrite H0 in B. cbn [Nat.eqb] in A, B. lia.
Qed.

Lemma zm_half s : zero_mag s -> length s / 2 = ones s /\ ones (flip_all s) = ones s.
Proof.
  intros [Hb H]. split; [rewrite <- H, Nat.mul_comm; apply Nat.div_mul; lia|]. rewrite ones_flip by assumption. lia.
Qed.

(** the positions found for given bounds *)
Lemma move_swap s bu bd : zero_mag s -> 1 <= bu <= ones s -> 1 <= bd <= ones s ->
  exists i j, i < length s /\ j < length s /\ nth i s 0 = 1 /\ nth j s 0 = 0 /\ zeroMag_move s bu bd = swap i j s.
Proof.
  intros Hz Hu Hd. destruct (zm_half s Hz) as [_ Hf]. destruct Hz as [Hb _].
  destruct (bound_position s Hb 0 bu ltac:(lia)) as [P1 P2].
  destruct (bound_position (flip_all s) (flip_all_binary s) 0 bd ltac:(lia)) as [Q1 Q2]. rewrite flip_all_length in Q1. rewrite nth_flip_all in Q2 by assumption.
  eexists. eexists. split; [exact P1|]. split; [exact Q1|]. split; [exact P2|]. split; [lia|].
  unfold zeroMag_move. fold (flip_all s). rewrite !Nat.min_l by lia. reflexivity.
Qed.

Lemma swap_zero_mag i j s : zero_mag s -> i < length s -> j < length s -> nth i s 0 = 1 -> nth j s 0 = 0 -> zero_mag (swap i j s).
Proof.
  intros [Hb H] Hi Hj H1 H0. split; [now apply swap_binary|]. now rewrite ones_swap, swap_length.
Qed.
Lemma flip_zero_mag s : zero_mag s -> zero_mag (flip_all s).
Proof. intros Hz. destruct (zm_half s Hz) as [_ Hf]. destruct Hz as [Hb H]. split; [apply flip_all_binary|]. now rewrite Hf, flip_all_length. Qed.

Lemma zeroMag_inv a b s m : propose_spin_flip_zeroMag [a; b] s = Ok m -> m = (
      bound_up <~ randint 1 (a * b / 2 + 1);;
      bound_down <~ randint 1 (a * b / 2 + 1);;
      doFlip <~ randint 0 5;;
      ret (if doFlip =? 0 then flip_all (zeroMag_move s bound_up bound_down) else zeroMag_move s bound_up bound_down)).
Proof. unfold propose_spin_flip_zeroMag. generalize (a * b / 2 + 1). intros h E. inversion E. reflexivity. Qed.

Lemma zeroMag_conserves a b s t m : propose_spin_flip_zeroMag [a; b] s = Ok m -> length s = a * b -> zero_mag s -> outcome m t -> zero_mag t /\ length t = length s.
Proof.
  intros E El Hz Ht. apply zeroMag_inv in E. subst m. destruct (zm_half s Hz) as [Hh _]. rewrite <- El, Hh in Ht.
  apply outcome_bind in Ht as (bu & Hu & Ht). apply outcome_uniform, in_seq in Hu.
  apply outcome_bind in Ht as (bd & Hd & Ht). apply outcome_uniform, in_seq in Hd.
  apply outcome_bind in Ht as (k & _ & Ht). apply outcome_ret in Ht. subst t.
  destruct (move_swap s bu bd Hz ltac:(lia) ltac:(lia)) as (i & j & Hi & Hj & H1 & H0 & ->).
  pose proof (swap_zero_mag i j s Hz Hi Hj H1 H0). destruct (k =? 0); [|now rewrite swap_length].
  split; [now apply flip_zero_mag|]. now rewrite flip_all_length, swap_length.
Qed.

(** the probability as a sum over pairs of sites *)
Definition moveK (k i j : nat) (s : config) := if k =? 0 then flip_all (swap i j s) else swap i j s.
Definition hit (s t : config) (k i j : nat) : R :=
  if nth i s 0 =? 1 then if nth j s 0 =? 0 then if config_eq_dec (moveK k i j s) t then 1%R else 0%R else 0%R else 0%R.

Lemma zeroMag_Pr a b s t m : propose_spin_flip_zeroMag [a; b] s = Ok m -> length s = a * b -> zero_mag s ->
  Pr m t = (/ INR (ones s) * (/ INR (ones s) * (/ 5 * rsum (map (fun i => rsum (map (fun j => rsum (map (fun k => hit s t k i j) (seq 0 5))) (seq 0 (length s)))) (seq 0 (length s))))))%R.
Proof.
  intros E El Hz. apply zeroMag_inv in E. subst m. pose proof (zm_half s Hz) as [Hh Hf]. rewrite <- El, Hh. pose proof Hz as [Hb _].
  unfold Pr, randint. replace (ones s + 1 - 1) with (ones s) by lia.
  set (h := ones s) in *. rewrite E_bind, E_uniform, seq_length. f_equal.
  transitivity (rsum (map (fun bu => (/ INR h * rsum (map (fun bd => (/ 5 * rsum (map (fun k => if config_eq_dec (moveK k (Nat.min (searchsorted (cumsum 0 s) bu) (length s - 1)) (Nat.min (searchsorted (cumsum 0 (flip_all s)) bd) (length s - 1)) s) t then 1 else 0) (seq 0 5)))%R) (seq 1 h)))%R) (seq 1 h))).
  { apply rsum_ext. intros bu _. rewrite E_bind, E_uniform, seq_length. f_equal. apply rsum_ext. intros bd _. rewrite E_bind, E_uniform.
    replace (INR (length (seq 0 (5 - 0)))) with 5%R by (cbn; ring). f_equal. apply rsum_ext. intros k _. rewrite E_ret. reflexivity. }
  rewrite rsum_scal. f_equal.
  pose proof (sum_bounds (fun i => rsum (map (fun bd => (/ 5 * rsum (map (fun k => if config_eq_dec (moveK k (Nat.min i (length s - 1)) (Nat.min (searchsorted (cumsum 0 (flip_all s)) bd) (length s - 1)) s) t then 1 else 0) (seq 0 5)))%R) (seq 1 h))) s Hb 0) as S1.
  cbn [Nat.add] in S1. fold h in S1. rewrite S1. clear S1. rewrite <- rsum_scal. apply rsum_ext. intros i Hi. apply in_seq in Hi. rewrite (Nat.min_l i) by lia.
  unfold hit. destruct (nth i s 0 =? 1) eqn:Ei.
  2:{ rewrite (rsum_ext _ (fun _ => 0%R)), rsum_zero; [ring|]. intros j _. apply rsum_zero. }
  rewrite rsum_scal. f_equal.
  pose proof (sum_bounds (fun j => rsum (map (fun k => if config_eq_dec (moveK k i (Nat.min j (length s - 1)) s) t then 1%R else 0%R) (seq 0 5))) (flip_all s) (flip_all_binary s) 0) as S2.
  cbn [Nat.add] in S2. rewrite Hf, flip_all_length in S2. fold h in S2. rewrite S2. apply rsum_ext. intros j Hj. apply in_seq in Hj. rewrite nth_flip_all by lia. rewrite Nat.min_l by lia.
  pose proof (binary_nth s j Hb). destruct (nth j s 0) as [|[|x]]; [| |lia]; cbn [Nat.eqb Nat.sub].
  - reflexivity.
  - rewrite rsum_zero. reflexivity.
Qed.

Lemma hit_sym s t k i j : binary s -> binary t -> length s = length t -> i < length s -> j < length s ->
  hit s t k i j = hit t s k (if k =? 0 then i else j) (if k =? 0 then j else i).
Proof.
  assert (G : forall s t k i j, binary s -> binary t -> length s = length t -> i < length s -> j < length s ->
     hit s t k i j = 1%R -> hit t s k (if k =? 0 then i else j) (if k =? 0 then j else i) = 1%R).
  { clear. intros s t k i j Hbs Hbt El Hi Hj. unfold hit, moveK. destruct (nth i s 0 =? 1) eqn:Ei; [|lra]. destruct (nth j s 0 =? 0) eqn:Ej; [|lra].
    apply Nat.eqb_eq in Ei, Ej. assert (i <> j) by (intros ->; lia). destruct (config_eq_dec _ t) as [<-|]; [intros _|lra].
    destruct (k =? 0).
    - rewrite !nth_flip_all by (now rewrite swap_length). rewrite !nth_swap by assumption. rewrite !Nat.eqb_refl. destruct (Nat.eqb_spec i j); [contradiction|].
      destruct (Nat.eqb_spec j i); [congruence|]. cbn [Nat.sub Nat.eqb].
      destruct (config_eq_dec _ s) as [|X]; [reflexivity|]. exfalso. apply X. apply (config_ext _ _ (length s)); rewrite ?flip_all_length, ?swap_length, ?flip_all_length, ?swap_length; try reflexivity.
      intros p Hp. rewrite nth_flip_all by (now rewrite swap_length, flip_all_length, swap_length). rewrite nth_swap by (now rewrite flip_all_length, swap_length).
      rewrite nth_flip_all by (now rewrite swap_length). rewrite nth_swap by assumption. pose proof (binary_nth s p Hbs).
      destruct (Nat.eqb_spec p j) as [X1|], (Nat.eqb_spec p i) as [X2|]; try (exfalso; congruence); try rewrite X1 in *; try rewrite X2 in *; lia.
    - rewrite !nth_swap by assumption. rewrite !Nat.eqb_refl. destruct (Nat.eqb_spec i j); [contradiction|]. cbn [Nat.eqb].
      destruct (config_eq_dec _ s) as [|X]; [reflexivity|]. exfalso. apply X. apply (config_ext _ _ (length s)); rewrite ?swap_length, ?swap_length; try reflexivity.
      intros p Hp. rewrite nth_swap by (now rewrite swap_length). rewrite nth_swap by assumption.
      destruct (Nat.eqb_spec p i) as [X1|], (Nat.eqb_spec p j) as [X2|]; try (exfalso; congruence); try rewrite X1 in *; try rewrite X2 in *; lia. }
  intros Hbs Hbt El Hi Hj.
  assert (B : forall s t k i j, hit s t k i j = 1%R \/ hit s t k i j = 0%R).
  { clear. intros. unfold hit. destruct (nth i s 0 =? 1), (nth j s 0 =? 0), (config_eq_dec (moveK k i j s) t); auto. }
  destruct (B s t k i j) as [E|E].
  - rewrite E. symmetry. apply G; assumption.
  - rewrite E. destruct (B t s k (if k =? 0 then i else j) (if k =? 0 then j else i)) as [E'|E']; [|now rewrite E'].
    apply G in E'; try assumption; try (now symmetry); try (destruct (k =? 0); lia). destruct (k =? 0); rewrite E in E'; lra.
Qed.

Definition zm_configs (n : nat) : list config := filter (fun s => 2 * ones s =? n) (all_configs 2 n).
Lemma in_zm_configs n s : In s (zm_configs n) <-> length s = n /\ zero_mag s.
Proof.
  unfold zm_configs. rewrite filter_In, in_all_configs, Nat.eqb_eq. unfold zero_mag, binary. intuition congruence.
Qed.

Theorem zeroMag_good a b m : 1 <= a * b -> (forall s, length s = a * b -> propose_spin_flip_zeroMag [a; b] s = Ok (m s)) -> good_proposal (zm_configs (a * b)) m.
Proof.
  intros Hn Hm. split; [apply NoDup_filter', NoDup_all_configs|]. split.
  - intros s Hs. apply in_zm_configs in Hs as [El Hz]. split.
    + rewrite (zeroMag_inv _ _ _ _ (Hm s El)). destruct (zm_half s Hz) as [Hh _]. rewrite <- El, Hh.
      assert (1 <= ones s) by (destruct Hz; lia).
      rewrite mass_bind; [apply mass_randint; lia|]. intros. rewrite mass_bind; [apply mass_randint; lia|]. intros. rewrite mass_bind; [apply mass_randint; lia|]. intros; apply mass_ret.
    + intros t Ht. apply in_zm_configs. destruct (zeroMag_conserves a b s t (m s) (Hm s El) El Hz Ht). split; [lia|assumption].
  - intros s t Hs Ht. apply in_zm_configs in Hs as [El Hz]. apply in_zm_configs in Ht as [El' Hz'].
    rewrite (zeroMag_Pr a b s t _ (Hm s El) El Hz), (zeroMag_Pr a b t s _ (Hm t El') El' Hz').
    assert (Eo : ones s = ones t) by (destruct Hz, Hz'; lia). rewrite Eo, El, El'. do 3 f_equal. destruct Hz as [Hb _], Hz' as [Hb' _].
    set (N := seq 0 (a * b)). assert (HN : forall i, In i N -> i < a * b) by (intros i Hi; apply in_seq in Hi; lia).
    (* k = 0 keeps the roles of i and j, the others exchange them *)
    transitivity (rsum (map (fun k => rsum (map (fun i => rsum (map (fun j => hit s t k i j) N)) N)) (seq 0 5))).
    { rewrite (rsum_swap (fun k i => rsum (map (fun j => hit s t k i j) N))). apply rsum_ext. intros i _. now rewrite rsum_swap. }
    transitivity (rsum (map (fun k => rsum (map (fun i => rsum (map (fun j => hit t s k i j) N)) N)) (seq 0 5))).
    2:{ rewrite (rsum_swap (fun k i => rsum (map (fun j => hit t s k i j) N))). apply rsum_ext. intros i _. now rewrite rsum_swap. }
    apply rsum_ext. intros k _. destruct (Nat.eqb_spec k 0) as [->|Hk].
    + apply rsum_ext. intros i Hi. apply rsum_ext. intros j Hj. rewrite (hit_sym s t 0 i j) by (try assumption; try (rewrite El; auto); lia). reflexivity.
    + rewrite (rsum_swap (fun i j => hit t s k i j)). apply rsum_ext. intros i Hi. apply rsum_ext. intros j Hj.
      rewrite (hit_sym s t k i j) by (try assumption; try (rewrite El; auto); lia). destruct (Nat.eqb_spec k 0); [contradiction|reflexivity].
Qed.
