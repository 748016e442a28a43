(** Batched evaluation, parameter vectors, gradient layout. *)
From Coq Require Import List Reals Lra Lia Bool Arith.
From Verif Require Import Base Cplx Stats_Model Vqs_Model Vqs_Spec.
Import ListNotations.

(** ** batches *)
Lemma concat_chunks {A} b n (l : list A) : length l = n * b -> concat (chunks n b l) = l.
Proof.
  revert l. induction n as [|n IH]; intros l Hl; cbn [chunks concat]; [destruct l; [reflexivity|discriminate]|].
  rewrite IH by (rewrite skipn_length; lia). apply firstn_skipn.
Qed.
Lemma eval_batched_ok {A B} (zero : A) b (f : A -> B) s : 1 <= b -> eval_batched zero b f s = Ok (map f s).
Proof.
  intros Hb. unfold eval_batched, create_batches. destruct b as [|b0] eqn:Eb; [lia|]. rewrite <- Eb in *. clear Eb. cbn [bind].
  set (n := length s). set (rows := (n + b - 1) / b).
  assert (Hr : n <= b * rows).
  { unfold rows. pose proof (Nat.div_mod (n + b - 1) b ltac:(lia)). pose proof (Nat.mod_upper_bound (n + b - 1) b ltac:(lia)). lia. }
  assert (L : length (s ++ repeat zero (b * rows - n)) = rows * b) by (rewrite app_length, repeat_length; fold n; lia).
  rewrite L. rewrite Nat.div_mul by lia. f_equal. rewrite <- concat_map, concat_chunks by assumption.
  rewrite map_app, firstn_app, map_length. fold n. rewrite Nat.sub_diag, firstn_O, app_nil_r. apply firstn_all2. rewrite map_length. subst n. lia.
Qed.

(** ** flattening *)
Lemma slice_skipn {A} a n (P : list A) : slice a (a + n) P = firstn n (skipn a P).
Proof. unfold slice. f_equal. lia. Qed.
Lemma skipn_add {A} a b (l : list A) : skipn a (skipn b l) = skipn (b + a) l.
Proof. revert l. induction b as [|b IH]; intros l; [reflexivity|]. destruct l as [|x l]; [now rewrite !skipn_nil|]. cbn [skipn Nat.add]. apply IH. Qed.

Lemma nth_skipn_ {A} n k (l : list A) d : nth k (skipn n l) d = nth (n + k) l d.
Proof. revert l. induction n as [|n IH]; intros [|x l]; cbn [skipn Nat.add nth]; try reflexivity; [now destruct k|apply IH]. Qed.

(** recursive form *)
Fixpoint unfl (real : bool) (shapes : list nat) (P : list R) : result tree :=
  match shapes with
  | [] => Ok []
  | s :: r =>
      if real then
        do leaf <- reshape s (map RtoC (firstn s P)); do rest <- unfl real r (skipn s P); Ok (leaf :: rest)
      else
        do x <- broadcast_add (map RtoC (firstn s P)) (map (fun y => Cmul Ci (RtoC y)) (firstn s (skipn s P)));
        do leaf <- reshape s x; do rest <- unfl real r (skipn (2 * s) P); Ok (leaf :: rest)
  end.
Lemma unflatten_unfl real shapes P start : param_unflatten real shapes P start = unfl real shapes (skipn start P).
Proof.
  revert start. induction shapes as [|s r IH]; intros start; [reflexivity|]. cbn [param_unflatten unfl]. rewrite !IH, !skipn_add, slice_skipn.
  replace (start + 2 * s) with ((start + s) + s) at 1 by lia. rewrite slice_skipn. reflexivity.
Qed.

Definition real_tree (t : tree) : Prop := Forall (Forall (fun z => Im z = 0%R)) t.
Definition sizes (t : tree) : list nat := map (@length C) t.

Lemma broadcast_eq x y : length x = length y -> broadcast_add x y = Ok (map2 Cadd x y).
Proof. intros H. unfold broadcast_add. now rewrite H, Nat.eqb_refl. Qed.
Lemma reshape_eq s x : length x = s -> reshape s x = Ok x.
Proof. intros H. unfold reshape. now rewrite H, Nat.eqb_refl. Qed.
Lemma map2_length {A B D} (f : A -> B -> D) x y : length x = length y -> length (map2 f x y) = length x.
Proof. revert y. induction x as [|a x IH]; intros [|b y] H; cbn in *; try discriminate; [reflexivity|]. f_equal. apply IH. lia. Qed.
Lemma map2_cons {A B D} (f : A -> B -> D) a x b y : map2 f (a :: x) (b :: y) = f a b :: map2 f x y. Proof. reflexivity. Qed.
Lemma join_re_im (x : list C) : map2 Cadd (map RtoC (map Re x)) (map (fun y => Cmul Ci (RtoC y)) (map Im x)) = x.
Proof. induction x as [|[a b] x IH]; [reflexivity|]. cbn [map]. rewrite map2_cons, IH. f_equal. apply C_eq; cbn; ring. Qed.
Lemma real_leaf x : Forall (fun z => Im z = 0%R) x -> map RtoC (map Re x) = x.
Proof. induction 1 as [|[a b] x H _ IH]; [reflexivity|]. cbn [map]. rewrite IH. f_equal. cbn in H. subst. reflexivity. Qed.
Lemma firstn_exact {A} n (a b : list A) : length a = n -> firstn n (a ++ b) = a.
Proof. intros <-. rewrite firstn_app, Nat.sub_diag, firstn_O, app_nil_r. apply firstn_all2. lia. Qed.
Lemma skipn_exact {A} n (a b : list A) : length a = n -> skipn n (a ++ b) = b.
Proof. intros <-. rewrite skipn_app, Nat.sub_diag, skipn_all. reflexivity. Qed.

Lemma unfl_flatten real t rest : (real = true -> real_tree t) -> unfl real (sizes t) (flatten real t ++ rest) = Ok t.
Proof.
  intros Hr. induction t as [|x t IH]; [reflexivity|]. assert (Hr' : real = true -> real_tree t) by (intros E; specialize (Hr E); now inversion Hr). specialize (IH Hr').
  cbn [sizes map unfl]. unfold flatten in *. destruct real; cbn [map concat].
  - specialize (Hr eq_refl). inversion Hr; subst. rewrite <- app_assoc, firstn_exact, skipn_exact by apply map_length. rewrite real_leaf, reshape_eq by auto. cbn [bind]. unfold sizes in IH. now rewrite IH.
  - rewrite <- !app_assoc. rewrite firstn_exact, skipn_exact by apply map_length. rewrite firstn_exact by apply map_length. rewrite broadcast_eq by (now rewrite !map_length). cbn [bind]. rewrite join_re_im, reshape_eq by reflexivity. cbn [bind].
    rewrite app_assoc. rewrite skipn_exact by (rewrite app_length, !map_length; lia). unfold sizes in IH. now rewrite IH.
Qed.
Lemma flatten_length (real : bool) t : length (flatten real t) = (if real then 1 else 2) * fold_right Nat.add 0 (sizes t).
Proof.
  unfold flatten. destruct real; (induction t as [|x t IH]; [reflexivity|]; cbn [map concat sizes fold_right]; rewrite ?app_length, IH, ?map_length; unfold sizes; lia).
Qed.

Lemma split_join re im : length im = length re ->
  map Re (map2 Cadd (map RtoC re) (map (fun y => Cmul Ci (RtoC y)) im)) = re
  /\ map Im (map2 Cadd (map RtoC re) (map (fun y => Cmul Ci (RtoC y)) im)) = im.
Proof.
  revert im. induction re as [|a re IH]; intros [|b im] H; cbn [length] in H; try lia; [split; reflexivity|].
  cbn [map]. rewrite map2_cons. cbn [map]. destruct (IH im) as [H1 H2]; [lia|]. rewrite H1, H2. split; f_equal; cbn; ring.
Qed.
Lemma unfl_total (real : bool) shapes (P : list R) : (if real then 1 else 2) * fold_right Nat.add 0 shapes = length P ->
  exists t, unfl real shapes P = Ok t /\ sizes t = shapes /\ (real = true -> real_tree t) /\ flatten real t = P.
Proof.
  revert P. induction shapes as [|s r IH]; intros P H; cbn [fold_right] in H.
  - exists []. split; [reflexivity|]. split; [reflexivity|]. split; [constructor|]. destruct P; [now destruct real|cbn in H; destruct real; cbn in H; lia].
  - cbn [unfl]. destruct real.
    + destruct (IH (skipn s P)) as (t & E & Et & Er & Ef); [rewrite skipn_length; lia|]. exists (map RtoC (firstn s P) :: t).
      rewrite reshape_eq by (rewrite map_length, firstn_length; lia). cbn [bind]. rewrite E. cbn [bind]. split; [reflexivity|]. split; [cbn [sizes map]; f_equal; [rewrite map_length, firstn_length; lia|exact Et]|].
      split; [intros _; constructor; [apply Forall_map, Forall_forall; reflexivity|now apply Er]|]. unfold flatten in *. cbn [map concat]. rewrite Ef, map_map. cbn. rewrite map_id. apply firstn_skipn.
    + destruct (IH (skipn (2 * s) P)) as (t & E & Et & Er & Ef); [rewrite skipn_length; lia|].
      set (re := firstn s P). set (im := firstn s (skipn s P)). assert (L1 : length re = s) by (unfold re; rewrite firstn_length; lia). assert (L2 : length im = s) by (unfold im; rewrite firstn_length, skipn_length; lia).
      assert (L : length (map RtoC re) = length (map (fun y => Cmul Ci (RtoC y)) im)) by (rewrite !map_length; lia).
      exists (map2 Cadd (map RtoC re) (map (fun y => Cmul Ci (RtoC y)) im) :: t). rewrite broadcast_eq by exact L. cbn [bind].
      rewrite reshape_eq by (rewrite map2_length by exact L; rewrite map_length; exact L1). cbn [bind]. rewrite E. cbn [bind]. split; [reflexivity|].
      split; [cbn [sizes map]; f_equal; [rewrite map2_length by exact L; rewrite map_length; exact L1|exact Et]|]. split; [discriminate|].
      unfold flatten in *. cbn [map concat]. rewrite Ef. transitivity ((re ++ im) ++ skipn (2 * s) P).
      * f_equal. destruct (split_join re im) as [G1 G2]; [lia|]. now rewrite G1, G2.
      * unfold re, im. rewrite <- app_assoc. replace (2 * s) with (s + s) by lia. rewrite <- skipn_add. now rewrite !firstn_skipn.
Qed.

(** set / get / update *)
Lemma set_get q P : nq_init q = true -> length P = flat_size q ->
  exists q', set_parameters q (PVec P) = Ok q' /\ get_parameters q' = Some P /\ good q' /\ nq_other q' = nq_other q /\ nq_shapes q' = nq_shapes q /\ nq_real q' = nq_real q.
Proof.
  intros Hi HL. unfold flat_size in HL. destruct (unfl_total (nq_real q) (nq_shapes q) P (eq_sym HL)) as (t & E & Et & Er & Ef).
  exists (set_params q t). unfold set_parameters. rewrite Hi, unflatten_unfl. cbn [skipn]. rewrite E. cbn [bind]. split; [reflexivity|].
  unfold get_parameters, set_params, good. cbn [nq_init nq_real nq_params nq_shapes nq_other]. rewrite Hi, Ef. split; [reflexivity|]. split; [split; [reflexivity|split; [exact Et|exact Er]]|]. auto.
Qed.
Lemma good_get q : good q -> get_parameters q = Some (flatten (nq_real q) (nq_params q)) /\ length (flatten (nq_real q) (nq_params q)) = flat_size q.
Proof.
  intros (Hi & Hs & _). unfold get_parameters. rewrite Hi. split; [reflexivity|]. rewrite flatten_length. unfold flat_size, sizes. now rewrite Hs.
Qed.
Lemma set_flatten q t : nq_init q = true -> sizes t = nq_shapes q -> (nq_real q = true -> real_tree t) -> set_parameters q (PVec (flatten (nq_real q) t)) = Ok (set_params q t).
Proof.
  intros Hi Hs Hr. unfold set_parameters. rewrite Hi, unflatten_unfl. cbn [skipn]. rewrite <- Hs. pose proof (unfl_flatten (nq_real q) t [] Hr) as E. rewrite app_nil_r in E. now rewrite E.
Qed.
Lemma get_set q P : good q -> get_parameters q = Some P -> set_parameters q (PVec P) = Ok q.
Proof.
  intros Hg HP. destruct (good_get q Hg) as [E _]. rewrite E in HP. inversion HP; subst. destruct Hg as (Hi & Hs & Hr). rewrite set_flatten by assumption. destruct q. reflexivity.
Qed.

Lemma add_flatten real a b : sizes a = sizes b -> (real = true -> real_tree a) -> flatten real (map2 (map2 Cadd) a b) = map2 Rplus (flatten real a) (flatten real b) /\ sizes (map2 (map2 Cadd) a b) = sizes a.
Proof.
  assert (MA : forall {A B D} (f : A -> B -> D) x x' y y', length x = length y -> map2 f (x ++ x') (y ++ y') = map2 f x y ++ map2 f x' y').
  { intros A B D f x. induction x as [|u x IH]; intros x' [|v y] y' H; cbn [length] in H; try lia; [reflexivity|]. cbn [app]. rewrite !map2_cons. cbn [app]. f_equal. apply IH. lia. }
  assert (M1 : forall x y, map Re (map2 Cadd x y) = map2 Rplus (map Re x) (map Re y)) by (induction x as [|u x IH]; intros [|v y]; try reflexivity; rewrite map2_cons; cbn [map]; rewrite map2_cons, <- IH; reflexivity).
  assert (M2 : forall x y, map Im (map2 Cadd x y) = map2 Rplus (map Im x) (map Im y)) by (induction x as [|u x IH]; intros [|v y]; try reflexivity; rewrite map2_cons; cbn [map]; rewrite map2_cons, <- IH; reflexivity).
  intros Hs Hr. revert b Hs. induction a as [|x a IH]; intros [|y b] Hs; try discriminate; [split; [destruct real|]; reflexivity|].
  assert (Hr' : real = true -> real_tree a) by (intros E; specialize (Hr E); now inversion Hr). cbn [sizes map] in Hs. inversion Hs as [[H1 H2]]. destruct (IH Hr' b H2) as [I1 I2]. rewrite map2_cons. split.
  - unfold flatten in *. destruct real; cbn [map concat]; rewrite I1.
    + rewrite MA by (now rewrite !map_length). now rewrite M1.
    + rewrite !MA by (rewrite ?app_length, !map_length; lia). now rewrite M1, M2.
  - cbn [sizes map]. f_equal; [now apply map2_length|exact I2].
Qed.

(** ** shifting entries *)
Lemma shift_leaf_length j d x : length (shift_leaf j d x) = length x.
Proof. revert j. induction x as [|a x IH]; intros [|j]; cbn; auto. Qed.
Lemma shift_tree_sizes l j d t : sizes (shift_tree l j d t) = sizes t.
Proof. unfold sizes. revert l. induction t as [|x t IH]; intros [|l]; cbn; try reflexivity; [now rewrite shift_leaf_length|now rewrite IH]. Qed.
Lemma shift_entry_app1 k t a b : k < length a -> shift_entry k t (a ++ b) = shift_entry k t a ++ b.
Proof. revert k. induction a as [|x a IH]; intros [|k] H; cbn in *; try lia; [reflexivity|]. rewrite IH by lia. reflexivity. Qed.
Lemma shift_entry_app2 k t a b : length a <= k -> shift_entry k t (a ++ b) = a ++ shift_entry (k - length a) t b.
Proof. revert k. induction a as [|x a IH]; intros k H; cbn [app length]; [now rewrite Nat.sub_0_r|]. cbn [length] in H. destruct k as [|k]; [lia|]. cbn [shift_entry]. rewrite IH by lia. reflexivity. Qed.
Lemma shift_leaf_Re j t x : map Re (shift_leaf j (Cscal t C1) x) = shift_entry j t (map Re x) /\ map Im (shift_leaf j (Cscal t C1) x) = map Im x.
Proof. revert j. induction x as [|[a b] x IH]; intros [|j]; cbn; try (split; reflexivity); [split; f_equal; ring|]. destruct (IH j) as [-> ->]. split; reflexivity. Qed.
Lemma shift_leaf_Im j t x : map Re (shift_leaf j (Cscal t Ci) x) = map Re x /\ map Im (shift_leaf j (Cscal t Ci) x) = shift_entry j t (map Im x).
Proof. revert j. induction x as [|[a b] x IH]; intros [|j]; cbn; try (split; reflexivity); [split; f_equal; ring|]. destruct (IH j) as [-> ->]. split; reflexivity. Qed.
Lemma nth_app_map2 {A} k (a b : list A) d : nth k (a ++ b) d = if k <? length a then nth k a d else nth (k - length a) b d.
Proof. destruct (Nat.ltb_spec k (length a)); [now apply app_nth1|now apply app_nth2]. Qed.

(** entry k of the flat vector belongs to leaf l, position j, real (u = 1) or imaginary part *)
Lemma locate_real t k : k < length (flatten true t) -> exists l j, in_tree t l j
  /\ (forall x, flatten true (shift_tree l j (Cscal x C1) t) = shift_entry k x (flatten true t))
  /\ forall g d, sizes g = sizes t -> nth k (concat g) d = entry g l j.
Proof.
  unfold flatten. revert k. induction t as [|x t IH]; intros k Hk; [cbn in Hk; lia|]. cbn [map concat] in *. rewrite app_length, map_length in Hk.
  destruct (Nat.lt_ge_cases k (length x)) as [H|H].
  - exists 0, k. split; [split; cbn; lia|]. split.
    + intros y. cbn [shift_tree map concat]. rewrite shift_entry_app1 by (now rewrite map_length). f_equal. apply shift_leaf_Re.
    + intros [|y g] d Hs; cbn in Hs; [discriminate|]. inversion Hs as [[H1 H2]]. cbn [concat]. rewrite app_nth1 by lia. unfold entry. cbn [nth]. apply nth_indep. lia.
  - destruct (IH (k - length x)) as (l & j & [Hl Hj] & HS & N); [lia|]. exists (S l), j. split; [split; cbn; [lia|assumption]|]. split.
    + intros y. cbn [shift_tree map concat]. rewrite shift_entry_app2 by (now rewrite map_length). rewrite map_length. f_equal. apply HS.
    + intros [|y g] d Hs; cbn in Hs; [discriminate|]. inversion Hs as [[H1 H2]]. cbn [concat]. rewrite app_nth2 by lia. rewrite H1. unfold entry. cbn [nth]. now apply N.
Qed.
Lemma nth_map' {A B} (f : A -> B) l k d d' : k < length l -> nth k (map f l) d' = f (nth k l d).
Proof. intros H. rewrite (nth_indep _ d' (f d)) by (now rewrite map_length). apply map_nth. Qed.
Lemma locate_cplx t k : k < length (flatten false t) -> exists l j (im : bool), in_tree t l j
  /\ (forall x, flatten false (shift_tree l j (Cscal x (if im then Ci else C1)) t) = shift_entry k x (flatten false t))
  /\ forall f h g d, sizes g = sizes t -> nth k (two_blocks f h g) d = (if im then h else f) (entry g l j).
Proof.
  unfold flatten. revert k. induction t as [|x t IH]; intros k Hk; [cbn in Hk; lia|]. cbn [map concat] in *. rewrite !app_length, !map_length in Hk.
  destruct (Nat.lt_ge_cases k (length x)) as [H|H]; [|destruct (Nat.lt_ge_cases k (length x + length x)) as [H'|H']].
  - exists 0, k, false. split; [split; cbn; lia|]. split.
    + intros y. cbn [shift_tree map concat]. destruct (shift_leaf_Re k y x) as [-> ->]. rewrite <- !app_assoc. now rewrite shift_entry_app1 by (now rewrite map_length).
    + intros f h [|y g] d Hs; cbn in Hs; [discriminate|]. inversion Hs as [[H1 H2]]. unfold two_blocks. cbn [map concat]. rewrite <- app_assoc, app_nth1 by (rewrite map_length; lia). unfold entry. cbn [nth]. apply nth_map'. lia.
  - exists 0, (k - length x), true. split; [split; cbn; lia|]. split.
    + intros y. cbn [shift_tree map concat]. destruct (shift_leaf_Im (k - length x) y x) as [-> ->]. rewrite <- !app_assoc. rewrite shift_entry_app2 by (rewrite map_length; lia). f_equal. rewrite map_length. now rewrite shift_entry_app1 by (rewrite map_length; lia).
    + intros f h [|y g] d Hs; cbn in Hs; [discriminate|]. inversion Hs as [[H1 H2]]. unfold two_blocks. cbn [map concat]. rewrite <- app_assoc, app_nth2 by (rewrite map_length; lia). rewrite map_length, app_nth1 by (rewrite map_length; lia). unfold entry. cbn [nth]. rewrite H1. apply nth_map'. lia.
  - destruct (IH (k - (length x + length x))) as (l & j & im & [Hl Hj] & HS & N); [lia|]. exists (S l), j, im. split; [split; cbn; [lia|assumption]|]. split.
    + intros y. cbn [shift_tree map concat]. rewrite shift_entry_app2 by (rewrite app_length, !map_length; lia). rewrite app_length, !map_length. f_equal. apply HS.
    + intros f h [|y g] d Hs; cbn in Hs; [discriminate|]. inversion Hs as [[H1 H2]]. unfold two_blocks. cbn [map concat]. rewrite app_nth2 by (rewrite app_length, !map_length; lia). rewrite app_length, !map_length, H1. unfold entry. cbn [nth]. now apply N.
Qed.
Lemma two_blocks_length f h g t : sizes g = sizes t -> length (two_blocks f h g) = length (flatten false t).
Proof.
  revert t. unfold two_blocks, flatten. induction g as [|x g IH]; intros [|y t] H; cbn in H; try discriminate; [reflexivity|]. inversion H as [[H1 H2]]. cbn [map concat]. rewrite !app_length, !map_length, H1. f_equal. now apply IH.
Qed.
Lemma concat_length g t : sizes g = sizes t -> length (concat g) = length (flatten true t).
Proof.
  revert t. unfold flatten. induction g as [|x g IH]; intros [|y t] H; cbn in H; try discriminate; [reflexivity|]. inversion H as [[H1 H2]]. cbn [map concat]. rewrite !app_length, !map_length, H1. f_equal. now apply IH.
Qed.
Lemma nth_map2 {A B D} (f : A -> B -> D) x y k dx dy d : k < length x -> length x = length y -> nth k (map2 f x y) d = f (nth k x dx) (nth k y dy).
Proof. revert y k. induction x as [|a x IH]; intros [|b y] [|k] Hk Hl; cbn [length] in *; try lia; [reflexivity|]. rewrite map2_cons. cbn [nth]. apply IH; lia. Qed.

Lemma shift_real l j x t : real_tree t -> real_tree (shift_tree l j (Cscal x C1) t).
Proof.
  assert (G : forall y j, Forall (fun z => Im z = 0%R) y -> Forall (fun z => Im z = 0%R) (shift_leaf j (Cscal x C1) y)).
  { clear. intros y j H. revert j. induction H as [|[a b] y Hz Hy IH]; intros [|j]; cbn [shift_leaf]; try (now constructor).
    constructor; [cbn in *; subst; ring|assumption]. }
  unfold real_tree. intros H. revert l. induction H as [|y t Hy Ht IH]; intros [|l]; cbn [shift_tree]; try (now constructor).
  constructor; [now apply G|assumption].
Qed.

(** common part: the network after shifting entry k *)
Lemma net_shift q l j u k : good q -> (nq_real q = true -> u = C1) ->
  (forall x, flatten (nq_real q) (shift_tree l j (Cscal x u) (nq_params q)) = shift_entry k x (flatten (nq_real q) (nq_params q))) ->
  forall x, set_parameters q (PVec (shift_entry k x (flatten (nq_real q) (nq_params q)))) = Ok (set_params q (shift_tree l j (Cscal x u) (nq_params q))).
Proof.
  intros (Hi & Hs & Hr) Hu HS x. rewrite <- HS. apply set_flatten; [assumption| |].
  - fold (sizes (nq_params q)) in Hs. now rewrite shift_tree_sizes.
  - intros E. rewrite (Hu E). now apply shift_real, Hr.
Qed.

Lemma gradient_spec f q gr gi holo k :
  good q -> is_jax_grad (nq_real q) (fun p => Re (f p)) (nq_params q) gr -> is_jax_grad (nq_real q) (fun p => Im (f p)) (nq_params q) gi ->
  (holo = true -> nq_real q = false /\ cauchy_riemann f (nq_params q)) ->
  k < flat_size q -> derivative_at f q k (nth k (gradients (nq_real q) holo gr gi) C0).
Proof.
  intros Hg [Sr Gr] [Si Gi] Hh Hk. destruct (good_get q Hg) as [EP LP]. fold (sizes gr) in Sr. fold (sizes gi) in Si. fold (sizes (nq_params q)) in Sr, Si.
  assert (R2 : forall F (a b : R), b = a -> derivable_pt_lim F 0 a -> derivable_pt_lim F 0 b) by (intros F a b ->; auto).
  destruct (nq_real q) eqn:Er.
  - destruct holo; [destruct (Hh eq_refl); discriminate|]. rewrite <- LP in Hk. destruct (locate_real (nq_params q) k Hk) as (l & j & Hin & HS & HN).
    pose proof (net_shift q l j C1 k Hg (fun _ => eq_refl)) as HNet. rewrite Er in HNet. specialize (HNet HS).
    exists (flatten true (nq_params q)), (fun x => set_params q (shift_tree l j (Cscal x C1) (nq_params q))). split; [exact EP|]. split; [exact HNet|].
    unfold gradients, flat_gradient. rewrite (nth_map2 _ _ _ k C0 C0) by (rewrite !(concat_length _ (nq_params q)) by assumption; auto). rewrite !HN by assumption.
    destruct (Gr l j Hin) as (dr & Pr & ->). destruct (Gi l j Hin) as (di & Pi & ->). cbn [set_params nq_params]. split.
    + apply (R2 _ dr); [cbn; ring|exact Pr].
    + apply (R2 _ di); [cbn; ring|exact Pi].
  - rewrite <- LP in Hk. destruct (locate_cplx (nq_params q) k Hk) as (l & j & im & Hin & HS & HN).
    pose proof (net_shift q l j (if im then Ci else C1) k Hg ltac:(congruence)) as HNet. rewrite Er in HNet. specialize (HNet HS).
    exists (flatten false (nq_params q)), (fun x => set_params q (shift_tree l j (Cscal x (if im then Ci else C1)) (nq_params q))). split; [exact EP|]. split; [exact HNet|]. cbn [set_params nq_params].
    destruct (Gr l j Hin) as (rx & ry & P1 & P2 & E1). destruct (Gi l j Hin) as (ix & iy & P3 & P4 & E2).
    unfold gradients. destruct holo.
    + unfold flat_gradient_holo. rewrite HN by assumption. rewrite E1. destruct (Hh eq_refl) as [_ CR]. destruct (CR l j Hin) as (a & b & Q1 & Q2 & Q3 & Q4).
      assert (rx = a) by exact (uniqueness_limite _ _ _ _ P1 Q1). assert (ry = (- b)%R) by exact (uniqueness_limite _ _ _ _ P2 Q4). subst rx ry.
      destruct im; cbn; split.
      * apply (R2 _ (- b)%R); [ring|exact Q4].
      * apply (R2 _ a); [ring|exact Q2].
      * exact Q1.
      * apply (R2 _ b); [ring|exact Q3].
    + unfold flat_gradient_cpx_nonholo. rewrite (nth_map2 _ _ _ k C0 C0) by (rewrite !(two_blocks_length _ _ _ (nq_params q)) by assumption; auto). rewrite !HN by assumption. rewrite E1, E2.
      destruct im; cbn; split.
      * apply (R2 _ ry); [ring|exact P2].
      * apply (R2 _ iy); [ring|exact P4].
      * apply (R2 _ rx); [ring|exact P1].
      * apply (R2 _ ix); [ring|exact P3].
Qed.
Lemma gradients_length q gr gi : good q -> sizes gr = nq_shapes q -> sizes gi = nq_shapes q -> forall holo, (holo = true -> nq_real q = false) -> length (gradients (nq_real q) holo gr gi) = flat_size q.
Proof.
  intros Hg Sr Si holo Hh. destruct (good_get q Hg) as [_ LP]. destruct Hg as (_ & Hs & _). rewrite <- LP. fold (sizes (nq_params q)) in Hs. rewrite <- Hs in Sr, Si. unfold gradients. destruct holo.
  - rewrite (Hh eq_refl). now apply two_blocks_length.
  - destruct (nq_real q).
    + unfold flat_gradient. rewrite map2_length by (now rewrite !(concat_length _ (nq_params q))). now apply concat_length.
    + unfold flat_gradient_cpx_nonholo. rewrite map2_length by (now rewrite !(two_blocks_length _ _ _ (nq_params q))). now apply two_blocks_length.
Qed.

(** ** dictionaries *)
Lemma index_map_shift (holo : bool) shapes : forall N start, start + (if holo then 2 else 1) * fold_right Nat.add 0 shapes <= N ->
  concat (index_map holo shapes (seq 0 N) start) = seq start ((if holo then 2 else 1) * fold_right Nat.add 0 shapes)
  /\ forall {A} (v : list A) (leaves : list (list A)) d, map (@length A) leaves = map (fun s => (if holo then 2 else 1) * s) shapes -> skipn start v = concat leaves ->
       map (map (fun i => nth i v d)) (index_map holo shapes (seq 0 N) start) = leaves.
Proof.
  assert (Hslice : forall N a n, a + n <= N -> slice a (a + n) (seq 0 N) = seq a n).
  { intros N a n H. rewrite slice_skipn. replace N with (a + (n + (N - a - n))) by lia. rewrite seq_app, skipn_exact by apply seq_length. rewrite seq_app, firstn_exact by apply seq_length. reflexivity. }
  induction shapes as [|s r IH]; intros N start H.
  - split; [cbn; destruct holo; reflexivity|]. intros A v [|? ?] d E _; [reflexivity|discriminate].
  - cbn [index_map]. assert (Ew : (if holo then 2 * s else s) = (if holo then 2 else 1) * s) by (destruct holo; lia). rewrite Ew. set (w := (if holo then 2 else 1) * s) in *. cbn [fold_right] in H. rewrite Nat.mul_add_distr_l in H. fold w in H.
    rewrite Hslice by lia. destruct (IH N (start + w)) as [I1 I2]; [lia|]. split.
    + cbn [concat fold_right]. rewrite I1, Nat.mul_add_distr_l. fold w. now rewrite seq_app.
    + intros A v [|x leaves] d E Hv; [discriminate|]. cbn [map] in E. inversion E as [[E1 E2]]. fold w in E1. cbn [map concat] in *. f_equal.
      * rewrite <- E1. clear -Hv. assert (G : forall x rest v start, skipn start v = x ++ rest -> map (fun i => nth i v d) (seq start (length x)) = x).
        { clear. induction x as [|a x IHx]; intros rest v start Hv; [reflexivity|]. cbn [length seq map]. f_equal.
          - rewrite <- (Nat.add_0_r start). rewrite <- nth_skipn_, Hv. reflexivity.
          - apply (IHx rest). rewrite <- Nat.add_1_r, <- skipn_add, Hv. reflexivity. }
        exact (G x (concat leaves) v start Hv).
      * apply I2; [assumption|]. rewrite <- skipn_add, Hv. now apply skipn_exact.
Qed.
Lemma dict_leaves real holo gr gi : sizes gr = sizes gi -> (holo = false -> real = true) ->
  concat (gradients_dict real holo gr gi) = gradients real holo gr gi /\ map (@length C) (gradients_dict real holo gr gi) = map (fun s => (if holo then 2 else 1) * s) (sizes gr).
Proof.
  intros Hs Hc. unfold gradients_dict, gradients. destruct holo.
  - unfold dict_gradient_real, flat_gradient_holo, two_blocks. clear Hs. induction gr as [|x gr [I1 I2]]; [split; reflexivity|]. rewrite map2_cons. cbn [concat map sizes]. rewrite I1, I2, map_id. split; [reflexivity|]. f_equal. rewrite app_length, map_length. lia.
  - rewrite (Hc eq_refl). unfold dict_gradient, flat_gradient. revert gi Hs. induction gr as [|x gr IH]; intros [|y gi] Hs; try discriminate; [split; reflexivity|]. cbn in Hs. inversion Hs as [[H1 H2]].
    destruct (IH gi H2) as [I1 I2]. rewrite map2_cons. cbn [concat map sizes]. rewrite I1, I2. split; [|f_equal; rewrite map2_length by assumption; lia].
    clear -H1. revert y H1. induction x as [|a x IHx]; intros [|b y] H; cbn [length] in H; try lia; [reflexivity|]. rewrite map2_cons. cbn [app]. rewrite map2_cons. f_equal. apply IHx. lia.
Qed.
