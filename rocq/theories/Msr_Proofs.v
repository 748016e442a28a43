(** Steps with complex updates: pairs of parameters of complex networks, MinSR, descent. *)
From Coq Require Import List Reals Lra Lia Arith ZArith Bool FunctionalExtensionality.
From Verif Require Import Base Cplx Povm_Spec Povm_Proofs Povm3_Proofs Mpi_Model Stats_Model Stats_Spec Stats_Proofs Sampler_Model Stepper_Model
  Vqs_Model Vqs_Spec Vqs_Proofs Tdvp_Model Tdvp_Spec Tdvp_Proofs Tdvp2_Proofs Tdvp3_Proofs Tdvp4_Proofs Tdvp5_Proofs Msr_Model.
Import ListNotations.
Local Open Scope R_scope.

(** ** functions on flat indices whose entry for an imaginary part is z times that for the real part *)
Fixpoint hol (z : C) (shapes : list nat) (f : nat -> C) : Prop :=
  match shapes with
  | [] => True
  | s :: r => (forall j, (j < s)%nat -> f (s + j)%nat = (z * f j)%C) /\ hol z r (fun k => f (2 * s + k)%nat)
  end.
Definition total (shapes : list nat) : nat := (2 * fold_right Nat.add 0 shapes)%nat.
Lemma total_cons s r : total (s :: r) = (s + (s + total r))%nat. Proof. unfold total. cbn [fold_right]. lia. Qed.
Lemma hol_ext z shapes f g : (forall k, (k < total shapes)%nat -> f k = g k) -> hol z shapes f -> hol z shapes g.
Proof.
  revert f g. induction shapes as [|s r IH]; intros f g H; cbn [hol]; [auto|]. rewrite total_cons in H. intros [H1 H2]. split.
  - intros j Hj. rewrite <- !H by lia. now apply H1.
  - apply (IH (fun k => f (2 * s + k)%nat)); [|exact H2]. intros k Hk. apply H. lia.
Qed.
Lemma hol_conj z shapes f : hol z shapes f -> hol (Cconj z) shapes (fun k => Cconj (f k)).
Proof.
  revert f. induction shapes as [|s r IH]; intros f; cbn [hol]; [auto|]. intros [H1 H2]. split; [|exact (IH _ H2)].
  intros j Hj. rewrite H1 by exact Hj. apply Cconj_mul.
Qed.
Lemma hol_scal z shapes c f : hol z shapes f -> hol z shapes (fun k => (c * f k)%C).
Proof.
  revert f. induction shapes as [|s r IH]; intros f; cbn [hol]; [auto|]. intros [H1 H2]. split; [|exact (IH _ H2)].
  intros j Hj. rewrite H1 by exact Hj. ring.
Qed.
Lemma hol_sum z shapes N (F : nat -> nat -> C) : (forall i, (i < N)%nat -> hol z shapes (F i)) -> hol z shapes (fun k => csumn N (fun i => F i k)).
Proof.
  revert F. induction shapes as [|s r IH]; intros F; cbn [hol]; [auto|]. intros H. split.
  - intros j Hj. rewrite <- csumn_scal. apply csumn_ext. intros i Hi. now apply (H i Hi).
  - apply (IH (fun i k => F i (2 * s + k)%nat)). intros i Hi. exact (proj2 (H i Hi)).
Qed.
Lemma hol_sub z shapes f g : hol z shapes f -> hol z shapes g -> hol z shapes (fun k => (f k - g k)%C).
Proof.
  revert f g. induction shapes as [|s r IH]; intros f g; cbn [hol]; [auto|]. intros [H1 H2] [H3 H4]. split; [|exact (IH _ _ H2 H4)].
  intros j Hj. rewrite H1, H3 by exact Hj. ring.
Qed.
(** two such functions with factors i are orthogonal *)
Lemma hol_cancel shapes f g : hol Ci shapes f -> hol Ci shapes g -> csumn (total shapes) (fun k => (f k * g k)%C) = C0.
Proof.
  revert f g. induction shapes as [|s r IH]; intros f g; cbn [hol]; [reflexivity|]. intros [H1 H2] [H3 H4]. rewrite total_cons, csumn_plus, csumn_plus.
  assert (A : csumn s (fun k => (f (s + k)%nat * g (s + k)%nat)%C) = (- csumn s (fun k => (f k * g k)%C))%C).
  { replace (- csumn s (fun k => (f k * g k)%C))%C with ((- C1) * csumn s (fun k => (f k * g k)%C))%C by ring. rewrite <- csumn_scal. apply csumn_ext. intros k Hk. rewrite H1, H3 by exact Hk.
    apply C_eq; destruct (f k), (g k); cbn; ring. }
  rewrite A. rewrite (csumn_ext (total r) _ (fun k => (f (2 * s + k)%nat * g (2 * s + k)%nat)%C)) by (intros k _; replace (s + (s + k))%nat with (2 * s + k)%nat by lia; reflexivity).
  rewrite (IH (fun k => f (2 * s + k)%nat) (fun k => g (2 * s + k)%nat) H2 H4). ring.
Qed.
Lemma hol_gradient shapes gr gi : map (@length C) gr = shapes -> hol Ci shapes (fun k => nth k (gradients false true gr gi) C0).
Proof.
  intros <-. unfold gradients, flat_gradient_holo. induction gr as [|x t IH]; cbn [map hol]; [auto|].
  assert (A : forall y k, nth (2 * length x + k) (two_blocks (fun z => z) (Cmul Ci) (x :: t)) y = nth k (two_blocks (fun z => z) (Cmul Ci) t) y).
  { intros y k. unfold two_blocks. cbn [map concat]. rewrite app_nth2 by (rewrite app_length, !map_length; lia). f_equal. rewrite app_length, !map_length. lia. }
  split; [|apply (hol_ext Ci _ (fun k => nth k (two_blocks (fun z => z) (Cmul Ci) t) C0)); [intros k _; now rewrite A|exact IH]].
  intros j Hj. unfold two_blocks. cbn [map concat]. rewrite map_id, <- app_assoc. rewrite app_nth2 by lia. replace (length x + j - length x)%nat with j by lia.
  rewrite app_nth1 by (rewrite map_length; exact Hj). rewrite (app_nth1 x) by exact Hj. now rewrite (nth_map' (Cmul Ci) x j C0 C0).
Qed.

(** ** unflattening complex vectors *)
Fixpoint unflc (real : bool) (shapes : list nat) (P : list C) : result tree :=
  match shapes with
  | [] => Ok []
  | s :: r =>
      if real then
        do leaf <- reshape s (firstn s P); do rest <- unflc real r (skipn s P); Ok (leaf :: rest)
      else
        do x <- broadcast_add (firstn s P) (map (Cmul Ci) (firstn s (skipn s P)));
        do leaf <- reshape s x; do rest <- unflc real r (skipn (2 * s) P); Ok (leaf :: rest)
  end.
Lemma unflatten_unflc real shapes P start : param_unflatten_cpx real shapes P start = unflc real shapes (skipn start P).
Proof.
  revert start. induction shapes as [|s r IH]; intros start; [reflexivity|]. cbn [param_unflatten_cpx unflc]. rewrite !IH, !skipn_add, slice_skipn.
  replace (start + 2 * s)%nat with ((start + s) + s)%nat at 1 by lia. rewrite slice_skipn. reflexivity.
Qed.
(** real vectors are unflattened as before *)
Lemma unflc_real real shapes P : unflc real shapes (map RtoC P) = unfl real shapes P.
Proof.
  revert P. induction shapes as [|s r IH]; intros P; [reflexivity|]. cbn [unflc unfl].
  rewrite !firstn_map, !skipn_map, !firstn_map, !map_map, !IH. reflexivity.
Qed.
Lemma set_cpx_real q P : set_parameters_cpx q (map RtoC P) = set_parameters q (PVec P).
Proof. unfold set_parameters_cpx, set_parameters. rewrite unflatten_unflc, unflatten_unfl. cbn [skipn]. now rewrite unflc_real. Qed.

Lemma map_seq_shift {A} (f : nat -> A) a m : map f (seq a m) = map (fun k => f (a + k)%nat) (seq 0 m).
Proof. revert f a. induction m as [|m IH]; intros f a; [reflexivity|]. cbn [seq map]. rewrite Nat.add_0_r. f_equal. rewrite (IH f (S a)), (IH (fun k => f (a + k)%nat) 1%nat). apply map_ext. intros k. f_equal. lia. Qed.
Lemma seq_split {A} (f : nat -> A) a b : map f (seq 0 (a + b)) = map f (seq 0 a) ++ map (fun k => f (a + k)%nat) (seq 0 b).
Proof. rewrite seq_app, map_app. cbn [Nat.add]. now rewrite (map_seq_shift f a b). Qed.
Lemma map2_same {A B D E} (f : B -> D -> E) (g : A -> B) (h : A -> D) l : map2 f (map g l) (map h l) = map (fun x => f (g x) (h x)) l.
Proof. unfold map2. induction l as [|x l IH]; [reflexivity|]. cbn [map combine fst snd]. now rewrite IH. Qed.

(** a complex network: the real numbers of the new parameters *)
Lemma unflc_pairs shapes (y : nat -> R) (u : nat -> C) dt : hol (Cconj Ci) shapes u ->
  exists t, unflc false shapes (map (fun k => (RtoC (y k) + RtoC dt * u k)%C) (seq 0 (total shapes))) = Ok t
    /\ sizes t = shapes /\ flatten false t = map (fun k => y k + dt * (2 * Re (u k))) (seq 0 (total shapes)).
Proof.
  revert y u. induction shapes as [|s r IH]; intros y u; cbn [hol].
  - intros _. exists []. repeat split.
  - intros [H1 H2]. destruct (IH (fun k => y (2 * s + k)%nat) (fun k => u (2 * s + k)%nat) H2) as (t & E & Et & Ef).
    set (F := fun k => (RtoC (y k) + RtoC dt * u k)%C). rewrite total_cons. cbn [unflc].
    rewrite (seq_split F s (s + total r)). rewrite firstn_exact by (now rewrite map_length, seq_length). rewrite skipn_exact by (now rewrite map_length, seq_length).
    rewrite (seq_split (fun k => F (s + k)%nat) s (total r)). rewrite firstn_exact by (now rewrite map_length, seq_length).
    rewrite broadcast_eq by (now rewrite !map_length). cbn [bind]. rewrite map_map, map2_same.
    rewrite reshape_eq by (now rewrite map_length, seq_length). cbn [bind].
    rewrite app_assoc. rewrite skipn_exact by (rewrite app_length, !map_length, !seq_length; lia).
    rewrite (map_ext (fun k => F (s + (s + k))%nat) (fun k => F (2 * s + k)%nat)) by (intros k; f_equal; lia).
    change (fun k => F (2 * s + k)%nat) with (fun k => (RtoC (y (2 * s + k)%nat) + RtoC dt * u (2 * s + k)%nat)%C). rewrite E. cbn [bind].
    eexists. split; [reflexivity|]. split; [cbn [sizes map]; rewrite map_length, seq_length; unfold sizes in Et; now rewrite Et|].
    unfold flatten in *. cbn [map concat]. rewrite Ef. rewrite (seq_split (fun k => y k + dt * (2 * Re (u k))) s (s + total r)).
    rewrite (seq_split (fun k => y (s + k)%nat + dt * (2 * Re (u (s + k)%nat))) s (total r)). rewrite !map_map, <- app_assoc. f_equal; [|f_equal].
    + apply map_ext_in. intros k Hk. apply in_seq in Hk. unfold F. rewrite (H1 k) by lia. destruct (u k). cbn. ring.
    + apply map_ext_in. intros k Hk. apply in_seq in Hk. unfold F. rewrite (H1 k) by lia. destruct (u k). cbn. ring.
    + apply map_ext. intros k. replace (s + (s + k))%nat with (2 * s + k)%nat by lia. reflexivity.
Qed.

(** ** MinSR for one pseudo-inverse *)
Section MinSR.
  Variables (n : nat) (pinv : nat -> mat -> mat) (w : layout R) (g : layout (nat -> C)) (e : layout (unit -> C)).
  Hypothesis Hg : shape_eq g w.
  Hypothesis He : shape_eq e w.
  Hypothesis Hw : weights_ok (flat w).
  Let N := length (gathered (init g w)).
  Hypothesis HP : pseudo_inverse N (tangent_kernel n (init g w)) (pinv N (tangent_kernel n (init g w))).
  Let u := minsr_solve n pinv (init e w) (init g w).
  Let rel (x : nat -> C) : Prop := forall k, (k < n)%nat -> csumn n (fun l => (covar (init g w) (init g w) (k, l) * x l)%C) = (- covar (init g w) (init e w) (k, tt))%C.
  Let O i k := nth i (gathered (init g w)) (fun _ => C0) k.
  Let ea i := nth i (gathered (init e w)) (fun _ => C0) tt.
  Lemma rel_gathered x : rel x <-> forall k, (k < n)%nat -> csumn n (fun l => (csumn N (fun i => (Cconj (O i k) * O i l)%C) * x l)%C) = (- csumn N (fun i => (Cconj (O i k) * ea i)%C))%C.
  Proof.
    unfold rel. split; intros H k Hk; specialize (H k Hk).
    - rewrite covar_gathered in H by assumption. fold N in H. etransitivity; [|exact H]. apply csumn_ext. intros l _. f_equal. rewrite covar_gathered by assumption. reflexivity.
    - rewrite covar_gathered by assumption. fold N. etransitivity; [|exact H]. apply csumn_ext. intros l _. f_equal. rewrite covar_gathered by assumption. reflexivity.
  Qed.
  Lemma minsr_rel : forall k, (k < n)%nat -> csumn n (fun l => (covar (init g w) (init g w) (k, l) * u l)%C) = (- covar (init g w) (init e w) (k, tt))%C.
  Proof. apply rel_gathered. exact (minsr_normal N n O ea _ HP). Qed.
  Lemma minsr_shortest x : rel x -> len n u <= len n x.
  Proof. intros H. exact (minsr_minimal N n O ea _ HP x (proj1 (rel_gathered x) H)). Qed.

  (** pairs of parameters *)
  Lemma gathered_hol shapes z : (forall x, In x (flat g) -> hol z shapes x) -> forall i, hol z shapes (O i).
  Proof.
    intros H i. assert (HM : hol z shapes (so_mean (init g w))).
    { apply (hol_ext z shapes (fun k => csumn (length (wpairs w g)) (fun j => (RtoC (fst (nth j (wpairs w g) (0, fun _ => C0))) * snd (nth j (wpairs w g) (0, fun _ => C0)) k)%C))).
      - intros k _. rewrite init_mean by assumption. unfold expect. generalize (wpairs w g). intros L. induction L as [|a L IH]; [reflexivity|]. cbn [length]. change (S (length L)) with (1 + length L)%nat.
        rewrite csumn_plus. cbn [map]. rewrite csum_cons, <- IH. unfold csumn at 1. cbn [seq map nth]. rewrite csum_cons, csum_nil, Cscal_RtoC. f_equal. ring.
      - apply hol_sum. intros j Hj. apply hol_scal. apply H. pose proof (nth_In (wpairs w g) (0, fun _ => C0) Hj) as Q. destruct (nth j (wpairs w g) _) as [p x]. unfold wpairs in Q. apply in_combine_r in Q. exact Q. }
    assert (Hz : hol z shapes (fun _ => C0)) by (clear; induction shapes as [|s r IH]; cbn [hol]; [auto|split; [intros; ring|exact IH]]).
    unfold O. destruct (lt_dec i N) as [Hi|Hi]; [|rewrite (nth_overflow (gathered (init g w))) by (fold N; lia); exact Hz].
    pose proof (nth_In (gathered (init g w)) (fun _ => C0) Hi) as Q. unfold gathered in Q at 2. change (concat (concat (so_data (init g w)))) with (flat (so_data (init g w))) in Q.
    rewrite init_data_flat in Q by assumption. apply in_map_iff in Q. destruct Q as ([p x] & <- & Q). cbn [fst snd]. apply hol_scal. apply hol_sub; [|exact HM].
    apply H. unfold wpairs in Q. apply in_combine_r in Q. exact Q.
  Qed.
  Lemma update_hol shapes z : (forall x, In x (flat g) -> hol z shapes x) -> hol (Cconj z) shapes u.
  Proof.
    intros H. pose proof (gathered_hol shapes z H) as HO. unfold u, minsr_solve.
    apply (hol_ext _ _ (fun k => ((- C1) * csumn N (fun i => csumn N (fun j => ((pinv N (tangent_kernel n (init g w)) j i * ea i) * Cconj (O j k))%C)))%C)).
    - intros k _. transitivity (- csumn N (fun i => csumn N (fun j => (pinv N (tangent_kernel n (init g w)) j i * ea i * Cconj (O j k))%C)))%C; [ring|]. f_equal. apply csumn_ext. intros i _.
      rewrite <- csumn_scal_r. apply csumn_ext. intros j _. fold N. unfold ea, O. ring.
    - apply hol_scal. apply hol_sum. intros i _. apply hol_sum. intros j _. apply hol_scal. apply hol_conj. apply HO.
  Qed.
  (** twice the real part solves the same equation *)
  Lemma double_rel shapes : n = total shapes -> (forall x, In x (flat g) -> hol Ci shapes x) ->
    forall k, (k < n)%nat -> csumn n (fun l => (covar (init g w) (init g w) (k, l) * RtoC (2 * Re (u l)))%C) = (- covar (init g w) (init e w) (k, tt))%C.
  Proof.
    intros En H k Hk. rewrite <- minsr_rel by exact Hk.
    rewrite (csumn_ext n _ (fun l => (covar (init g w) (init g w) (k, l) * u l + covar (init g w) (init g w) (k, l) * Cconj (u l))%C)) by (intros l _; destruct (u l), (covar (init g w) (init g w) (k, l)); apply C_eq; cbn; ring).
    rewrite csumn_add. assert (Z : csumn n (fun l => (covar (init g w) (init g w) (k, l) * Cconj (u l))%C) = C0).
    { rewrite En. apply hol_cancel.
      - apply (hol_ext Ci shapes (fun l => csumn N (fun i => (Cconj (O i k) * O i l)%C))); [intros l _; now rewrite covar_gathered by assumption|].
        apply hol_sum. intros i _. apply hol_scal. now apply gathered_hol.
      - pose proof (hol_conj _ _ _ (update_hol shapes Ci H)) as Q. rewrite Cconj_conj in Q. exact Q. }
    rewrite Z. ring.
  Qed.
  (** real data: the update is real *)
  Lemma real_update : (forall k l, Im (covar (init g w) (init g w) (k, l)) = 0) -> (forall k, Im (covar (init g w) (init e w) (k, tt)) = 0) ->
    forall k, (k < n)%nat -> Im (u k) = 0.
  Proof.
    intros H1 H2. assert (RX : rel (fun l => RtoC (Re (u l)))).
    { intros k Hk. pose proof (minsr_rel k Hk) as Q. apply (f_equal Re) in Q. assert (ER : forall z, Im z = 0 -> RtoC (Re z) = z) by (intros [a b] Hb; cbn in *; subst; reflexivity).
      transitivity (RtoC (Re (csumn n (fun l => (covar (init g w) (init g w) (k, l) * u l)%C)))).
      - rewrite Re_csumn, <- csumn_RtoC. apply csumn_ext. intros l _. specialize (H1 k l). destruct (covar (init g w) (init g w) (k, l)) as [a b], (u l) as [x y]. cbn in H1. subst b. apply C_eq; cbn; ring.
      - rewrite Q. apply ER. specialize (H2 k). destruct (covar (init g w) (init e w) (k, tt)) as [a b]. cbn in *. lra. }
    pose proof (minsr_shortest _ RX) as L. unfold len in L. apply sqrt_le_0 in L; [|apply rsumn_nonneg; intros; apply Cnorm2_ge|apply rsumn_nonneg; intros; apply Cnorm2_ge].
    assert (D : rsumn n (fun k => Cnorm2 (u k)) = rsumn n (fun k => Cnorm2 (RtoC (Re (u k)))) + rsumn n (fun k => Im (u k) * Im (u k))).
    { unfold rsumn. rewrite <- rsum_map_add. apply rsum_ext. intros k _. destruct (u k). unfold Cnorm2. cbn. ring. }
    intros k Hk. assert (Z : rsumn n (fun k => Im (u k) * Im (u k)) = 0).
    { apply Rle_antisym; [lra|]. apply rsumn_nonneg. intros. apply Rle_0_sqr. }
    apply Rsqr_0_uniq. exact (rsumn_eq0 n _ (fun k _ => Rle_0_sqr (Im (u k))) Z k Hk).
  Qed.
End MinSR.

(** ** descent *)
Lemma cov_zero {A} (xs : list (R * A)) f h : rsum (map fst xs) = 1 -> (forall p, In p (map fst xs) -> 0 <= p) -> variance xs h = 0 -> cov xs f h = C0.
Proof.
  intros H1 H2 HV. rewrite <- cov_centred by exact H1. unfold expect at 1. assert (Q : forall px, In px xs -> fst px = 0 \/ (h (snd px) - expect xs h)%C = C0).
  { intros px Hpx. unfold variance in HV. assert (Z : fst px * Cnorm2 (h (snd px) - expect xs h)%C = 0).
    { refine (rsum_nonneg_eq0 (fun px => fst px * Cnorm2 (h (snd px) - expect xs h)%C) xs _ HV px Hpx).
      intros q Hq. apply Rmult_le_pos; [apply H2; now apply in_map|apply Cnorm2_ge]. }
    apply Rmult_integral in Z. destruct Z; [now left|right; now apply Cnorm2_eq0]. }
  revert Q. generalize (expect xs h), (expect xs f). intros a b Q. assert (G : forall ys, (forall px, In px ys -> In px xs) -> csum (map (fun px => Cscal (fst px) (Cconj (f (snd px) - b) * (h (snd px) - a))%C) ys) = C0).
  { induction ys as [|y ys IH]; intros Hy; [reflexivity|]. cbn [map]. rewrite csum_cons, IH by (intros; apply Hy; now right). rewrite Cscal_RtoC. destruct (Q y) as [->| ->]; [apply Hy; now left|rewrite RtoC_0; ring|ring]. }
  apply G. auto.
Qed.
(** velocities that solve the normal equations *)
Lemma solution_descends {A} n (xs : list (R * A)) (f : nat -> A -> C) (h : A -> C) (v : nat -> R) :
  rsum (map fst xs) = 1 -> (forall p, In p (map fst xs) -> 0 <= p) ->
  (forall k, (k < n)%nat -> csumn n (fun l => (cov xs (f k) (f l) * RtoC (v l))%C) = (- cov xs (f k) h)%C) ->
  rsumn n (fun k => 2 * Re (cov xs (f k) h) * v k) <= 0
  /\ (rsumn n (fun k => 2 * Re (cov xs (f k) h) * v k) = 0 -> forall k, (k < n)%nat -> cov xs (f k) h = C0).
Proof.
  intros H1 H2 HS. set (m := fun a => csum (map (fun k => (RtoC (v k) * f k a)%C) (seq 0 n))).
  assert (EV : rsumn n (fun k => 2 * Re (cov xs (f k) h) * v k) = - 2 * variance xs m).
  { assert (P : csumn n (fun i => csumn n (fun j => (Cconj (RtoC (v i)) * cov xs (f i) (f j) * RtoC (v j))%C)) = RtoC (variance xs m)) by exact (cov_psd xs (fun k => RtoC (v k)) f (seq 0 n) H1).
    rewrite (csumn_ext n _ (fun i => (RtoC (v i) * - cov xs (f i) h)%C)) in P.
    - apply (f_equal Re) in P. rewrite Re_csumn in P. cbn [Re RtoC fst] in P. rewrite <- P, <- rsumn_scal. apply rsumn_ext. intros k _.
      destruct (cov xs (f k) h). cbn. ring.
    - intros i Hi. rewrite <- HS by exact Hi. rewrite <- csumn_scal. apply csumn_ext. intros j _. rewrite Cconj_RtoC. ring. }
  pose proof (variance_nonneg xs m H2) as V. rewrite EV. split; [lra|]. intros Z k Hk. assert (V0 : variance xs m = 0) by lra.
  pose proof (cov_zero xs (f k) m H1 H2 V0) as Q. unfold m in Q. rewrite cov_csum_r in Q. change (csum (map _ (seq 0 n))) with (csumn n (fun l => (RtoC (v l) * cov xs (f k) (f l))%C)) in Q.
  rewrite (csumn_ext n _ (fun l => (cov xs (f k) (f l) * RtoC (v l))%C)) in Q by (intros; ring). rewrite HS in Q by exact Hk.
  transitivity (- - cov xs (f k) h)%C; [ring|rewrite Q; ring].
Qed.
