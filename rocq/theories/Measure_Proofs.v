From Coq Require Import String List Arith Reals Lra Lia Permutation.
From Verif Require Import Base Cplx Mpi_Model Mpi_Spec Mpi_Proofs Measure_Model Measure_Spec.
Import ListNotations.
Local Open Scope R_scope.

(** ** collective operations on one process *)
Lemma at_rank_const {A B} rank (l : list A) (v : B) : (rank < length l)%nat -> at_rank rank (map (fun _ => Ok v) l) = Ok v.
Proof.
  intros H. unfold at_rank. rewrite (nth_indep _ _ (Ok v)) by (now rewrite map_length).
  revert rank H. induction l as [|x l IH]; intros [|r] H; cbn in *; try lia; [reflexivity|]. apply IH. lia.
Qed.

(** contribution of the first device of every process: what the code computes *)
Definition first_dev_var (data : list local) (p : list (list (list R))) : R :=
  rsum (map (fun dw => match fst dw, snd dw with
                       | x :: _, y :: _ => rsum (map (fun px => fst px * Cnorm2 (snd px - wmean (pairs data p))%C) (combine y x))
                       | _, _ => 0 end) (combine data p)).

Lemma global_variance_first_device data p : same_shape data p ->
  global_variance data p = map (fun _ => Ok (RtoC (first_dev_var data p))) data.
Proof.
  intros H. unfold global_variance, first_dev_var. rewrite (global_mean_ok _ _ H).
  set (m := wmean (pairs data p)).
  set (f := fun dw : local * list (list R) => match fst dw, snd dw with
                       | x :: _, y :: _ => rsum (map (fun px => fst px * Cnorm2 (snd px - m)%C) (combine y x))
                       | _, _ => 0 end).
  rewrite (collective_ok csum (fun t => RtoC (f (fst t))) (combine (combine data p) (map (fun _ => tt) data))).
  - assert (forall {X Y} (a : list X) (b : list Y) (v : result C), length a = length b ->
      map (fun _ => v) a = map (fun _ => v) b) as Hc.
    { intros X Y a. induction a as [|x a IHa]; intros [|y b] v Hab; try discriminate; [reflexivity|].
      cbn. f_equal. apply IHa. now inversion Hab. }
    erewrite Hc with (b := data).
    2:{ rewrite !combine_length, map_length. pose proof (Forall2_length _ _ _ H). lia. }
    apply map_ext. intros _. apply f_equal. rewrite <- csum_RtoC, map_map. clearbody m.
    induction H as [|d w data p [Hne H] Hr IH]; [reflexivity|].
    cbn [combine map fst]. rewrite !csum_cons. now rewrite IH.
  - clearbody m. induction H as [|d w data p [Hne H] Hr IH]; [reflexivity|].
    cbn [combine map fst]. f_equal; [|apply IH].
    destruct d as [|x d]; [contradiction|]. inversion H as [|? y ? w' Hxy Hw']; subst.
    cbn [bind].
    rewrite (pmap2_ok (sum_sq_dev m) (fun x w => RtoC (rsum (map (fun px => fst px * Cnorm2 (snd px - m)%C) (combine w x)))) (x :: d) (y :: w')
               (fun x y => length x = length y)).
    + reflexivity.
    + intros a b Hab. unfold sum_sq_dev. rewrite Hab, Nat.eqb_refl. f_equal.
      rewrite <- csum_RtoC, map_map. apply csum_ext. intros [q z] _. apply sum_sq_term.
    + assumption.
Qed.

Lemma first_dev_one data p : same_shape data p -> Forall (fun d => length d = 1%nat) data -> data <> [] ->
  first_dev_var data p = wvar (pairs data p).
Proof.
  intros H H1 Hne. pose proof (global_variance_first_device _ _ H) as E.
  rewrite (global_variance_one_device _ _ H H1) in E. destruct data as [|d data]; [contradiction|].
  cbn [map] in E. injection E as E _. now symmetry.
Qed.

Lemma Re_csum l : Re (csum l) = rsum (map Re l).
Proof. induction l as [|x l IH]; [reflexivity|]. rewrite csum_cons. cbn [map]. change (Re (x + csum l)%C) with (Re x + Re (csum l)). now rewrite IH. Qed.
Lemma Re_wmean xs : Re (wmean xs) = rmean xs.
Proof.
  unfold wmean, rmean. rewrite Re_csum, map_map. f_equal.
Qed.
Lemma error_standard v n : (forall k, n = Some k -> (0 < k)%nat) -> mc_error (RtoC v) n = standard_error v n.
Proof.
  intros H. unfold mc_error, standard_error. destruct n as [k|]; [|reflexivity]. cbn [RtoC Re fst].
  rewrite sqrt_div_alt; [reflexivity|]. apply lt_0_INR. now apply H.
Qed.

Section M.
Variable get_O_loc : nat -> list value -> result (list local).
Variable p : list (list (list R)).
Variable numSamples : option nat.
Variable D : nat * list value -> list local.

Definition good (c : nat * list value) : Prop := get_O_loc (fst c) (snd c) = Ok (D c) /\ same_shape (D c) p.

Lemma shape_length {A} (data : list (list (list A))) : same_shape data p -> length data = length p.
Proof. apply Forall2_length. Qed.

Lemma measure_op_ok rank item c : (rank < length p)%nat -> asks_item item c -> good c ->
  measure_op get_O_loc p numSamples rank item
  = Ok (wmean (pairs (D c) p), RtoC (first_dev_var (D c) p), mc_error (RtoC (first_dev_var (D c) p)) numSamples).
Proof.
  intros Hr Ha [Hg Hs]. assert (rank < length (D c))%nat as Hr' by now rewrite (shape_length _ Hs).
  destruct Ha as [o|o args]; unfold measure_op; cbn [bind fst snd] in *; rewrite Hg; cbn [bind];
    rewrite (global_mean_ok _ _ Hs), (global_variance_first_device _ _ Hs), !at_rank_const by assumption; reflexivity.
Qed.

Definition entry (var : nat * list value -> R) (calls : list (nat * list value)) : list R * list R * list R :=
  (map (fun c => rmean (pairs (D c) p)) calls, map var calls, map (fun c => mc_error (RtoC (var c)) numSamples) calls).

Lemma measure_ops_ok rank items calls : (rank < length p)%nat -> Forall2 asks_item items calls -> Forall good calls ->
  measure_ops get_O_loc p numSamples rank items = Ok (entry (fun c => first_dev_var (D c) p) calls).
Proof.
  intros Hr H. induction H as [|item c items calls Ha _ IH]; intros Hg; [reflexivity|].
  pose proof (Forall_inv Hg) as Hg1. pose proof (Forall_inv_tail Hg) as Hg2.
  cbn [measure_ops]. rewrite (measure_op_ok rank item c Hr Ha Hg1). cbn [bind]. rewrite (IH Hg2). cbn [bind].
  unfold entry. cbn [map]. rewrite Re_wmean. reflexivity.
Qed.

Lemma asks_iterable v calls : asks v calls -> Forall2 asks_item (get_iterable v) calls.
Proof. destruct 1; cbn; [repeat constructor|assumption]. Qed.

Lemma measure_ok rank observables asked : (rank < length p)%nat ->
  Forall2 (fun nv nc => fst nv = fst nc /\ asks (snd nv) (snd nc)) observables asked ->
  Forall (fun nc => Forall good (snd nc)) asked ->
  measure get_O_loc p numSamples rank observables
  = Ok (map (fun nc : string * list (nat * list value) => (fst nc, entry (fun c => first_dev_var (D c) p) (snd nc))) asked).
Proof.
  intros Hr H. induction H as [|[name ops] [name' calls] obs asked [E Ha] _ IH]; intros Hg; [reflexivity|].
  cbn [fst snd] in *. subst name'.
  pose proof (Forall_inv Hg) as Hg1. pose proof (Forall_inv_tail Hg) as Hg2. cbn [snd] in Hg1.
  cbn [measure]. rewrite (measure_ops_ok rank _ calls Hr (asks_iterable _ _ Ha) Hg1). cbn [bind].
  rewrite (IH Hg2). reflexivity.
Qed.

Lemma measure_one_device rank observables asked : (rank < length p)%nat ->
  Forall2 (fun nv nc => fst nv = fst nc /\ asks (snd nv) (snd nc)) observables asked ->
  Forall (fun nc => Forall good (snd nc)) asked ->
  Forall (fun w => length w = 1%nat) p -> (forall k, numSamples = Some k -> (0 < k)%nat) ->
  measure get_O_loc p numSamples rank observables
  = Ok (map (fun nc : string * list (nat * list value) =>
               (fst nc, (map (fun c => rmean (pairs (D c) p)) (snd nc), map (fun c => wvar (pairs (D c) p)) (snd nc),
                         map (fun c => standard_error (wvar (pairs (D c) p)) numSamples) (snd nc)))) asked).
Proof.
  intros Hr H Hg H1 Hn. rewrite (measure_ok rank _ asked Hr H Hg). apply f_equal.
  apply map_ext_in. intros [name calls] Hin. cbn [fst snd]. apply f_equal. unfold entry.
  rewrite Forall_forall in Hg. specialize (Hg _ Hin). cbn [snd] in Hg. rewrite Forall_forall in Hg.
  assert (forall c, In c calls -> first_dev_var (D c) p = wvar (pairs (D c) p)) as E.
  { intros c Hc. destruct (Hg c Hc) as [_ Hs]. apply first_dev_one; [assumption| |].
    - clear - Hs H1. induction Hs as [|d w data q [_ Hd] _ IH]; constructor.
      + rewrite (Forall2_length _ _ _ Hd). exact (Forall_inv H1).
      + apply IH. exact (Forall_inv_tail H1).
    - intros E. pose proof (shape_length _ Hs). rewrite E in *. cbn in *. lia. }
  f_equal; [f_equal|].
  - apply map_ext_in. intros c Hc. now apply E.
  - apply map_ext_in. intros c Hc. rewrite (E c Hc). now apply error_standard.
Qed.
End M.
