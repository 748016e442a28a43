(** Properties C01-C06: distribution of samples and global reductions. *)
From Coq Require Import ZArith List Reals Lra Lia Permutation.
From Verif Require Import Base Cplx Mpi_Model Mpi_Spec Mpi_Proofs.
Import ListNotations.

(** C01. All ranks report the same total; it is the sum over ranks of (samples
    per chain) x (chains); at least n, less than n + ranks x chains; every rank
    gets the smallest number covering its share.  Without devices: exact, and
    balanced up to one. *)
Theorem C01_distribute_sampling_exact :
  forall n c d k : Z, (0 <= n)%Z -> (0 < c)%Z -> (0 < d)%Z -> (0 < k)%Z ->
  exists glob : Z,
    (forall r, snd (distribute_sampling r c n (Some d) k) = glob)
    /\ over_ranks c (fun r => (fst (distribute_sampling r c n (Some d) k) * (d * k))%Z) = glob
    /\ (n <= glob < n + c * (d * k))%Z
    /\ (forall r, let share := fst (distribute_sampling r c n None 1) in
                  let m := fst (distribute_sampling r c n (Some d) k) in
                  (share <= m * (d * k))%Z /\ forall m', (share <= m' * (d * k))%Z -> (m <= m')%Z)
    /\ over_ranks c (fun r => fst (distribute_sampling r c n None 1)) = n
    /\ (forall r, snd (distribute_sampling r c n None 1) = n)
    /\ (forall r r', (Z.abs (fst (distribute_sampling r c n None 1)
                             - fst (distribute_sampling r' c n None 1)) <= 1)%Z).
Proof.
  intros n c d k Hn Hc Hd Hk. exists (snd (distribute_sampling 0 c n (Some d) k)).
  exact (conj (fun r => eq_refl)
        (conj (distribute_some_total n c d k Hn Hc Hd Hk 0%Z)
        (conj (distribute_some_bounds n c d k Hn Hc Hd Hk 0%Z)
        (conj (fun r => distribute_rank_covers n c d k r Hn Hc Hd Hk)
        (conj (distribute_none n c Hn Hc)
        (conj (fun r => eq_refl) (distribute_even n c Hn Hc))))))).
Qed.
Print Assumptions C01_distribute_sampling_exact.

(** 10 samples on 4 ranks with 2 devices and 2 chains: shares 3,3,2,2; one sample
    per chain; 16 samples in total. *)
Example C01_case :
  map (fun r => distribute_sampling (Z.of_nat r) 4 10 (Some 2%Z) 2) (seq 0 4)
  = [(1, 16); (1, 16); (1, 16); (1, 16)]%Z
  /\ map (fun r => fst (distribute_sampling (Z.of_nat r) 4 10 None 1)) (seq 0 4) = [3; 3; 2; 2]%Z.
Proof. split; reflexivity. Qed.

(** C02. Each index 0..n-1 belongs to exactly one rank, and no rank owns anything
    outside; ranges are ordered by rank. *)
Theorem C02_ranges_tile :
  forall n c : Z, (0 <= n)%Z -> (0 < c)%Z ->
  let first r := first_sample_id r c (snd (distribute_sampling r c n None 1)) in
  let count r := fst (distribute_sampling r c n None 1) in
  (forall i, (0 <= i < n)%Z -> exists! r, (0 <= r < c)%Z /\ (first r <= i < first r + count r)%Z)
  /\ (forall r, (0 <= r < c)%Z -> (0 <= first r)%Z /\ (first r + count r <= n)%Z)
  /\ (forall r, (0 <= r)%Z -> first (r + 1)%Z = (first r + count r)%Z).
Proof.
  intros n c Hn Hc. cbn.
  exact (conj (fun i Hi => tiling_unique c n i Hn Hc Hi)
        (conj (fun r Hr => tiling_range c n r Hn Hc Hr)
              (fun r Hr => first_sample_id_next r c n Hn Hc Hr))).
Qed.
Print Assumptions C02_ranges_tile.

Example C02_case : map (fun r => first_sample_id (Z.of_nat r) 4 10) (seq 0 4) = [0; 3; 6; 8]%Z.
Proof. reflexivity. Qed.

(** C03. Every rank obtains the (weighted) sum over all data; splittings with the
    same (weight, value) pairs give the same result. *)
Theorem C03_global_sum_is_total :
  forall data : list (list (list C)), Forall (fun d => d <> []) data ->
  global_sum (map Ok data) = map (fun _ => Ok (csum (concat (concat data)))) data.
Proof. exact global_sum_ok. Qed.
Print Assumptions C03_global_sum_is_total.

Theorem C03_global_mean_is_weighted_mean :
  forall data p, same_shape data p ->
  global_mean data p = map (fun _ => Ok (wmean (pairs data p))) data.
Proof. exact global_mean_ok. Qed.
Print Assumptions C03_global_mean_is_weighted_mean.

Theorem C03_layout_independent :
  forall data p data' p', same_shape data p -> same_shape data' p' ->
  Permutation (pairs data p) (pairs data' p') ->
  forall v v', In v (global_mean data p) -> In v' (global_mean data' p') -> v = v'.
Proof.
  intros data p data' p' H H' HP v v'.
  rewrite (global_mean_ok _ _ H), (global_mean_ok _ _ H'), !in_map_iff.
  intros (x & <- & _) (x' & <- & _). exact (f_equal Ok (wmean_perm _ _ HP)).
Qed.
Print Assumptions C03_layout_independent.

(** two ranks, the first with two devices, versus one rank with one device *)
Example C03_case :
  let w := (1/4)%R in
  let d1 := [[[RtoC 1; RtoC 2]; [RtoC 3]]; [[Ci]]] in
  let p1 := [[[w; w]; [w]]; [[w]]] in
  let d2 := [[[Ci; RtoC 3; RtoC 1; RtoC 2]]] in
  let p2 := [[[w; w; w; w]]] in
  same_shape d1 p1 /\ same_shape d2 p2 /\ Permutation (pairs d1 p1) (pairs d2 p2)
  /\ wmean (pairs d1 p1) = (3/2, 1/4)%R.
Proof.
  cbn. split; [|split; [|split]].
  - repeat constructor; discriminate.
  - repeat constructor; discriminate.
  - apply (Permutation_trans (l' := [((1/4)%R, Ci); ((1/4)%R, RtoC 1); ((1/4)%R, RtoC 2); ((1/4)%R, RtoC 3)])).
    + apply (Permutation_app_comm [_; _; _] [_]).
    + constructor. apply (Permutation_app_comm [_; _] [_]).
  - unfold wmean. cbn. Cunf. apply C_eq; cbn; lra.
Qed.

(** C04 (part). With one device per process the variance is right.  Missing: more
    than one device per process, where the claim is false (next theorem). *)
Theorem C04_global_variance_partial :
  forall data p, same_shape data p -> Forall (fun d => length d = 1) data ->
  global_variance data p = map (fun _ => Ok (RtoC (wvar (pairs data p)))) data.
Proof. exact global_variance_one_device. Qed.
Print Assumptions C04_global_variance_partial.

Definition C04_data : list (list (list C)) := [[[RtoC 0]; [RtoC 2]]].
Definition C04_p : list (list (list R)) := [[[(1/2)%R]; [(1/2)%R]]].

(** C04 (finding). Two devices with values 0 and 2, weights 1/2: the variance is
    1, the code returns the contribution 1/2 of the first device only. *)
Theorem C04_global_variance_refuted :
  exists data p, same_shape data p
    /\ rsum (map fst (pairs data p)) = 1%R
    /\ global_variance data p <> map (fun _ => Ok (RtoC (wvar (pairs data p)))) data.
Proof.
  exists C04_data, C04_p. split; [|split].
  - repeat constructor; discriminate.
  - cbn. lra.
  - unfold global_variance.
    rewrite (global_mean_ok C04_data C04_p) by (repeat constructor; discriminate).
    cbn. unfold collective. cbn. unfold wvar, wmean. cbn. intros E. injection E as E _.
    Cunf. cbn in E. lra.
Qed.
Print Assumptions C04_global_variance_refuted.

Example C04_case :
  let data := [[[RtoC 0; RtoC 2]]] in let p := [[[(1/2)%R; (1/2)%R]]] in
  same_shape data p /\ Forall (fun d => length d = 1) data /\ wvar (pairs data p) = 1%R.
Proof.
  cbn. split; [|split]; [repeat constructor; discriminate|repeat constructor|].
  unfold wvar, wmean. cbn. Cunf. cbn. lra.
Qed.

(** C05 (part). Every rank obtains <conj(X_i) X_j> without subtraction of the
    means and with the indices exchanged; for real data of zero mean this is the
    documented matrix.  Missing: data with non-zero mean (false, next theorem). *)
Theorem C05_global_covariance_partial :
  forall i j data p, same_shape data p ->
  global_covariance i j data p
  = map (fun _ => Ok (wcov j i (pairs data p)
                      + wmean (map (fun px => (fst px, snd px j)) (pairs data p))
                        * Cconj (wmean (map (fun px => (fst px, snd px i)) (pairs data p))))%C) data.
Proof.
  intros i j data p H. rewrite <- cov_code_vs_doc. exact (global_covariance_ok i j data p H).
Qed.
Print Assumptions C05_global_covariance_partial.

Theorem C05_global_covariance_refuted :
  exists data p, same_shape data p /\ rsum (map fst (pairs data p)) = 1%R /\
    global_covariance 0 0 data p <> map (fun _ => Ok (wcov 0 0 (pairs data p))) data.
Proof.
  exists [[[fun _ => C1]]], [[[1%R]]]. split; [|split].
  - repeat constructor; discriminate.
  - cbn. lra.
  - rewrite global_covariance_ok by (repeat constructor; discriminate).
    cbn. unfold wcov, wmean. cbn. intros E. injection E as E _. Cunf. cbn in E. lra.
Qed.
Print Assumptions C05_global_covariance_refuted.

Example C05_case :
  let data := [[[(fun k => if Nat.eqb k 0 then RtoC 1 else RtoC (-1)); (fun k => if Nat.eqb k 0 then RtoC (-1) else RtoC 1)]]] in
  let p := [[[(1/2)%R; (1/2)%R]]] in
  same_shape data p /\ wcov 0 1 (pairs data p) = RtoC (-1) /\ wcov 1 0 (pairs data p) = RtoC (-1)
  /\ global_covariance 0 1 data p = [Ok (RtoC (-1))].
Proof.
  intros data p. assert (H : same_shape data p) by (repeat constructor; discriminate).
  split; [exact H|]. rewrite (global_covariance_ok 0 1 data p H). subst data p. clear H.
  split; [|split]; [unfold wcov, wmean; cbn; Cunf; apply C_eq; cbn; lra..|].
  cbn. do 2 f_equal. Cunf. apply C_eq; cbn; lra.
Qed.

(** C06 (part). Broadcasting a float64 array reaches all ranks; gather is the
    concatenation in rank order.  Missing: other element types, for which the
    claim is false (next theorem). *)
Theorem C06_bcast_partial :
  forall (F : Type) (root : nat) (args : list (option (@array F))) d,
  nth_error args root = Some (Some d) -> a_dtype d = Float64 ->
  run_bcast root args = map (fun _ => Ok (a_data d)) args.
Proof. exact @run_bcast_ok. Qed.
Print Assumptions C06_bcast_partial.

Theorem C06_gather :
  forall (F : Type) (args : list (list (list F))),
  run_gather args = map (fun _ => Ok (concat (map (@concat F) args))) args.
Proof. exact @run_gather_ok. Qed.
Print Assumptions C06_gather.

(** C06 (finding). If the root's array is not float64 the root raises while all
    other ranks wait forever. *)
Theorem C06_bcast_refuted :
  exists (args : list (option (@array nat))) root,
    root < length args /\
    run_bcast root args = [Err TypeError; Err Blocked; Err Blocked].
Proof.
  exists [Some (mk_array (OtherDtype 0) [1; 2]); None; None], 0. split; [cbn; lia|reflexivity].
Qed.
Print Assumptions C06_bcast_refuted.

Example C06_case :
  run_bcast 1 [None; Some (mk_array Float64 [5; 7]); None] = [Ok [5; 7]; Ok [5; 7]; Ok [5; 7]]
  /\ run_gather [[[1; 2]; [3]]; [[4]; [5; 6]]] = [Ok [1; 2; 3; 4; 5; 6]; Ok [1; 2; 3; 4; 5; 6]].
Proof. split; reflexivity. Qed.
