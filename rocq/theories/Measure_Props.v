(** Properties of [measure] and [measure_povm]: C62. *)
From Coq Require Import String List Arith Reals Lra Lia.
From Verif Require Import Base Cplx Mpi_Model Mpi_Spec Mpi_Proofs Measure_Model Measure_Spec Measure_Proofs Measure2_Proofs.
Import ListNotations.
Local Open Scope R_scope.

(** C62 (part). With one device per process, every process obtains for every name the lists of means,
    variances and standard errors of the operators it asks for, in the order given.  [D] are the local
    estimators.  Missing: several devices per process (variance and error refuted below). *)
Theorem C62_measure_partial :
  forall get_O_loc p numSamples (D : nat * list value -> list (list (list C))) rank observables asked,
  (rank < length p)%nat ->
  Forall2 (fun nv nc => fst nv = fst nc /\ asks (snd nv) (snd nc)) observables asked ->
  Forall (fun nc => Forall (fun c => get_O_loc (fst c) (snd c) = Ok (D c) /\ same_shape (D c) p) (snd nc)) asked ->
  Forall (fun w => length w = 1%nat) p -> (forall k, numSamples = Some k -> (0 < k)%nat) ->
  measure get_O_loc p numSamples rank observables
  = Ok (map (fun nc : string * list (nat * list value) =>
               (fst nc, (map (fun c => rmean (pairs (D c) p)) (snd nc),
                         map (fun c => wvar (pairs (D c) p)) (snd nc),
                         map (fun c => standard_error (wvar (pairs (D c) p)) numSamples) (snd nc)))) asked).
Proof. exact measure_one_device. Qed.
Print Assumptions C62_measure_partial.

(** C62 (part). With any number of devices the means are right and nothing is raised. *)
Theorem C62_means_partial :
  forall get_O_loc p numSamples (D : nat * list value -> list (list (list C))) rank observables asked,
  (rank < length p)%nat ->
  Forall2 (fun nv nc => fst nv = fst nc /\ asks (snd nv) (snd nc)) observables asked ->
  Forall (fun nc => Forall (fun c => get_O_loc (fst c) (snd c) = Ok (D c) /\ same_shape (D c) p) (snd nc)) asked ->
  exists res, measure get_O_loc p numSamples rank observables = Ok res
    /\ map (fun r : string * (list R * list R * list R) => (fst r, fst (fst (snd r)))) res
       = map (fun nc : string * list (nat * list value) => (fst nc, map (fun c => rmean (pairs (D c) p)) (snd nc))) asked.
Proof.
  intros get_O_loc p numSamples D rank observables asked Hr H Hg. eexists.
  split; [exact (measure_ok get_O_loc p numSamples D rank _ _ Hr H Hg)|]. rewrite map_map. reflexivity.
Qed.
Print Assumptions C62_means_partial.

(** Two processes with one device each, two samples with weight 1/4 each; operator 0 has the values
    1, 3, 5+i, 7 - i, operator 1 takes an argument. *)
Definition c62_p : list (list (list R)) := [[[1/4; 1/4]]; [[1/4; 1/4]]].
Definition c62_D (c : nat * list value) : list (list (list C)) :=
  match c with
  | (O, _) => [[[(1, 0); (3, 0)]]; [[(5, 1); (7, -1)]]]
  | _ => [[[(2, 0); (2, 0)]]; [[(2, 0); (2, 0)]]]
  end.
Definition c62_O (o : nat) (args : list value) : result (list (list (list C))) :=
  match o, args with O, [] => Ok (c62_D (0%nat, [])) | 1%nat, [VArg _] => Ok (c62_D (1%nat, args)) | _, _ => Err TypeError end.
Definition c62_obs : list (string * value) := [("a", VSeq [VSeq [VOp 1; VArg 5]; VOp 0]); ("b", VOp 0)]%string.

Example C62_case :
  (1 < length c62_p)%nat
  /\ (let asked := [("a", [(1%nat, [VArg 5]); (0%nat, [])]); ("b", [(0%nat, [])])]%string in
      Forall2 (fun nv nc => fst nv = fst nc /\ asks (snd nv) (snd nc)) c62_obs asked
      /\ Forall (fun nc => Forall (fun c => c62_O (fst c) (snd c) = Ok (c62_D c) /\ same_shape (c62_D c) c62_p) (snd nc)) asked)
  /\ Forall (fun w => length w = 1%nat) c62_p
  /\ rmean (pairs (c62_D (0%nat, [])) c62_p) = 4 /\ wvar (pairs (c62_D (0%nat, [])) c62_p) = 11/2.
Proof.
  split; [cbn; lia|]. split; [cbn zeta; split|split; [repeat constructor|]].
  - repeat constructor.
  - repeat constructor; discriminate.
  - unfold rmean, wvar, wmean. cbn. Cunf. cbn. split; lra.
Qed.

(** C62 (finding). With two devices the variance and the error are those of the first device only. *)
Theorem C62_devices_refuted :
  exists get_O_loc p (D : list (list (list C))) res,
    get_O_loc 0%nat [] = Ok D /\ same_shape D p /\ rsum (concat (concat p)) = 1
    /\ measure get_O_loc p (Some 2%nat) 0 [("a"%string, VOp 0)] = Ok res
    /\ forall mean var err, res = [("a"%string, ([mean], [var], [err]))] ->
         var <> wvar (pairs D p) /\ err <> standard_error (wvar (pairs D p)) (Some 2%nat).
Proof.
  set (D := [[[RtoC 0]; [RtoC 2]]]). set (p := [[[1/2]; [1/2]]]).
  exists (fun _ _ => Ok D), p, D.
  assert (same_shape D p) as Hs by (repeat constructor; discriminate).
  eexists. split; [reflexivity|]. split; [exact Hs|]. split; [cbn; lra|].
  split; [apply (measure_ok (fun _ _ => Ok D) p (Some 2%nat) (fun _ => D) 0 _ [("a"%string, [(0%nat, [])])])|].
  - cbn. lia.
  - repeat constructor.
  - repeat constructor; discriminate.
  - assert (first_dev_var D p = 1/2) as E1 by (unfold first_dev_var, wmean, D, p; cbn; Cunf; cbn; lra).
    assert (wvar (pairs D p) = 1) as E2 by (unfold wvar, wmean, D, p; cbn; Cunf; cbn; lra).
    intros mean var err E. unfold entry in E. cbn [map fst snd] in E. 
    assert (var = first_dev_var D p) as Ev by congruence.
    assert (err = mc_error (RtoC (first_dev_var D p)) (Some 2%nat)) as Ee by congruence.
    rewrite E1 in Ev, Ee. rewrite E2, Ee, Ev. split; [lra|].
    rewrite error_standard by (intros k K; injection K as <-; lia). unfold standard_error.
    intros F. apply (f_equal (fun x => x * x)) in F. rewrite !sqrt_sqrt in F by (cbn; lra). cbn in F. lra.
Qed.
Print Assumptions C62_devices_refuted.

(** C62 (finding). A tuple (operator, argument) that is not wrapped in a list is taken for a list of two
    operators. *)
Theorem C62_bare_tuple_refuted :
  exists get_O_loc p, (exists d, get_O_loc 1%nat [VArg 5] = Ok d /\ same_shape d p)
    /\ measure get_O_loc p (Some 4%nat) 0 [("a"%string, VSeq [VOp 1; VArg 5])] = Err TypeError.
Proof.
  exists c62_O, c62_p. split; [|reflexivity].
  eexists. split; [reflexivity|]. repeat constructor; discriminate.
Qed.
Print Assumptions C62_bare_tuple_refuted.

(** C62 (part). [measure_povm], one device per process: means and variances of the observables averaged over
    the sites; the correlators at distance d are connected ones: the mean of the product minus the square of
    the mean.  [stride] is 1 in one dimension; in two dimensions the distance is measured along the first
    axis, the sites being numbered row by row.  The number reported as error is the variance divided by
    the square root of the number of samples, for correlators with the variance of the observable itself
    (refuted below). *)
Theorem C62_povm_partial :
  forall (oneD : bool) L states p numSamples rank observables,
  (rank < length p)%nat -> same_shape states p -> Forall (fun d => length d = 1%nat) states ->
  Forall (fun s => s <> []) (concat (concat states)) ->
  let stride := if oneD then 1%nat else L in
  let over_n x := match numSamples with Some n => x / sqrt (INR n) | None => 0 end in
  measure_povm oneD L states p numSamples rank observables
  = Ok (flat_map (fun no : string * (nat -> R) =>
      let xs := weighted (site_mean (snd no)) states p in
      (fst no, (mean_of xs, var_of xs, over_n (var_of xs)))
      :: map (fun d => let ys := weighted (site_corr (d * stride) (snd no)) states p in
                       (corr_name (fst no) d, (mean_of ys - mean_of xs ^ 2, var_of ys, over_n (var_of xs)))) (seq 0 L)) observables).
Proof.
  intros oneD L states p numSamples rank observables Hr Hs H1 Hn.
  exact (measure_povm_ok oneD L states p numSamples Hs H1 Hn rank observables Hr).
Qed.
Print Assumptions C62_povm_partial.

(** two sites, outcomes with the values 3, -3; samples (0,1) and (0,0) with weight 1/2 *)
Definition c62_val (a : nat) : R := match a with O => 3 | _ => -3 end.
Definition c62_states : list (list (list (list nat))) := [[[[0; 1]; [0; 0]]]]%nat.
Definition c62_w : list (list (list R)) := [[[1/2; 1/2]]].
Lemma c62_povm_hyps : (0 < length c62_w)%nat /\ same_shape c62_states c62_w /\ Forall (fun d => length d = 1%nat) c62_states
  /\ Forall (fun s => s <> []) (concat (concat c62_states)).
Proof. repeat split; repeat constructor; discriminate. Qed.
Lemma c62_povm_value : exists res, measure_povm true 2 c62_states c62_w (Some 4%nat) 0 [("Z"%string, c62_val)] = Ok res
  /\ res = [("Z", (3/2, 9/4, 9/4 / sqrt 4)); ("Z_corr_L0", (27/4, 0, 9/4 / sqrt 4)); ("Z_corr_L1", (-9/4, 81, 9/4 / sqrt 4))]%string.
Proof.
  destruct c62_povm_hyps as (Hr & Hs & H1 & Hn).
  eexists. split; [exact (C62_povm_partial true 2 c62_states c62_w (Some 4%nat) 0 _ Hr Hs H1 Hn)|].
  cbn zeta. cbn [flat_map fst snd seq map app corr_name].
  assert (INR 4 = 4) as -> by (cbn; lra).
  assert (E0 : mean_of (weighted (site_mean c62_val) c62_states c62_w) = 3/2).
  { unfold mean_of, weighted, site_mean. cbn. lra. }
  assert (E1 : var_of (weighted (site_mean c62_val) c62_states c62_w) = 9/4).
  { unfold var_of. rewrite E0. unfold weighted, site_mean. cbn. lra. }
  assert (F0 : mean_of (weighted (site_corr (0 * 1) c62_val) c62_states c62_w) = 9) by (unfold mean_of, weighted, site_corr; cbn; lra).
  assert (F1 : mean_of (weighted (site_corr (1 * 1) c62_val) c62_states c62_w) = 0) by (unfold mean_of, weighted, site_corr; cbn; lra).
  unfold var_of at 3 5. rewrite E0, E1, F0, F1.
  repeat (apply f_equal2; [|]); try reflexivity; repeat apply f_equal2; try reflexivity;
    unfold weighted, site_corr; cbn; lra.
Qed.
Example C62_povm_case :
  (0 < length c62_w)%nat /\ same_shape c62_states c62_w /\ Forall (fun d => length d = 1%nat) c62_states
  /\ Forall (fun s => s <> []) (concat (concat c62_states)) /\ length (concat (concat c62_states)) = 2%nat.
Proof. destruct c62_povm_hyps as (H1 & H2 & H3 & H4). repeat split; assumption. Qed.

(** C62 (finding). The error reported by [measure_povm] is not the standard error: with four samples and
    variance 9/4 the standard error is 3/4, the reported one 9/8; the correlator at distance 1, whose
    standard error is 9/2, has the same error 9/8. *)
Theorem C62_povm_error_refuted :
  exists res mean var err cmean cvar cerr,
    measure_povm true 2 c62_states c62_w (Some 4%nat) 0 [("Z"%string, c62_val)] = Ok res
    /\ In ("Z"%string, (mean, var, err)) res /\ In ("Z_corr_L1"%string, (cmean, cvar, cerr)) res
    /\ err <> standard_error var (Some 4%nat) /\ cerr <> standard_error cvar (Some 4%nat).
Proof.
  destruct c62_povm_value as (res & H & E). exists res, (3/2), (9/4), (9/4 / sqrt 4), (-9/4), 81, (9/4 / sqrt 4).
  split; [assumption|]. subst res. split; [cbn; tauto|]. split; [cbn; tauto|].
  assert (sqrt 4 = 2) as -> by (replace 4 with (2 * 2) by lra; apply sqrt_square; lra).
  unfold standard_error. assert (INR 4 = 4) as -> by (cbn; lra).
  split; intros F; apply (f_equal (fun x => x * x)) in F; rewrite !sqrt_sqrt in F by lra; lra.
Qed.
Print Assumptions C62_povm_error_refuted.
