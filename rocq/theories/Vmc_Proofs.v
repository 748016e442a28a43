(** Lemmas for the exact evaluation. *)
From Coq Require Import ZArith List Reals Lra Lia Bool Arith Permutation.
From Verif Require Import Base Cplx Mpi_Model Mpi_Proofs Stats_Model Stats_Spec Stats_Proofs BranchFree_Model BranchFree_Spec BranchFree_Proofs BranchFree_Props OpBase_Model OpBase_Spec OpBase_Props
  Sampler_Spec Exact_Model Exact_Spec Exact_Proofs Vmc_Model Vmc_Spec.
Import ListNotations.

(** the Born distribution on a basis *)
Definition born_list (basis : list config) (phi : wavefun) : list (R * config) :=
  map (fun s => ((Cnorm2 (phi s) / norm2 basis phi)%R, s)) basis.

Lemma variance_expect {A} (xs : list (R * A)) f : RtoC (variance xs f) = expect xs (fun a => RtoC (Cnorm2 (f a - expect xs f)%C)).
Proof.
  unfold variance, expect. rewrite <- csum_RtoC, map_map. apply csum_ext. intros px _. rewrite Cscal_RtoC, RtoC_mul. reflexivity.
Qed.

Lemma Cinv_RtoC_ x : x <> 0%R -> RtoC (/ x) = Cinv (RtoC x).
Proof. intros H. unfold RtoC, Cinv, Cnorm2. cbn [fst snd]. apply C_eq; cbn [fst snd]; field; assumption. Qed.

Section Physics.
Variables (basis : list config) (phi : wavefun) (O : wavefun -> wavefun).
Hypothesis Hne : basis <> [].
Hypothesis Hphi : forall s, phi s <> C0.
Let Zn := norm2 basis phi.
Lemma norm2_pos : (0 < Zn)%R.
Proof. unfold Zn, norm2. apply rsum_map_pos; [assumption|]. intros s _. now apply Cnorm2_pos. Qed.
Lemma born_expect f : expect (born_list basis phi) f = (csum (map (fun s => (RtoC (Cnorm2 (phi s)) * f s)%C) basis) / RtoC Zn)%C.
Proof.
  unfold expect, born_list. rewrite map_map. cbn [fst snd]. unfold Cdiv. rewrite <- csum_scal_r.
  apply csum_ext. intros s _. rewrite Cscal_RtoC. fold Zn. unfold Rdiv. rewrite RtoC_mul.
  rewrite Cinv_RtoC_ by (pose proof norm2_pos; lra). ring.
Qed.
Lemma born_total : rsum (map fst (born_list basis phi)) = 1%R.
Proof.
  unfold born_list. rewrite map_map. cbn [fst]. transitivity (rsum (map (fun s => Cnorm2 (phi s)) basis) * / Zn)%R.
  - rewrite <- rsum_scal_r. apply rsum_ext. reflexivity.
  - fold (norm2 basis phi). fold Zn. pose proof norm2_pos. field. lra.
Qed.
Lemma born_weights_nonneg p : In p (map fst (born_list basis phi)) -> (0 <= p)%R.
Proof.
  unfold born_list. rewrite map_map. cbn [fst]. intros H. apply in_map_iff in H as (s & <- & _). fold Zn. pose proof norm2_pos. unfold Rdiv. apply Rmult_le_pos; [apply Cnorm2_ge|]. apply Rlt_le, Rinv_0_lt_compat. assumption.
Qed.
Lemma born_local : expect (born_list basis phi) (fun s => (O phi s / phi s)%C) = expectation basis O phi.
Proof.
  rewrite born_expect. unfold expectation. fold Zn. f_equal. unfold braket. apply csum_ext. intros s _. rewrite <- Cmul_conj. field. apply Hphi.
Qed.
Lemma born_variance : variance (born_list basis phi) (fun s => (O phi s / phi s)%C) = spread basis O phi.
Proof.
  apply RtoC_inj. rewrite variance_expect. rewrite born_local, born_expect. unfold spread. fold Zn.
  set (E := expectation basis O phi). unfold Rdiv. rewrite RtoC_mul. pose proof norm2_pos.
  rewrite Cinv_RtoC_ by lra. unfold Cdiv at 1. f_equal.
  unfold norm2. rewrite <- csum_RtoC, map_map. apply csum_ext. intros s _. rewrite <- RtoC_mul, <- Cnorm2_mul. f_equal. f_equal. field. apply Hphi.
Qed.
Lemma spread_zero : spread basis O phi = 0%R <-> eigenvector basis O phi.
Proof.
  pose proof norm2_pos as HZ. split.
  - intros H. exists (expectation basis O phi). intros s Hs. unfold spread in H. fold Zn in H.
    assert (N0 : norm2 basis (fun s => (O phi s - expectation basis O phi * phi s)%C) = 0%R).
    { apply (Rmult_eq_reg_r (/ Zn)); [rewrite Rmult_0_l; exact H|]. apply Rinv_neq_0_compat. lra. }
    unfold norm2 in N0. pose proof (rsum_nonneg_eq0 _ basis (fun x _ => Cnorm2_ge _) N0 s Hs) as Z0. cbn beta in Z0. apply Cnorm2_eq0 in Z0.
    transitivity ((O phi s - expectation basis O phi * phi s) + expectation basis O phi * phi s)%C; [ring|]. rewrite Z0. ring.
  - intros (E & HE). assert (EE : expectation basis O phi = E).
    { unfold expectation, braket. rewrite (csum_ext _ (fun s => (E * RtoC (Cnorm2 (phi s)))%C)) by (intros s Hs; rewrite HE by assumption; rewrite <- Cmul_conj; ring).
      rewrite csum_scal, <- (map_map (fun s => Cnorm2 (phi s)) RtoC), csum_RtoC. fold (norm2 basis phi). fold Zn. field. intros X. apply (f_equal Re) in X. cbn in X. lra. }
    unfold spread. rewrite EE. fold Zn. replace (norm2 basis _) with 0%R; [unfold Rdiv; ring|]. unfold norm2. symmetry. rewrite (rsum_ext _ (fun _ => 0%R)); [apply rsum_zero|].
    intros s Hs. rewrite HE by assumption. replace (E * phi s - E * phi s)%C with C0 by ring. apply Cnorm2_C0.
Qed.
End Physics.

Lemma combine_app_ {A B} (a a' : list A) (b b' : list B) : length a = length b -> combine (a ++ a') (b ++ b') = combine a b ++ combine a' b'.
Proof. revert b. induction a as [|x a IHa]; intros [|y b] E; cbn in *; try discriminate; [reflexivity|]. f_equal. apply IHa. lia. Qed.
Lemma combine_map_r {A B D} (h : B -> D) (a : list A) (b : list B) : combine a (map h b) = map (fun px => (fst px, h (snd px))) (combine a b).
Proof. revert b. induction a as [|x a IH]; intros [|y b]; cbn; try reflexivity. now rewrite IH. Qed.

Section Run.
Variables (lDim : Z) (N : nat) (commSize devices : Z) (lastNorm : R) (psi : config -> C).
Hypothesis Hl : (0 < lDim)%Z.
Hypothesis HN : (0 < N)%nat.
Hypothesis Hc : (0 < commSize)%Z.
Hypothesis Hd : (0 < devices)%Z.
Hypothesis Hfit : forall r, (0 <= r < commSize)%Z -> fits (lDim ^ Z.of_nat N) commSize devices r.
Hypothesis Hst : (commSize <= lDim ^ Z.of_nat N)%Z.
Let n := (lDim ^ Z.of_nat N)%Z.
Let basis := all_configs (Z.to_nat lDim) N.
Let phi : wavefun := fun s => Cexp (psi s).
Notation bases := (bases lDim N commSize devices).
Notation configs := (configs lDim N commSize devices).
Notation probs := (probs lDim N commSize devices lastNorm psi).

Lemma basis_ne : basis <> [].
Proof. intros E. apply (f_equal (@length config)) in E. unfold basis in E. rewrite all_configs_length in E. cbn in E. apply Nat.pow_nonzero in E; [assumption|lia]. Qed.
Lemma n_nonneg : (0 <= n)%Z. Proof. apply Z.pow_nonneg. lia. Qed.

Lemma config_wf k : (0 <= k)%Z -> wf_config (Z.to_nat lDim) N (make_basis N lDim k).
Proof.
  intros Hk. assert (E : make_basis N lDim k = scan_digits N lDim k \/ make_basis N lDim k = rev (scan_digits N lDim k)).
  { unfold make_basis. destruct (Z.eqb_spec lDim 2) as [->|]; [left; now apply ldim2_scan|now right]. }
  pose proof (scan_bound N lDim k Hl) as B. rewrite Forall_forall in B.
  split; [|split; [assumption|]].
  - destruct E as [->| ->]; rewrite ?rev_length; apply scan_length.
  - intros x Hx. apply B. destruct E as [E|E]; rewrite E in Hx; [assumption|]. now apply in_rev.
Qed.

(** configurations of one rank *)
Lemma rank_configs r : map snd (get_basis r commSize N lDim devices)
  = map (map (make_basis N lDim)) (intReps (first_sample_id r commSize n) (my_states n commSize r) devices).
Proof.
  unfold get_basis. fold n. cbn [distribute_sampling]. rewrite combine_snd; [reflexivity|].
  unfold numStatesPerDevice, intReps. rewrite app_length, repeat_length, !map_length, seq_length. cbn. lia.
Qed.
Lemma my_pos r : (0 <= r < commSize)%Z -> (1 <= my_states n commSize r)%Z.
Proof.
  intros Hr. unfold my_states. cbn. unfold samples_per_process. assert (1 <= n / commSize)%Z by (apply Z.div_le_lower_bound; fold n in Hst; lia).
  destruct (r <? n mod commSize)%Z; lia.
Qed.
Lemma first_nonneg r : (0 <= r)%Z -> (0 <= first_sample_id r commSize n)%Z.
Proof.
  intros Hr. unfold first_sample_id. pose proof (Z.div_pos n commSize n_nonneg Hc). pose proof (Z.mod_pos_bound n commSize Hc). destruct (r <? n mod commSize)%Z; nia.
Qed.
Lemma rank_shape r : (0 <= r < commSize)%Z -> let sl := map snd (get_basis r commSize N lDim devices) in
  sl <> [] /\ exists k, (1 <= k)%nat /\ Forall (fun l => length l = k) sl /\ Forall (Forall (wf_config (Z.to_nat lDim) N)) sl.
Proof.
  intros Hr sl. unfold sl. rewrite rank_configs. set (my := my_states n commSize r). assert (Hm : (1 <= my)%Z) by now apply my_pos.
  split.
  - unfold intReps. destruct (Z.to_nat devices) as [|k] eqn:E; [lia|]. cbn [seq map]. discriminate.
  - exists (Z.to_nat (per my devices)). destruct (per_spec my devices ltac:(lia) Hd) as [P1 P2].
    split; [nia|]. split.
    + apply Forall_forall. intros l H. apply in_map_iff in H as (l' & <- & H). rewrite map_length. unfold intReps in H. apply in_map_iff in H as (d & <- & _). apply zarange_length.
    + apply Forall_forall. intros l H. apply in_map_iff in H as (l' & <- & H). unfold intReps in H. apply in_map_iff in H as (d & <- & _).
      apply Forall_forall. intros s Hs. apply in_map_iff in Hs as (k & <- & Hk). apply in_zarange in Hk. fold (per my devices) in Hk. apply config_wf.
      pose proof (first_nonneg r ltac:(lia)). nia.
Qed.

Lemma bases_world : bases = world N lDim commSize devices. Proof. reflexivity. Qed.
Lemma counted_perm : Permutation (all_counted bases) basis.
Proof. rewrite bases_world. now apply enumerates_iff. Qed.

Let data := map (map (fun d : Z * list config => (fst d, map psi (snd d)))) bases.
Lemma data_counted : all_counted data = map psi (all_counted bases).
Proof.
  unfold data, all_counted. rewrite <- (concat_map (fun d : Z * list config => (fst d, map psi (snd d)))), map_map, (concat_map psi), map_map. f_equal. apply map_ext. intros d. unfold counted. cbn [fst snd]. apply firstn_map.
Qed.
Let Zn := norm2 basis phi.
Lemma weight_amp s : born_weight (/ 2) (psi s) = Cnorm2 (phi s).
Proof. unfold born_weight, phi. rewrite Cexp_norm2, <- exp_plus. f_equal. field. Qed.
Lemma data_norm : rsum (map (born_weight (/ 2)) (all_counted data)) = Zn.
Proof.
  rewrite data_counted, map_map. rewrite (rsum_ext _ (fun s => Cnorm2 (phi s))) by (intros; apply weight_amp).
  unfold Zn, norm2. apply rsum_perm, Permutation_map, counted_perm.
Qed.
Lemma data_ne : all_counted data <> [].
Proof. rewrite data_counted. intros E. apply map_eq_nil in E. pose proof counted_perm as P. rewrite E in P. apply Permutation_nil in P. now apply basis_ne in P. Qed.
Definition dev_probs (d : Z * list config) : list R := born_probs (/ 2) Zn (fst d, map psi (snd d)).
Lemma probs_form : probs = map (map dev_probs) bases.
Proof.
  unfold Vmc_Model.probs. fold data. destruct (exact_spec (/ 2) lastNorm data ltac:(lra) data_ne) as [_ E]. rewrite E, data_norm. cbn [fst].
  unfold data. rewrite map_map. apply map_ext. intros r. rewrite map_map. apply map_ext. reflexivity.
Qed.
Lemma dev_probs_form d : dev_probs d = map (fun s => (Cnorm2 (phi s) / Zn)%R) (counted d) ++ repeat 0%R (length (snd d) - Z.to_nat (fst d)).
Proof. unfold dev_probs, born_probs, counted. cbn [fst snd]. rewrite firstn_map, map_map, map_length. f_equal. apply map_ext. intros s. now rewrite weight_amp. Qed.
Lemma dev_probs_length d : length (dev_probs d) = length (snd d).
Proof. rewrite dev_probs_form, app_length, map_length, repeat_length. unfold counted. rewrite firstn_length. lia. Qed.
Lemma probs_shape : shape_eq configs probs.
Proof.
  rewrite probs_form. unfold Vmc_Model.configs, shape_eq. induction bases as [|r l IH]; cbn [map]; constructor; [|exact IH].
  clear IH. induction r as [|d r IH]; cbn [map]; constructor; [symmetry; apply dev_probs_length|exact IH].
Qed.
Lemma probs_expect (F : config -> C) : expect (wpairs probs configs) F = expect (born_list basis phi) F.
Proof.
  transitivity (csum (map (fun s => Cscal (Cnorm2 (phi s) / Zn) (F s)) (all_counted bases))).
  - unfold wpairs, flat. rewrite probs_form. unfold Vmc_Model.configs. rewrite <- !concat_map. unfold all_counted. generalize (concat bases). intros W.
    unfold expect. induction W as [|d W IH]; [reflexivity|]. cbn [map concat]. rewrite combine_app_ by apply dev_probs_length. rewrite !map_app, !csum_app. f_equal; [|exact IH].
    rewrite dev_probs_form. unfold counted. rewrite <- (firstn_skipn (Z.to_nat (fst d)) (snd d)) at 3. rewrite combine_app_ by (now rewrite map_length).
    rewrite map_app, csum_app. replace (csum (map _ (combine (repeat _ _) _))) with C0.
    + rewrite <- (map_id (firstn (Z.to_nat (fst d)) (snd d))) at 2. rewrite combine_map, map_map. cbn [fst snd]. ring.
    + symmetry. rewrite (csum_ext _ (fun _ => C0)); [apply csum_zero|]. intros [p s] H. apply in_combine_l in H. apply repeat_spec in H. cbn [fst] in *. subst p. unfold Cscal. apply C_eq; cbn; ring.
  - unfold expect, born_list. rewrite map_map. cbn [fst snd]. apply csum_perm, Permutation_map, counted_perm.
Qed.
Lemma phi_ne s : phi s <> C0. Proof. apply Cexp_neq0. Qed.
Lemma probs_ok : weights_ok (flat probs).
Proof.
  split.
  - intros p H. unfold flat in H. rewrite probs_form, <- concat_map in H. apply in_concat in H as (l & Hl' & Hp). apply in_map_iff in Hl' as (d & <- & _).
    rewrite dev_probs_form in Hp. apply in_app_or in Hp as [Hp|Hp]; [|apply repeat_spec in Hp; lra].
    apply in_map_iff in Hp as (s & <- & _). pose proof (norm2_pos basis phi basis_ne phi_ne) as H. change (norm2 basis phi) with Zn in H. apply Rmult_le_pos; [apply Cnorm2_ge|]. apply Rlt_le, Rinv_0_lt_compat. assumption.
  - apply RtoC_inj. rewrite <- csum_RtoC. transitivity (expect (wpairs probs configs) (fun _ => C1)).
    + unfold expect. rewrite <- (combine_fst (flat probs) (flat configs)) at 1 by (symmetry; apply (shape_len configs probs), probs_shape). fold (wpairs probs configs). rewrite !map_map. apply csum_ext. intros px _. rewrite Cscal_RtoC. ring.
    + rewrite probs_expect, expect_const, (born_total basis phi basis_ne phi_ne). ring.
Qed.

(** statistics of functions of the configuration *)
Lemma shape_of {B} (h : config -> B) : shape_eq (lmap h configs) probs.
Proof. eapply shape_trans; [apply shape_lmap|apply probs_shape]. Qed.
Lemma pairs_of {B} (h : config -> B) : wpairs probs (lmap h configs) = map (fun px => (fst px, h (snd px))) (wpairs probs configs).
Proof. unfold wpairs. rewrite flat_lmap. apply combine_map_r. Qed.
Lemma triples_of {B D} (h : config -> B) (g : config -> D) : wtriples probs (lmap h configs) (lmap g configs) = map (fun px => (fst px, (h (snd px), g (snd px)))) (wpairs probs configs).
Proof. unfold wtriples, wpairs. rewrite !flat_lmap, combine_map. apply (combine_map_r (fun s => (h s, g s))). Qed.
Lemma mean_of {I} (h : config -> I -> C) i : mean (init (lmap h configs) probs) i = expect (born_list basis phi) (fun s => h s i).
Proof. unfold mean. rewrite init_mean by apply shape_of. rewrite pairs_of, expect_map. apply (probs_expect (fun s => h s i)). Qed.
Lemma cov_of {I J} (h : config -> I -> C) (g : config -> J -> C) i j :
  covar (init (lmap h configs) probs) (init (lmap g configs) probs) (i, j) = cov (born_list basis phi) (fun s => h s i) (fun s => g s j).
Proof.
  rewrite covar_ok; [|apply shape_of|apply shape_of|apply probs_ok]. rewrite triples_of.
  rewrite (cov_map (fun s => (h s, g s)) (wpairs probs configs)). cbn [fst snd]. unfold cov.
  rewrite (probs_expect (fun s => h s i)), (probs_expect (fun s => g s j)), (probs_expect (fun s => (Cconj (h s i) * g s j)%C)). reflexivity.
Qed.
Lemma var_of {I} (h : config -> I -> C) i : var (init (lmap h configs) probs) i = variance (born_list basis phi) (fun s => h s i).
Proof.
  rewrite var_ok; [|apply shape_of|apply probs_ok]. apply RtoC_inj. rewrite !variance_expect, pairs_of. rewrite !(expect_map h).
  rewrite (probs_expect (fun s => h s i)). apply (probs_expect (fun s => RtoC (Cnorm2 (h s i - expect (born_list basis phi) (fun s => h s i))%C))).
Qed.

(** local energies *)
Context {A : Type}.
Variables (sts : list (ostring A)) (args : list A) (vals : list C) (bs : nat).
Hypothesis Hw : Forall (wf_string (Z.to_nat lDim) N) sts.
Hypothesis Hp : Forall2 (prefactor_is args) sts vals.
Notation elements := (elements lDim N (map to_opstr sts) args).
Hypothesis Hclean : forall s els, wf_config (Z.to_nat lDim) N s -> elements s = Ok els -> clean els.
Let op := elements_or_nil lDim N (map to_opstr sts) args.

Lemma elements_ok s : wf_config (Z.to_nat lDim) N s -> exists els, elements s = Ok els /\ op s = els /\ clean els /\ forall f, contract els f = apply_strings sts vals f s.
Proof.
  intros Hs. destruct (C11_action (Z.to_nat lDim) N sts args vals s Hw Hs Hp) as (els & E & _ & _ & F). exists els. unfold op, elements_or_nil, Vmc_Model.elements in *. rewrite E. split; [reflexivity|]. split; [reflexivity|]. split; [now apply (Hclean s)|]. exact F.
Qed.
Lemma op_local s : wf_config (Z.to_nat lDim) N s -> O_loc_spec (op s) (amplitude (mk_state true psi)) s = (apply_strings sts vals phi s / phi s)%C.
Proof.
  intros Hs. destruct (elements_ok s Hs) as (els & _ & -> & _ & F). rewrite <- F. unfold O_loc_spec, contract, amplitude. cbn [st_log st_val]. fold phi.
  change (fun s0 : config => Cexp (psi s0)) with phi. unfold Cdiv. rewrite <- csum_scal_r. apply csum_ext. intros sm _. fold (phi (fst sm)). unfold phi. ring.
Qed.
Lemma mapM_ok {X Y} (f : X -> result Y) l : Forall (fun x => exists y, f x = Ok y) l -> exists r, mapM f l = Ok r.
Proof. intros H. induction H as [|x l (y & E) H (r & IH)]; cbn [mapM]; [eexists; reflexivity|]. rewrite E, IH. cbn. eexists; reflexivity. Qed.
Lemma mapM_eq {X Y} (f : X -> result Y) g l : Forall (fun x => f x = Ok (g x)) l -> mapM f l = Ok (map g l).
Proof. intros H. induction H as [|x l E H IH]; cbn [mapM map]; [reflexivity|]. now rewrite E, IH. Qed.

Lemma local_energies_ok : local_energies lDim N commSize devices psi (map to_opstr sts) args bs
  = Ok (lmap (fun s => (apply_strings sts vals phi s / phi s)%C) configs).
Proof.
  assert (G : Forall (fun sl => sl <> [] /\ exists k, (1 <= k)%nat /\ Forall (fun l => length l = k) sl /\ Forall (Forall (wf_config (Z.to_nat lDim) N)) sl) configs).
  { unfold Vmc_Model.configs, Vmc_Model.bases. rewrite map_map. apply Forall_map, Forall_forall. intros r Hr. apply in_seq in Hr. apply rank_shape. lia. }
  unfold local_energies. destruct (mapM_ok (mapM (mapM elements)) configs) as (u & Eu).
  { eapply Forall_impl; [|exact G]. intros sl (_ & k & _ & _ & HF). apply mapM_ok. eapply Forall_impl; [|exact HF]. intros l Hl'. apply mapM_ok. eapply Forall_impl; [|exact Hl']. intros s Hs. destruct (elements_ok s Hs) as (els & E & _). now exists els. }
  rewrite Eu. cbn [bind]. unfold logpsis, lmap. rewrite <- (map_id configs) at 1. rewrite combine_map.
  rewrite (mapM_eq _ (fun sl => map (map (fun s => (apply_strings sts vals phi s / phi s)%C)) (fst sl))).
  - now rewrite map_map.
  - apply Forall_map. eapply Forall_impl; [|exact G]. intros sl (Hne & k & Hk & HL & HF). cbn [fst snd].
    change (elements_or_nil lDim N (map to_opstr sts) args) with op.
    rewrite (C16_value_partial op (mk_state true psi) N bs k sl (map (map psi) sl)); [| | | | | | |].
    + cbn [bind]. apply f_equal, map_ext_in. intros l Hl'. apply map_ext_in. intros s Hs. apply op_local. rewrite Forall_forall in HF. specialize (HF l Hl'). rewrite Forall_forall in HF. now apply HF.
    + assumption.
    + assumption.
    + assumption.
    + clear. induction sl as [|l sl IH]; cbn; constructor; [|exact IH]. induction l; cbn; constructor; [reflexivity|assumption].
    + eapply Forall_impl; [|exact HF]. intros l Hl'. eapply Forall_impl; [|exact Hl']. intros s Hs. destruct (elements_ok s Hs) as (els & _ & -> & Cl & _). exact Cl.
    + cbn. discriminate.
    + right. left. reflexivity.
Qed.
Lemma energy_obs_ok : energy_obs lDim N commSize devices lastNorm psi (map to_opstr sts) args bs
  = Ok (init (lmap (fun s (_ : unit) => (apply_strings sts vals phi s / phi s)%C) configs) probs).
Proof.
  unfold energy_obs. rewrite local_energies_ok. cbn [bind]. unfold lmap. rewrite map_map. apply (f_equal (fun X => Ok (init X probs))). apply map_ext. intros r. rewrite map_map. apply map_ext. intros l. now rewrite map_map.
Qed.
End Run.
