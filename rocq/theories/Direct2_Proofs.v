(** Measurements with direct samples. *)
From Coq Require Import String ZArith List Reals Lia Lra Arith.
From Verif Require Import Base Cplx Mpi_Model Mpi_Spec Mpi_Proofs Mpi_Props BranchFree_Model Dist Sampler_Model Sampler_Spec Sampler_Proofs Sampler_Props
  Ergo_Spec Ergo_Proofs Ergo2_Proofs Measure_Model Measure_Spec Measure_Props Wrap_Spec Direct_Model Direct_Spec Direct_Proofs.
Import ListNotations.
Local Open Scope R_scope.

Lemma E_space (m : dist config) space f : NoDup space -> (forall s, outcome m s -> In s space) -> E m f = rsum (map (fun s => Pr m s * f s) space).
Proof.
  intros HN HO. transitivity (E m (fun s => rsum (map (fun t => (if config_eq_dec s t then 1 else 0) * f t) space))).
  - apply E_ext. intros s Hs. specialize (HO s Hs). clear -HN HO. induction HN as [|t space Ht _ IH]; [destruct HO|]. cbn [map]. rewrite rsum_cons. destruct HO as [->|Hs].
    + destruct (config_eq_dec s s); [|congruence]. rewrite (rsum_ext _ (fun _ => 0)); [rewrite rsum_zero; ring|]. intros u Hu. destruct (config_eq_dec s u) as [->|]; [contradiction|ring].
    + rewrite <- IH by assumption. destruct (config_eq_dec s t) as [->|]; [contradiction|ring].
  - rewrite (E_rsum m space (fun s t => (if config_eq_dec s t then 1 else 0) * f t)). apply rsum_ext. intros t _. unfold Pr.
    rewrite (Rmult_comm (E m _)), <- E_scal. apply E_ext. intros s _. ring.
Qed.

Lemma pairs_const {A} (w : R) (O : config -> A) configs : pairs (map (map (map O)) configs) (map (map (map (fun _ => w))) configs) = map (fun s => (w, O s)) (concat (concat configs)).
Proof.
  unfold pairs.
  replace (concat (concat (map (map (map O)) configs))) with (map O (concat (concat configs))) by (rewrite !concat_map; reflexivity).
  replace (concat (concat (map (map (map (fun _ : config => w))) configs))) with (map (fun _ => w) (concat (concat configs))) by (rewrite !concat_map; reflexivity).
  induction (concat (concat configs)) as [|s l IH]; [reflexivity|]. cbn. now rewrite IH.
Qed.

Lemma real_var (a : config -> R) (w al : R) (xs : list config) : w * INR (length xs) = 1 ->
  rsum (map (fun s => w * (a s - w * rsum (map a xs)) ^ 2) xs)
  = w * rsum (map (fun s => (a s - al) ^ 2) xs) - (w * rsum (map (fun s => a s - al) xs)) ^ 2.
Proof.
  intros H. set (b := fun s => a s - al). set (D := rsum (map b xs)).
  assert (DA : rsum (map a xs) = D + INR (length xs) * al).
  { unfold D, b. clear. induction xs as [|s xs IH]; [cbn; ring|]. cbn [map length]. rewrite !rsum_cons, IH, S_INR. ring. }
  assert (G : forall c, rsum (map (fun s => w * (b s - c) ^ 2) xs) = w * rsum (map (fun s => b s ^ 2) xs) - 2 * c * w * D + INR (length xs) * w * c ^ 2).
  { intros c. unfold D. clear. induction xs as [|s xs IH]; [cbn; ring|]. cbn [map length]. rewrite !rsum_cons, IH, S_INR. ring. }
  transitivity (rsum (map (fun s => w * (b s - w * D) ^ 2) xs)).
  - apply rsum_ext. intros s _. unfold b. rewrite DA. replace (w * (D + INR (length xs) * al)) with (w * D + (w * INR (length xs)) * al) by ring. rewrite H. ring.
  - rewrite G. change (fun s => (a s - al) ^ 2) with (fun s => b s ^ 2). replace (INR (length xs) * w * (w * D) ^ 2) with ((w * INR (length xs)) * (w * D) ^ 2) by ring. rewrite H. ring.
Qed.

Lemma csum_parts {A} (F : A -> C) l : csum (map F l) = (rsum (map (fun x => Re (F x)) l), rsum (map (fun x => Im (F x)) l)).
Proof. induction l as [|x l IH]; [reflexivity|]. cbn [map]. rewrite csum_cons, !rsum_cons, IH. destruct (F x). reflexivity. Qed.

Lemma wvar_const (O : config -> C) (w : R) (mu : C) xs : w * INR (length xs) = 1 ->
  wvar (map (fun s => (w, O s)) xs)
  = (w * rsum (map (fun s => (Re (O s) - Re mu) ^ 2) xs) - (w * rsum (map (fun s => Re (O s) - Re mu) xs)) ^ 2)
    + (w * rsum (map (fun s => (Im (O s) - Im mu) ^ 2) xs) - (w * rsum (map (fun s => Im (O s) - Im mu) xs)) ^ 2).
Proof.
  intros H. rewrite <- !real_var by assumption. unfold wvar, wmean. rewrite !map_map. cbn [fst snd].
  rewrite (csum_parts (fun s => Cscal w (O s))). rewrite <- rsum_map_add. apply rsum_ext. intros s _.
  replace (rsum (map (fun x => Re (Cscal w (O x))) xs)) with (w * rsum (map (fun s => Re (O s)) xs)) by (rewrite <- rsum_scal; reflexivity).
  replace (rsum (map (fun x => Im (Cscal w (O x))) xs)) with (w * rsum (map (fun s => Im (O s)) xs)) by (rewrite <- rsum_scal; reflexivity).
  unfold Cnorm2. destruct (O s) as [x y]. cbn [Re Im fst snd Csub Cadd Copp]. ring.
Qed.

(** what is reported *)
Lemma measure_one_ok O N rank (configs : list (list (list config))) p : (rank < length p)%nat -> same_shape configs p -> Forall (fun w => length w = 1%nat) p -> (0 < N)%nat ->
  measure_one O N rank (configs, p) = Ok [("O"%string, ([rmean (pairs (map (map (map O)) configs) p)], [wvar (pairs (map (map (map O)) configs) p)],
      [standard_error (wvar (pairs (map (map (map O)) configs) p)) (Some N)]))].
Proof.
  intros Hr Hs H1 HN. unfold measure_one. cbn [fst snd].
  rewrite (C62_measure_partial (fun _ _ => Ok (map (map (map O)) configs)) p (Some N) (fun _ => map (map (map O)) configs) rank [("O"%string, VOp 0)] [("O"%string, [(0%nat, [])])]).
  - reflexivity.
  - exact Hr.
  - constructor; [|constructor]. cbn. split; [reflexivity|constructor].
  - constructor; [|constructor]. cbn. constructor; [|constructor]. split; [reflexivity|]. clear -Hs. unfold same_shape in *. induction Hs as [|d w configs p [Hd Hl] _ IH]; constructor; [|exact IH].
    split; [destruct d; [congruence|discriminate]|]. clear -Hl. induction Hl; constructor; [now rewrite map_length|assumption].
  - exact H1.
  - intros k Hk. now injection Hk as <-.
Qed.

Lemma same_shape_const (w : R) (configs : list (list (list config))) : Forall (fun devs => length devs = 1%nat) configs ->
  same_shape configs (map (map (map (fun _ => w))) configs) /\ Forall (fun x => length x = 1%nat) (map (map (map (fun _ => w))) configs).
Proof.
  intros H. split.
  - unfold same_shape. induction H as [|devs configs H _ IH]; constructor; [|exact IH]. split; [destruct devs; [discriminate|discriminate]|]. clear. induction devs; constructor; [now rewrite map_length|assumption].
  - induction H as [|devs configs H _ IH]; constructor; [now rewrite map_length|exact IH].
Qed.

Section Draw.
  Variable draw : dist config.
  Hypothesis Hm : mass draw = 1.
  Variables (numSamples devices : Z) (c : nat) (glob : Z).
  Hypotheses (Hg : forall r, snd (gen_counts r (Z.of_nat c) numSamples devices 1) = glob) (HN : (numSamples <= glob)%Z) (Hpos : (0 < numSamples)%Z)
             (Hnum : number (gen_ns numSamples 1 devices c) (Z.to_nat devices) = IZR glob).
  Let w := gen_weight glob.
  Lemma w_glob : w * IZR glob = 1.
  Proof. unfold w, gen_weight. field. apply not_0_IZR. lia. Qed.
  Lemma w_inv : w = 1 / IZR glob.
  Proof. reflexivity. Qed.

  Lemma estimate_blocks f configs : estimate f (configs, map (map (map (fun _ => w))) configs) = w * tot f configs.
  Proof.
    unfold estimate. cbn [fst snd]. rewrite <- (map_id configs) at 1. pose proof (pairs_const w (fun s : config => s) configs) as P.
    replace (map (map (map (fun s : config => s))) configs) with configs in P. 2: { clear. rewrite <- (map_id configs) at 1. apply map_ext. intros d. rewrite <- (map_id d) at 1. apply map_ext. intros ss. now rewrite map_id. }
    rewrite map_id, P, map_map. cbn [fst snd]. now rewrite rsum_scal, tot_flat.
  Qed.
  Lemma estimate_mean f : E (sample_gen draw numSamples 1 devices c) (estimate f) = E draw f.
  Proof.
    rewrite (sample_gen_blocks draw numSamples 1 devices c glob _ Hg). fold w. transitivity (E (blocks draw (gen_ns numSamples 1 devices c) (Z.to_nat devices)) (fun configs => w * tot f configs)).
    - apply E_ext. intros configs _. apply estimate_blocks.
    - rewrite E_scal, blocks_mean, Hnum by assumption. rewrite <- Rmult_assoc, w_glob. ring.
  Qed.
  Lemma tot_shift f x configs : tot (fun s => f s - x) configs = tot f configs - INR (length (concat (concat configs))) * x.
  Proof. rewrite !tot_flat. induction (concat (concat configs)) as [|s l IH]; [cbn; ring|]. cbn [map length]. rewrite !rsum_cons, IH, S_INR. ring. Qed.
  Lemma centred f : E draw (fun s => f s - E draw f) = 0.
  Proof. transitivity (E draw (fun s => f s + (- 1) * E draw f)); [apply E_ext; intros; ring|]. rewrite E_add, E_const, Hm. ring. Qed.
  Lemma estimate_square f : E (sample_gen draw numSamples 1 devices c) (fun q => (estimate f q - E draw f) ^ 2) = E draw (fun s => (f s - E draw f) ^ 2) / IZR glob.
  Proof.
    rewrite (sample_gen_blocks draw numSamples 1 devices c glob _ Hg). fold w. set (g := fun s => f s - E draw f).
    transitivity (E (blocks draw (gen_ns numSamples 1 devices c) (Z.to_nat devices)) (fun configs => w ^ 2 * tot g configs ^ 2)).
    - apply E_ext. intros configs Ho. rewrite estimate_blocks. unfold g. rewrite tot_shift, (blocks_length draw _ _ _ Ho), Hnum.
      replace (w * tot f configs - E draw f) with (w * tot f configs - (w * IZR glob) * E draw f) by (rewrite w_glob; ring). ring.
    - rewrite E_scal, (blocks_square draw Hm g) by (apply centred). rewrite Hnum, w_inv. change (fun s => (f s - E draw f) ^ 2) with (fun s => g s ^ 2). field. apply not_0_IZR. lia.
  Qed.

End Draw.
