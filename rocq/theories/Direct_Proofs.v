(** Moments of totals of independent samples. *)
From Coq Require Import ZArith List Reals Lia Lra Arith.
From Verif Require Import Base Cplx Mpi_Model Mpi_Spec Mpi_Proofs Mpi_Props BranchFree_Model Dist Sampler_Model Sampler_Spec Sampler_Props
  Ergo_Spec Ergo_Proofs Ergo2_Proofs Measure_Model Measure_Spec Direct_Model.
Import ListNotations.
Local Open Scope R_scope.

Lemma mass_mapD {A B} (F : A -> dist B) l : (forall a, In a l -> mass (F a) = 1) -> mass (mapD F l) = 1.
Proof.
  induction l as [|a l IH]; intros H; cbn [mapD]; [apply mass_ret|]. rewrite mass_bind; [apply H; now left|]. intros b _. rewrite mass_bind; [apply IH; intros; apply H; now right|].
  intros; apply mass_ret.
Qed.
(** a sum of independent contributions with mean zero *)
Lemma mapD_square {A B} (F : A -> dist B) (h : B -> R) l : (forall a, In a l -> mass (F a) = 1) -> (forall a, In a l -> E (F a) h = 0) ->
  E (mapD F l) (fun rs => rsum (map h rs) ^ 2) = rsum (map (fun a => E (F a) (fun b => h b ^ 2)) l).
Proof.
  induction l as [|a l IH]; intros Hm Hz; cbn [mapD map]; [rewrite E_ret; cbn; ring|]. rewrite rsum_cons.
  assert (Hl : forall a, In a l -> mass (F a) = 1) by (intros; apply Hm; now right). assert (Zl : forall a, In a l -> E (F a) h = 0) by (intros; apply Hz; now right).
  rewrite <- (IH Hl Zl), E_bind.
  set (Q := E (mapD F l) (fun rs => rsum (map h rs) ^ 2)).
  transitivity (E (F a) (fun b => h b ^ 2 + Q)).
  - apply E_ext. intros b _. rewrite E_bind. transitivity (E (mapD F l) (fun rs => h b ^ 2 + (2 * h b * rsum (map h rs) + rsum (map h rs) ^ 2))).
    + apply E_ext. intros rs _. rewrite E_ret. cbn [map]. rewrite rsum_cons. ring.
    + rewrite E_add, E_const, mass_mapD by assumption. rewrite E_add, E_scal, mapD_sum by assumption.
      rewrite (rsum_ext _ (fun _ => 0)) by assumption. rewrite rsum_zero. unfold Q. ring.
  - rewrite E_add, E_const, (Hm a) by now left. ring.
Qed.

(** the configurations without the weights; [ns] the numbers per device of the ranks *)
Definition blocks (draw : dist config) (ns : list nat) (d : nat) : dist (list (list (list config))) :=
  mapD (fun n => mapD (fun _ => mapD (fun _ => draw) (seq 0 n)) (seq 0 d)) ns.
Definition tot (f : config -> R) (configs : list (list (list config))) : R :=
  rsum (map (fun devs => rsum (map (fun ss => rsum (map f ss)) devs)) configs).
Definition number (ns : list nat) (d : nat) : R := rsum (map (fun n => INR d * INR n) ns).

Lemma tot_flat f configs : tot f configs = rsum (map f (concat (concat configs))).
Proof.
  unfold tot. induction configs as [|devs configs IH]; [reflexivity|]. cbn [map concat]. rewrite concat_app, map_app, rsum_app, rsum_cons, IH. f_equal.
  clear. induction devs as [|ss devs IH]; [reflexivity|]. cbn [map concat]. rewrite map_app, rsum_app, rsum_cons, IH. reflexivity.
Qed.

Section Draw.
  Variable draw : dist config.
  Hypothesis Hm : mass draw = 1.
  Lemma mass_dev n : mass (mapD (fun _ : nat => draw) (seq 0 n)) = 1.
  Proof. apply mass_mapD. auto. Qed.
  Lemma mass_rank n d : mass (mapD (fun _ : nat => mapD (fun _ : nat => draw) (seq 0 n)) (seq 0 d)) = 1.
  Proof. apply mass_mapD. intros. apply mass_dev. Qed.
  Lemma mass_blocks ns d : mass (blocks draw ns d) = 1.
  Proof. apply mass_mapD. intros. apply mass_rank. Qed.
  Lemma rsum_same {A} (l : list A) (x : R) : rsum (map (fun _ => x) l) = INR (length l) * x.
  Proof. induction l as [|a l IH]; [cbn; ring|]. cbn [map length]. rewrite rsum_cons, IH, S_INR. ring. Qed.
  Lemma blocks_mean f ns d : E (blocks draw ns d) (tot f) = number ns d * E draw f.
  Proof.
    unfold blocks, tot. rewrite (mapD_sum (fun n => mapD (fun _ => mapD (fun _ => draw) (seq 0 n)) (seq 0 d)) (fun devs => rsum (map (fun ss => rsum (map f ss)) devs))) by (intros; apply mass_rank).
    unfold number. rewrite <- rsum_scal_r. apply rsum_ext. intros n _.
    rewrite (mapD_sum (fun _ : nat => mapD (fun _ : nat => draw) (seq 0 n)) (fun ss => rsum (map f ss))) by (intros; apply mass_dev).
    rewrite rsum_same, seq_length. rewrite (mapD_sum (fun _ : nat => draw) f) by auto. rewrite rsum_same, seq_length. ring.
  Qed.
  Lemma blocks_square g ns d : E draw g = 0 -> E (blocks draw ns d) (fun c => tot g c ^ 2) = number ns d * E draw (fun s => g s ^ 2).
  Proof.
    intros Hg. assert (Z1 : forall n, E (mapD (fun _ : nat => draw) (seq 0 n)) (fun ss => rsum (map g ss)) = 0).
    { intros n. rewrite (mapD_sum (fun _ : nat => draw) g) by auto. rewrite Hg, rsum_same. ring. }
    assert (Z2 : forall n, E (mapD (fun _ : nat => mapD (fun _ : nat => draw) (seq 0 n)) (seq 0 d)) (fun devs => rsum (map (fun ss => rsum (map g ss)) devs)) = 0).
    { intros n. rewrite (mapD_sum (fun _ : nat => mapD (fun _ : nat => draw) (seq 0 n)) (fun ss => rsum (map g ss))) by (intros; apply mass_dev). rewrite Z1, rsum_same. ring. }
    unfold blocks, tot. rewrite (mapD_square (fun n => mapD (fun _ => mapD (fun _ => draw) (seq 0 n)) (seq 0 d)) (fun devs => rsum (map (fun ss => rsum (map g ss)) devs))); [|intros; apply mass_rank|intros; apply Z2].
    unfold number. rewrite <- rsum_scal_r. apply rsum_ext. intros n _.
    rewrite (mapD_square (fun _ : nat => mapD (fun _ : nat => draw) (seq 0 n)) (fun ss => rsum (map g ss))); [|intros; apply mass_dev|intros; apply Z1].
    rewrite rsum_same, seq_length. rewrite (mapD_square (fun _ : nat => draw) g); [|auto|auto]. rewrite rsum_same, seq_length. ring.
  Qed.
  Lemma blocks_length ns d configs : outcome (blocks draw ns d) configs -> INR (length (concat (concat configs))) = number ns d.
  Proof.
    intros H. apply outcome_mapD in H. unfold number. induction H as [|n devs ns configs H _ IH]; [reflexivity|]. cbn [map concat]. rewrite concat_app, app_length, plus_INR, rsum_cons, IH. f_equal.
    apply outcome_mapD in H. clear IH. assert (G : forall l devs, Forall2 (fun (_ : nat) b => outcome (mapD (fun _ : nat => draw) (seq 0 n)) b) l devs -> INR (length (concat devs)) = INR (length l) * INR n).
    { clear. induction 1 as [|x ss l devs H _ IH]; [cbn; ring|]. cbn [concat]. rewrite app_length, plus_INR, IH. change (length (x :: l)) with (S (length l)). rewrite S_INR. apply outcome_mapD, Forall2_length in H. rewrite seq_length in H. rewrite <- H. ring. }
    rewrite (G _ _ H), seq_length. reflexivity.
  Qed.
  Lemma blocks_shape ns d configs : (1 <= d)%nat -> outcome (blocks draw ns d) configs -> Forall (fun devs => length devs = d) configs.
  Proof.
    intros Hd H. apply outcome_mapD in H. induction H as [|n devs ns configs H _ IH]; constructor; [|exact IH]. apply outcome_mapD, Forall2_length in H. now rewrite seq_length in H.
  Qed.
  Lemma blocks_in ns d configs (P : config -> Prop) : (forall s, outcome draw s -> P s) -> outcome (blocks draw ns d) configs -> Forall (Forall (Forall P)) configs.
  Proof.
    intros HP H. apply outcome_mapD in H. induction H as [|n devs ns configs H _ IH]; constructor; [|exact IH]. apply outcome_mapD in H. clear -HP H. induction H as [|x ss l devs H _ IH]; constructor; [|exact IH].
    apply outcome_mapD in H. clear -HP H. induction H; constructor; auto.
  Qed.

  (** the sampler *)
  Definition gen_ns (numSamples multipleOf devices : Z) (commSize : nat) : list nat :=
    map (fun rank => Z.to_nat (fst (gen_counts (Z.of_nat rank) (Z.of_nat commSize) numSamples devices multipleOf))) (seq 0 commSize).
  Lemma sample_gen_blocks numSamples m devices c glob f : (forall r, snd (gen_counts r (Z.of_nat c) numSamples devices m) = glob) ->
    E (sample_gen draw numSamples m devices c) f
    = E (blocks draw (gen_ns numSamples m devices c) (Z.to_nat devices)) (fun configs => f (configs, map (map (map (fun _ => gen_weight glob))) configs)).
  Proof.
    intros Hg. unfold sample_gen, blocks, gen_ns.
    assert (G : forall (l : list nat) (f : list (list (list config)) * list (list (list R)) -> R),
      E (r <~ mapD (fun rank => let counts := gen_counts (Z.of_nat rank) (Z.of_nat c) numSamples devices m in
           configs <~ mapD (fun _ => mapD (fun _ => draw) (seq 0 (Z.to_nat (fst counts)))) (seq 0 (Z.to_nat devices));;
           ret (configs, map (map (fun _ => gen_weight (snd counts))) configs)) l;; ret (map fst r, map snd r)) f
      = E (mapD (fun n => mapD (fun _ => mapD (fun _ => draw) (seq 0 n)) (seq 0 (Z.to_nat devices)))
             (map (fun rank => Z.to_nat (fst (gen_counts (Z.of_nat rank) (Z.of_nat c) numSamples devices m))) l))
          (fun configs => f (configs, map (map (map (fun _ => gen_weight glob))) configs))).
    { clear f. induction l as [|rank l IH]; intros f; cbn [mapD map]; [rewrite E_bind, !E_ret; reflexivity|].
      rewrite !E_bind. cbv zeta. apply E_ext. intros devs _. rewrite E_ret, !E_bind.
      specialize (IH (fun q => f (devs :: fst q, map (map (fun _ => gen_weight glob)) devs :: snd q))). cbn [fst snd] in IH. rewrite E_bind in IH.
      transitivity (E (mapD (fun rank => let counts := gen_counts (Z.of_nat rank) (Z.of_nat c) numSamples devices m in
           configs <~ mapD (fun _ => mapD (fun _ => draw) (seq 0 (Z.to_nat (fst counts)))) (seq 0 (Z.to_nat devices));;
           ret (configs, map (map (fun _ => gen_weight (snd counts))) configs)) l)
        (fun a => E (ret (map fst a, map snd a)) (fun q => f (devs :: fst q, map (map (fun _ => gen_weight glob)) devs :: snd q)))).
      - apply E_ext. intros a _. rewrite !E_ret. cbn [map fst snd]. rewrite Hg. reflexivity.
      - cbv zeta in IH |- *. rewrite IH. apply E_ext. intros a _. rewrite E_ret. reflexivity. }
    apply G.
  Qed.
  Lemma gen_number numSamples devices c : (0 < numSamples)%Z -> (0 < devices)%Z -> (1 <= c)%nat ->
    exists glob, (forall r, snd (gen_counts r (Z.of_nat c) numSamples devices 1) = glob) /\ (numSamples <= glob)%Z
      /\ number (gen_ns numSamples 1 devices c) (Z.to_nat devices) = IZR glob.
  Proof.
    intros Hn Hd Hc. destruct (C30_gen_partial numSamples (Z.of_nat c) devices Hn ltac:(lia) Hd) as (glob & G1 & G2 & G3 & _). exists glob. split; [exact G1|]. split; [exact G3|].
    rewrite <- G2. unfold over_ranks, number, gen_ns. rewrite Nat2Z.id, map_map.
    assert (NN : forall r, (0 <= fst (gen_counts (Z.of_nat r) (Z.of_nat c) numSamples devices 1))%Z).
    { intros r. unfold gen_counts, distribute_sampling, spc, samples_per_process. cbn [fst]. apply Z.div_pos; [|lia]. pose proof (Z.div_pos numSamples (Z.of_nat c) ltac:(lia) ltac:(lia)). destruct (_ <? _)%Z; lia. }
    clear -Hd NN. induction (seq 0 c) as [|r l IH]; [reflexivity|]. cbn [map]. rewrite rsum_cons, IH.
    match goal with |- _ = IZR (zsum (?a :: ?b)) => change (zsum (a :: b)) with (a + zsum b)%Z end. rewrite plus_IZR. f_equal.
    rewrite mult_IZR, !INR_IZR_INZ, !Z2Nat.id by (try apply NN; lia). reflexivity.
  Qed.
End Draw.
