(** What [measure] reports for direct samples, any number of devices. *)
From Coq Require Import String ZArith List Reals Lia Lra Arith.
From Verif Require Import Base Cplx Mpi_Model Mpi_Spec Mpi_Proofs Mpi_Props BranchFree_Model Dist Sampler_Model Sampler_Spec Sampler_Proofs Sampler_Props
  Ergo_Spec Ergo_Proofs Ergo2_Proofs Measure_Model Measure_Spec Measure_Proofs Measure_Props Wrap_Spec Direct_Model Direct_Spec Direct_Proofs Direct2_Proofs.
Import ListNotations.
Local Open Scope R_scope.

Definition first_dev (devs : list (list config)) : list config := hd [] devs.
Definition tot1 (f : config -> R) (configs : list (list (list config))) : R := rsum (map (fun devs => rsum (map f (first_dev devs))) configs).
Definition number1 (ns : list nat) : R := rsum (map INR ns).

Lemma number_first ns d : number ns d = INR d * number1 ns.
Proof. unfold number, number1. now rewrite rsum_scal. Qed.

Section Draw.
  Variable draw : dist config.
  Hypothesis Hm : mass draw = 1.
  Let dev (n : nat) := mapD (fun _ : nat => draw) (seq 0 n).
  Lemma dev_mass n : mass (dev n) = 1.
  Proof. apply mass_dev, Hm. Qed.
  Lemma dev_mean f n : E (dev n) (fun ss => rsum (map f ss)) = INR n * E draw f.
  Proof. unfold dev. rewrite (mapD_sum (fun _ : nat => draw) f) by auto. now rewrite rsum_same, seq_length. Qed.
  Lemma dev_square g n : E draw g = 0 -> E (dev n) (fun ss => rsum (map g ss) ^ 2) = INR n * E draw (fun s => g s ^ 2).
  Proof. intros Hg. unfold dev. rewrite mapD_square by auto. now rewrite rsum_same, seq_length. Qed.

  Lemma rank_mean (f : config -> R) u v n d : E (mapD (fun _ : nat => dev n) (seq 0 (S d))) (fun devs => u * rsum (map f (first_dev devs)) + v * rsum (map (fun ss => rsum (map f ss)) devs))
    = (u + v * INR (S d)) * INR n * E draw f.
  Proof.
    assert (M : mass (mapD (fun _ : nat => dev n) (seq 1 d)) = 1) by (apply mass_mapD; intros; apply dev_mass).
    cbn [seq mapD]. rewrite E_bind. transitivity (E (dev n) (fun ss => (u + v) * rsum (map f ss) + v * (INR d * (INR n * E draw f)))).
    - apply E_ext. intros ss _. rewrite E_bind. transitivity (E (mapD (fun _ : nat => dev n) (seq 1 d)) (fun devs => (u + v) * rsum (map f ss) + v * rsum (map (fun ss => rsum (map f ss)) devs))).
      + apply E_ext. intros devs _. rewrite E_ret. unfold first_dev. cbn [hd map]. rewrite rsum_cons. ring.
      + rewrite E_add, E_const, M, E_scal. rewrite (mapD_sum (fun _ : nat => dev n) (fun ss => rsum (map f ss))) by (intros; apply dev_mass). rewrite dev_mean, rsum_same, seq_length. ring.
    - rewrite E_add, E_const, dev_mass, E_scal, dev_mean, S_INR. ring.
  Qed.
  Lemma rank_square g u v n d : E draw g = 0 ->
    E (mapD (fun _ : nat => dev n) (seq 0 (S d))) (fun devs => (u * rsum (map g (first_dev devs)) + v * rsum (map (fun ss => rsum (map g ss)) devs)) ^ 2)
    = INR n * E draw (fun s => g s ^ 2) * ((u + v) ^ 2 + INR d * v ^ 2).
  Proof.
    intros Hg. set (Vg := E draw (fun s => g s ^ 2)). assert (M : mass (mapD (fun _ : nat => dev n) (seq 1 d)) = 1) by (apply mass_mapD; intros; apply dev_mass).
    cbn [seq mapD]. rewrite E_bind. transitivity (E (dev n) (fun ss => (u + v) ^ 2 * rsum (map g ss) ^ 2 + v ^ 2 * (INR d * (INR n * Vg)))).
    - apply E_ext. intros ss _. rewrite E_bind.
      transitivity (E (mapD (fun _ : nat => dev n) (seq 1 d)) (fun devs => (u + v) ^ 2 * rsum (map g ss) ^ 2
          + (2 * (u + v) * rsum (map g ss) * v * rsum (map (fun ss => rsum (map g ss)) devs) + v ^ 2 * rsum (map (fun ss => rsum (map g ss)) devs) ^ 2))).
      + apply E_ext. intros devs _. rewrite E_ret. unfold first_dev. cbn [hd map]. rewrite rsum_cons. ring.
      + rewrite E_add, E_const, M, E_add, !E_scal. rewrite (mapD_sum (fun _ : nat => dev n) (fun ss => rsum (map g ss))) by (intros; apply dev_mass).
        rewrite (mapD_square (fun _ : nat => dev n) (fun ss => rsum (map g ss))); [|intros; apply dev_mass|intros; rewrite dev_mean, Hg; ring].
        rewrite dev_mean, (dev_square g n Hg), Hg, !rsum_same, seq_length. fold Vg. ring.
    - rewrite E_add, E_const, dev_mass, E_scal, (dev_square g n Hg). fold Vg. ring.
  Qed.

  Lemma combine_tot f u v configs : u * tot1 f configs + v * tot f configs = rsum (map (fun devs => u * rsum (map f (first_dev devs)) + v * rsum (map (fun ss => rsum (map f ss)) devs)) configs).
  Proof. unfold tot1, tot. now rewrite rsum_map_add, !rsum_scal. Qed.
  Lemma first_mean f ns d : E (blocks draw ns (S d)) (tot1 f) = number1 ns * E draw f.
  Proof.
    transitivity (E (blocks draw ns (S d)) (fun configs => rsum (map (fun devs => 1 * rsum (map f (first_dev devs)) + 0 * rsum (map (fun ss => rsum (map f ss)) devs)) configs))).
    - apply E_ext. intros configs _. rewrite <- combine_tot. ring.
    - unfold blocks. rewrite (mapD_sum (fun n => mapD (fun _ : nat => mapD (fun _ : nat => draw) (seq 0 n)) (seq 0 (S d))) (fun devs => 1 * rsum (map f (first_dev devs)) + 0 * rsum (map (fun ss => rsum (map f ss)) devs)));
        [|intros; apply mass_rank, Hm]. unfold number1. rewrite <- rsum_scal_r. apply rsum_ext. intros n _. pose proof (rank_mean f 1 0 n d) as K. unfold dev in K. rewrite K. ring.
  Qed.
  Lemma first_square g u v ns d : E draw g = 0 ->
    E (blocks draw ns (S d)) (fun configs => (u * tot1 g configs + v * tot g configs) ^ 2) = number1 ns * E draw (fun s => g s ^ 2) * ((u + v) ^ 2 + INR d * v ^ 2).
  Proof.
    intros Hg. transitivity (E (blocks draw ns (S d)) (fun configs => rsum (map (fun devs => u * rsum (map g (first_dev devs)) + v * rsum (map (fun ss => rsum (map g ss)) devs)) configs) ^ 2)).
    - apply E_ext. intros configs _. now rewrite <- combine_tot.
    - unfold blocks. rewrite mapD_square; [|intros; apply mass_rank, Hm|intros n _; pose proof (rank_mean g u v n d) as K; unfold dev in K; rewrite K, Hg; ring].
      unfold number1. rewrite Rmult_assoc, <- rsum_scal_r. apply rsum_ext. intros n _. pose proof (rank_square g u v n d Hg) as K. unfold dev in K. rewrite K. ring.
  Qed.
  Lemma first_length ns d configs : outcome (blocks draw ns (S d)) configs -> rsum (map (fun devs => INR (length (first_dev devs))) configs) = number1 ns.
  Proof.
    intros H. apply outcome_mapD in H. unfold number1. induction H as [|n devs ns configs H _ IH]; [reflexivity|]. cbn [map]. rewrite !rsum_cons, IH. f_equal.
    apply outcome_mapD in H. cbn [seq] in H. inversion H as [|? ss ? ? H1]; subst. unfold first_dev. cbn [hd]. apply outcome_mapD, Forall2_length in H1. rewrite seq_length in H1. now rewrite <- H1.
  Qed.
End Draw.

(** the variance of the first devices *)
Lemma first_var (O : config -> C) (w : R) (mu : C) configs N1 : Forall (fun devs => devs <> []) configs -> w * INR (length (concat (concat configs))) = 1 ->
  rsum (map (fun devs => INR (length (first_dev devs))) configs) = N1 ->
  let a := fun s => Re (O s) - Re mu in let b := fun s => Im (O s) - Im mu in
  let part g := w * tot1 (fun s => g s ^ 2) configs - w ^ 2 * ((1 * tot1 g configs + 1 * tot g configs) ^ 2 - (1 * tot1 g configs + 0 * tot g configs) ^ 2 - (0 * tot1 g configs + 1 * tot g configs) ^ 2)
                + w ^ 3 * N1 * (0 * tot1 g configs + 1 * tot g configs) ^ 2 in
  first_dev_var (map (map (map O)) configs) (map (map (map (fun _ => w))) configs) = part a + part b.
Proof.
  intros Hne HL HN a b part. unfold first_dev_var. rewrite pairs_const. unfold wmean. rewrite map_map. cbn [fst snd]. rewrite (csum_parts (fun s => Cscal w (O s))).
  set (xs := concat (concat configs)) in *. set (ma := w * tot a configs). set (mb := w * tot b configs).
  assert (HA : rsum (map (fun x => Re (Cscal w (O x))) xs) = ma + Re mu /\ rsum (map (fun x => Im (Cscal w (O x))) xs) = mb + Im mu).
  { unfold ma, mb. rewrite !tot_flat. fold xs. unfold a, b. split.
    - transitivity (w * rsum (map (fun s => Re (O s) - Re mu) xs) + (w * INR (length xs)) * Re mu); [|rewrite HL; ring]. clear. induction xs as [|s xs IH]; [cbn; ring|]. cbn [map length]. rewrite !rsum_cons, IH, S_INR. unfold Cscal, Re. cbn [fst]. ring.
    - transitivity (w * rsum (map (fun s => Im (O s) - Im mu) xs) + (w * INR (length xs)) * Im mu); [|rewrite HL; ring]. clear. induction xs as [|s xs IH]; [cbn; ring|]. cbn [map length]. rewrite !rsum_cons, IH, S_INR. unfold Cscal, Im. cbn [snd]. ring. }
  destruct HA as [-> ->]. clear HL.
  transitivity (rsum (map (fun devs => rsum (map (fun s => w * ((a s - ma) ^ 2 + (b s - mb) ^ 2)) (first_dev devs))) configs)).
  - clear HN part. clearbody ma mb. clear xs. induction Hne as [|devs configs Hd _ IH]; [reflexivity|]. cbn [map combine]. rewrite !rsum_cons, <- IH. f_equal. destruct devs as [|ss devs]; [congruence|]. unfold first_dev. cbn [map fst snd hd].
    clear. induction ss as [|s ss IH]; [reflexivity|]. cbn [map combine]. rewrite !rsum_cons, IH. f_equal. unfold a, b, Cnorm2. destruct (O s), mu. cbn [fst snd Csub Cadd Copp Re Im]. ring.
  - assert (G : forall (g : config -> R) m, rsum (map (fun devs => rsum (map (fun s => w * (g s - m) ^ 2) (first_dev devs))) configs) = w * tot1 (fun s => g s ^ 2) configs - 2 * w * m * tot1 g configs + w * N1 * m ^ 2).
    { intros g m. rewrite <- HN. clear. unfold tot1. induction configs as [|devs configs IH]; [cbn; ring|]. cbn [map]. rewrite !rsum_cons, IH.
      assert (K : rsum (map (fun s => w * (g s - m) ^ 2) (first_dev devs)) = w * rsum (map (fun s => g s ^ 2) (first_dev devs)) - 2 * w * m * rsum (map g (first_dev devs)) + w * INR (length (first_dev devs)) * m ^ 2).
      { induction (first_dev devs) as [|s l IHl]; [cbn; ring|]. cbn [map length]. rewrite !rsum_cons, IHl, S_INR. ring. } rewrite K. ring. }
    transitivity (rsum (map (fun devs => rsum (map (fun s => w * (a s - ma) ^ 2) (first_dev devs))) configs) + rsum (map (fun devs => rsum (map (fun s => w * (b s - mb) ^ 2) (first_dev devs))) configs)).
    + rewrite <- rsum_map_add. apply rsum_ext. intros devs _. rewrite <- rsum_map_add. apply rsum_ext. intros s _. ring.
    + rewrite !G. unfold part, ma, mb. ring.
Qed.

Lemma measure_devices O N rank (configs : list (list (list config))) p : (rank < length p)%nat -> same_shape configs p -> (0 < N)%nat ->
  let D := map (map (map O)) configs in
  measure_one O N rank (configs, p) = Ok [("O"%string, ([rmean (pairs D p)], [first_dev_var D p], [standard_error (first_dev_var D p) (Some N)]))].
Proof.
  intros Hr Hs HN D. unfold measure_one. cbn [fst snd]. fold D.
  rewrite (measure_ok (fun _ _ => Ok D) p (Some N) (fun _ => D) rank [("O"%string, VOp 0)] [("O"%string, [(0%nat, [])])]).
  - cbn [map fst snd]. unfold entry. cbn [map]. rewrite error_standard by (intros k Hk; now injection Hk as <-). repeat f_equal.
  - exact Hr.
  - constructor; [|constructor]. cbn. split; [reflexivity|constructor].
  - constructor; [|constructor]. cbn. constructor; [|constructor]. split; [reflexivity|]. cbn. clear -Hs. unfold D, same_shape in *. induction Hs as [|d w configs p [Hd Hl] _ IH]; constructor; [|exact IH].
    split; [destruct d; [congruence|discriminate]|]. clear -Hl. induction Hl; constructor; [now rewrite map_length|assumption].
Qed.

Lemma same_shape_weights (w : R) (configs : list (list (list config))) : Forall (fun devs => devs <> []) configs -> same_shape configs (map (map (map (fun _ => w))) configs).
Proof.
  intros H. unfold same_shape. induction H as [|devs configs H _ IH]; constructor; [|exact IH]. split; [exact H|]. clear. induction devs; constructor; [now rewrite map_length|assumption].
Qed.

Section Report.
  Variable draw : dist config.
  Hypothesis Hm : mass draw = 1.
  Variables (numSamples : Z) (d c : nat) (glob : Z).
  Let devices := Z.of_nat (S d).
  Hypotheses (Hg : forall r, snd (gen_counts r (Z.of_nat c) numSamples devices 1) = glob) (HN : (numSamples <= glob)%Z) (Hpos : (0 < numSamples)%Z)
             (Hnum : number (gen_ns numSamples 1 devices c) (S d) = IZR glob).
  Let w := gen_weight glob.
  Let ns := gen_ns numSamples 1 devices c.
  Variables (O : config -> C) (rank : nat).
  Hypothesis Hrank : (rank < c)%nat.
  Let mu : C := (E draw (fun s => Re (O s)), E draw (fun s => Im (O s))).
  Lemma glob0 : IZR glob <> 0.
  Proof. apply not_0_IZR. lia. Qed.
  Lemma dev_eq : Z.to_nat devices = S d.
  Proof. apply Nat2Z.id. Qed.

  Lemma report configs : outcome (blocks draw ns (S d)) configs ->
    let v := first_dev_var (map (map (map O)) configs) (map (map (map (fun _ => w))) configs) in
    measure_one O (Z.to_nat glob) rank (configs, map (map (map (fun _ => w))) configs) = Ok [("O"%string, ([w * tot (fun s => Re (O s)) configs], [v], [standard_error v (Some (Z.to_nat glob))]))]
    /\ Forall (fun devs => devs <> []) configs /\ w * INR (length (concat (concat configs))) = 1 /\ 0 <= v.
  Proof.
    intros Ho v. pose proof (blocks_shape draw _ _ _ ltac:(apply le_n_S, Nat.le_0_l) Ho) as HS.
    assert (HS' : Forall (fun devs : list (list config) => devs <> []) configs) by (eapply Forall_impl; [|exact HS]; intros devs L ->; discriminate L).
    assert (L : length configs = c). { apply outcome_mapD, Forall2_length in Ho. rewrite <- Ho. unfold ns, gen_ns. now rewrite map_length, seq_length. }
    split; [|split; [exact HS'|split]].
    - rewrite measure_devices; [|now rewrite map_length, L|now apply same_shape_weights|lia]. rewrite pairs_const. fold v.
      replace (rmean (map (fun s => (w, O s)) (concat (concat configs)))) with (w * tot (fun s => Re (O s)) configs); [reflexivity|]. unfold rmean. rewrite map_map, tot_flat, <- rsum_scal. reflexivity.
    - rewrite (blocks_length draw _ _ _ Ho). unfold ns. rewrite Hnum. unfold w, gen_weight. field. apply glob0.
    - unfold v, first_dev_var. apply rsum_map_nonneg. intros [x y] Hxy. cbn [fst snd]. destruct x as [|x xs]; [lra|]. destruct y as [|y ys]; [lra|].
      apply rsum_map_nonneg. intros [q z] Hq. cbn [fst snd]. apply Rmult_le_pos; [|apply Cnorm2_ge]. apply in_combine_l in Hq. apply in_combine_r, in_map_iff in Hxy as (devs & E1 & _).
      destruct devs as [|ss devs]; [discriminate E1|]. injection E1 as <- _. apply in_map_iff in Hq as (s & <- & _). unfold w, gen_weight. apply Rlt_le, Rdiv_lt_0_compat; [lra|apply IZR_lt; lia].
  Qed.

  Lemma reported_moments :
    let q := sample_gen draw numSamples 1 devices c in
    let Var := E draw (fun s => (Re (O s) - Re mu) ^ 2) + E draw (fun s => (Im (O s) - Im mu) ^ 2) in
    E q (fun q => reported_mean (measure_one O (Z.to_nat glob) rank q)) = Re mu
    /\ E q (fun q => (reported_mean (measure_one O (Z.to_nat glob) rank q) - Re mu) ^ 2) = E draw (fun s => (Re (O s) - Re mu) ^ 2) / IZR glob
    /\ E q (fun q => reported_variance (measure_one O (Z.to_nat glob) rank q)) = (1 - 1 / IZR glob) * Var / IZR devices
    /\ E q (fun q => reported_error (measure_one O (Z.to_nat glob) rank q) ^ 2) = (1 - 1 / IZR glob) * Var / IZR glob / IZR devices.
  Proof.
    intros q Var. pose proof glob0 as G0. unfold q. set (B := blocks draw ns (S d)).
    assert (SB : forall f, E (sample_gen draw numSamples 1 devices c) f = E B (fun configs => f (configs, map (map (map (fun _ => w))) configs))).
    { intros f. rewrite (sample_gen_blocks draw numSamples 1 devices c glob _ Hg). now rewrite dev_eq. }
    assert (Hnum' : number (gen_ns numSamples 1 devices c) (Z.to_nat devices) = IZR glob) by (now rewrite dev_eq).
    split; [|split].
    - change (Re mu) with (E draw (fun s => Re (O s))). rewrite <- (estimate_mean draw Hm numSamples devices c glob Hg HN Hpos Hnum' (fun s => Re (O s))). rewrite !SB. apply E_ext. intros configs Ho.
      destruct (report configs Ho) as (R & _). cbv zeta in R. rewrite R. cbn [reported_mean]. unfold w. now rewrite estimate_blocks.
    - change (Re mu) with (E draw (fun s => Re (O s))). rewrite <- (estimate_square draw Hm numSamples devices c glob Hg HN Hpos Hnum' (fun s => Re (O s))). rewrite !SB. apply E_ext. intros configs Ho.
      destruct (report configs Ho) as (R & _). cbv zeta in R. rewrite R. cbn [reported_mean]. unfold w. now rewrite estimate_blocks.
    - assert (D0 : IZR devices <> 0) by (apply not_0_IZR; unfold devices; lia).
      assert (N1 : number1 ns = IZR glob / IZR devices). { rewrite <- Hnum. fold ns. rewrite number_first. unfold devices. rewrite <- INR_IZR_INZ. field. apply not_0_INR. discriminate. }
      assert (ID : INR d = IZR devices - 1) by (unfold devices; rewrite <- INR_IZR_INZ, S_INR; ring).
      assert (V : E (sample_gen draw numSamples 1 devices c) (fun q0 => reported_variance (measure_one O (Z.to_nat glob) rank q0)) = (1 - 1 / IZR glob) * Var / IZR devices).
      { rewrite SB. set (a := fun s => Re (O s) - Re mu). set (b := fun s => Im (O s) - Im mu).
        set (part := fun (g : config -> R) configs => w * tot1 (fun s => g s ^ 2) configs + (- w ^ 2 * (1 * tot1 g configs + 1 * tot g configs) ^ 2 + (w ^ 2 * (1 * tot1 g configs + 0 * tot g configs) ^ 2
                + (w ^ 2 + w ^ 3 * number1 ns) * (0 * tot1 g configs + 1 * tot g configs) ^ 2))).
        transitivity (E B (fun configs => part a configs + part b configs)).
        - apply E_ext. intros configs Ho. destruct (report configs Ho) as (R & Hne & L & _). cbv zeta in R. rewrite R. cbn [reported_variance].
          pose proof (first_var O w mu configs (number1 ns) Hne L (first_length draw ns d configs Ho)) as FV. cbv zeta in FV. rewrite FV. clear FV. unfold part, a, b. ring.
        - assert (P : forall g, E draw g = 0 -> E B (part g) = (1 - 1 / IZR glob) * E draw (fun s => g s ^ 2) / IZR devices).
          { intros g Hz. unfold part, B. rewrite !E_add, !E_scal, first_mean, !first_square by assumption. rewrite N1, ID. unfold w, gen_weight. field. now split. }
          rewrite E_add. change (E B (fun a0 => part a a0)) with (E B (part a)). change (E B (fun a0 => part b a0)) with (E B (part b)). rewrite !P.
          + unfold Var. change (fun s => (Re (O s) - Re mu) ^ 2) with (fun s => a s ^ 2). change (fun s => (Im (O s) - Im mu) ^ 2) with (fun s => b s ^ 2). field. now split.
          + exact (centred draw Hm (fun s => Im (O s))).
          + exact (centred draw Hm (fun s => Re (O s))). }
      split; [exact V|]. replace ((1 - 1 / IZR glob) * Var / IZR glob / IZR devices) with (/ IZR glob * ((1 - 1 / IZR glob) * Var / IZR devices)) by (field; now split). rewrite <- V, <- E_scal. rewrite !SB. apply E_ext. intros configs Ho.
      destruct (report configs Ho) as (R & _ & _ & NV). cbv zeta in R, NV. rewrite R. cbn [reported_variance reported_error standard_error]. rewrite INR_IZR_INZ, Z2Nat.id by lia.
      rewrite <- Rsqr_pow2, Rsqr_sqrt; [unfold Rdiv; ring|]. apply Rmult_le_pos; [exact NV|]. apply Rlt_le, Rinv_0_lt_compat, IZR_lt. lia.
  Qed.
  Lemma always_reported q : outcome (sample_gen draw numSamples 1 devices c) q -> complete_report (measure_one O (Z.to_nat glob) rank q).
  Proof.
    intros Ho. assert (HB : exists configs, outcome (blocks draw ns (S d)) configs /\ q = (configs, map (map (map (fun _ => w))) configs)).
    { unfold sample_gen in Ho. apply outcome_bind in Ho as (r & Hr & Ho). apply outcome_ret in Ho. subst q. rewrite dev_eq in Hr. unfold ns, gen_ns. apply outcome_mapD in Hr. exists (map fst r). clear -Hr Hg. unfold blocks.
      revert Hr. generalize (seq 0 c). intros l Hr. split.
      - clear Hg. induction Hr as [|rk x l r H _ IH]; [cbn; now apply outcome_ret|]. cbn [map mapD]. apply outcome_bind in H as (configs & Hc & H). apply outcome_ret in H. subst x. apply outcome_bind. exists configs. split; [exact Hc|].
        apply outcome_bind. exists (map fst r). split; [exact IH|]. now apply outcome_ret.
      - f_equal. induction Hr as [|rk x l r H _ IH]; [reflexivity|]. cbn [map]. rewrite IH. f_equal. apply outcome_bind in H as (configs & Hc & H). apply outcome_ret in H. subst x. cbn [fst snd]. now rewrite Hg. }
    destruct HB as (configs & HB & ->). destruct (report configs HB) as (R & _). cbv zeta in R. rewrite R. repeat eexists.
  Qed.
End Report.
