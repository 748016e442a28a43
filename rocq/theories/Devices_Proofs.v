From Coq Require Import List Arith Bool Permutation Lia.
From Verif Require Import Base Devices_Model Devices_Spec.
Import ListNotations.

Lemma counter_eqb_spec a b : counter_eqb a b = true <-> Permutation a b.
Proof.
  unfold counter_eqb. rewrite forallb_forall, (Permutation_count_occ Nat.eq_dec). split.
  - intros H x. destruct (in_dec Nat.eq_dec x (a ++ b)) as [Hin|Hout].
    + apply Nat.eqb_eq, H, Hin.
    + rewrite in_app_iff in Hout.
      rewrite !(proj1 (count_occ_not_In Nat.eq_dec _ x)) by tauto. reflexivity.
  - intros H x _. apply Nat.eqb_eq, H.
Qed.

Lemma names_get s ds : names_devices s ds <-> get_iterable s = ds.
Proof. split; [now destruct 1|]. intros <-. destruct s; constructor. Qed.

Lemma session_app es1 es2 st : session (es1 ++ es2) st = session es2 (session es1 st).
Proof. unfold session. apply fold_left_app. Qed.

Lemma selected_nil all ds : selected all [] ds -> ds = all.
Proof.
  intros H. inversion H as [|es1 s ds' es2 Hn Hl E]; subst; [reflexivity|].
  destruct es1; discriminate.
Qed.

Lemma selected_snoc all es e ds : selected all (es ++ [e]) ds ->
  match e with Select s => get_iterable s = ds | _ => selected all es ds end.
Proof.
  intros H. remember (es ++ [e]) as l eqn:E. destruct H as [l Hn|es1 s ds es2 Hs Hl].
  - subst l. assert (forall s, ~ In (Select s) es) as Hn' by (intros s Hs; apply (Hn s), in_or_app; now left).
    destruct e as [s| |]; [|now constructor|now constructor].
    exfalso. apply (Hn s), in_or_app. right. now left.
  - destruct (@exists_last _ (Select s :: es2) ltac:(discriminate)) as (l & e' & El).
    rewrite El, app_assoc in E. apply app_inj_tail in E as [E ->].
    destruct es2 as [|x es2].
    + destruct l; [|destruct l; discriminate]. injection El as <-. now apply names_get.
    + destruct l as [|y l]; [destruct es2; discriminate|]. injection El as <- El.
      assert (forall s', ~ In (Select s') l) as Hl'.
      { intros s' Hs'. apply (Hl s'). rewrite El. apply in_or_app. now left. }
      destruct e as [s'| |].
      * exfalso. apply (Hl s'). rewrite El. apply in_or_app. right. now left.
      * subst es. now constructor.
      * subst es. now constructor.
Qed.

Lemma selected_total all es : exists ds, selected all es ds.
Proof.
  induction es as [|e es IH] using rev_ind; [exists all; constructor; firstorder|].
  destruct e as [s| |].
  - exists (get_iterable s). apply (sel_last all es s _ []); [now apply names_get|firstorder].
  - destruct IH as [ds [es' Hn|es1 s ds' es2 Hs Hl]].
    + eexists. apply sel_none. intros s Hs. apply in_app_or in Hs as [Hs|[Hs|[]]]; [firstorder|discriminate].
    + exists ds'. rewrite <- app_assoc. cbn. apply sel_last; [assumption|].
      intros s' Hs'. apply in_app_or in Hs' as [Hs'|[Hs'|[]]]; [firstorder|discriminate].
  - destruct IH as [ds [es' Hn|es1 s ds' es2 Hs Hl]].
    + eexists. apply sel_none. intros s Hs. apply in_app_or in Hs as [Hs|[Hs|[]]]; [firstorder|discriminate].
    + exists ds'. rewrite <- app_assoc. cbn. apply sel_last; [assumption|].
      intros s' Hs'. apply in_app_or in Hs' as [Hs'|[Hs'|[]]]; [firstorder|discriminate].
Qed.

(** the invariant of a session *)
Record inv (d0 : device) (ds : list device) (st : gstate) : Prop := {
  i_my : g_myDevice st = d0;
  i_devs : g_myPmapDevices st = ds;
  i_count : g_myDeviceCount st = length ds;
  i_pmap : g_pmap st = ds;
  i_mpi : g_mpiHelper st = g_mpiDevices st;
  i_stats : g_statsHelper st = g_statsDevices st }.

Lemma inv_step d0 ds st e : inv d0 ds st ->
  inv d0 (match e with Select s => get_iterable s | _ => ds end) (step e st).
Proof.
  intros [H1 H2 H3 H4 H5 H6]. destruct e as [s| |]; cbn.
  - unfold set_pmap_devices. destruct (get_iterable s); constructor; cbn; auto.
  - unfold mpi_jit. destruct (pmap_devices_updated _ _); constructor; cbn; congruence.
  - unfold stats_jit. destruct (pmap_devices_updated _ _); constructor; cbn; congruence.
Qed.

Lemma import_inv rank all st0 : g_import rank all = Ok st0 ->
  inv (g_myDevice st0) all st0 /\ nth_error all (rank mod length all) = Some (g_myDevice st0)
  /\ g_mpiHelper st0 = None /\ g_statsHelper st0 = None.
Proof.
  unfold g_import. destruct (nth_error _ _) as [d|] eqn:E; [|discriminate].
  intros H. injection H as <-. cbn. repeat split; auto.
Qed.

Lemma session_inv rank all st0 es ds : g_import rank all = Ok st0 -> selected all es ds ->
  inv (g_myDevice st0) ds (session es st0).
Proof.
  intros H0. apply import_inv in H0 as [H0 _]. revert ds.
  induction es as [|e es IH] using rev_ind; intros ds Hs.
  - apply selected_nil in Hs as ->. exact H0.
  - rewrite session_app. cbn. apply selected_snoc in Hs.
    destruct e as [s| |].
    + destruct (selected_total all es) as (ds1 & Hds1). subst ds.
      exact (inv_step _ _ _ (Select s) (IH _ Hds1)).
    + exact (inv_step _ _ _ MpiCall (IH _ Hs)).
    + exact (inv_step _ _ _ StatsCall (IH _ Hs)).
Qed.

Lemma selected_nonempty all es ds : all <> [] -> non_empty es -> selected all es ds -> ds <> [].
Proof.
  intros Ha Hn H. destruct H as [|es1 s ds es2 Hs _]; [assumption|].
  destruct Hs; [discriminate|]. intros ->. apply Hn. apply in_or_app. right. now left.
Qed.

Lemma import_nonempty rank all st0 : g_import rank all = Ok st0 -> all <> [].
Proof. unfold g_import. intros H ->. destruct (rank mod @length device []); discriminate. Qed.

Lemma updated_spec st o :
  pmap_devices_updated st o = false <-> Permutation (match o with Some l => l | None => [] end) (g_myPmapDevices st).
Proof. unfold pmap_devices_updated. rewrite negb_false_iff. apply counter_eqb_spec. Qed.

(** the compiled functions of a module after its jit_my_stuff *)
Lemma run_ok ds : ds <> [] -> run_helper (Some ds) = Ok ds.
Proof. now destruct ds. Qed.

Lemma mpi_perm rank all st0 es ds :
  g_import rank all = Ok st0 -> non_empty es -> selected all es ds ->
  exists ran, snd (mpi_call (session es st0)) = Ok (ran, g_myDevice st0) /\ Permutation ran ds.
Proof.
  intros H0 Hn Hs. pose proof (session_inv _ _ _ _ _ H0 Hs) as [H1 H2 H3 H4 H5 H6].
  pose proof (selected_nonempty _ _ _ (import_nonempty _ _ _ H0) Hn Hs) as Hne.
  unfold mpi_call, mpi_jit. cbn [snd].
  destruct (pmap_devices_updated _ _) eqn:E; cbn [g_mpiHelper g_myDevice].
  - exists ds. rewrite H4, run_ok by assumption. cbn. now rewrite H1.
  - apply updated_spec in E. rewrite H2 in E. rewrite H5.
    destruct (g_mpiDevices _) as [l|].
    + exists l. rewrite run_ok, H1; [now split|]. intros ->. apply Permutation_nil in E. contradiction.
    + apply Permutation_nil in E. contradiction.
Qed.

Lemma stats_perm rank all st0 es ds :
  g_import rank all = Ok st0 -> non_empty es -> selected all es ds ->
  exists ran, snd (stats_call (session es st0)) = Ok ran /\ Permutation ran ds.
Proof.
  intros H0 Hn Hs. pose proof (session_inv _ _ _ _ _ H0 Hs) as [H1 H2 H3 H4 H5 H6].
  pose proof (selected_nonempty _ _ _ (import_nonempty _ _ _ H0) Hn Hs) as Hne.
  unfold stats_call, stats_jit. cbn [snd].
  destruct (pmap_devices_updated _ _) eqn:E; cbn [g_statsHelper].
  - exists ds. rewrite H4, run_ok by assumption. now split.
  - apply updated_spec in E. rewrite H2 in E. rewrite H6.
    destruct (g_statsDevices _) as [l|].
    + exists l. rewrite run_ok; [now split|]. intros ->. apply Permutation_nil in E. contradiction.
    + apply Permutation_nil in E. contradiction.
Qed.

(** the cached list of a module changes only in its own calls *)
Lemma mpi_frame es st : ~ In MpiCall es -> g_mpiHelper (session es st) = g_mpiHelper st.
Proof.
  revert st. induction es as [|e es IH]; intros st H; [reflexivity|].
  cbn. fold (session es (step e st)). rewrite IH by (intros K; apply H; now right).
  destruct e as [s| |]; cbn.
  - unfold set_pmap_devices. now destruct (get_iterable s).
  - exfalso. apply H. now left.
  - unfold stats_jit. now destruct (pmap_devices_updated _ _).
Qed.
Lemma stats_frame es st : ~ In StatsCall es -> g_statsHelper (session es st) = g_statsHelper st.
Proof.
  revert st. induction es as [|e es IH]; intros st H; [reflexivity|].
  cbn. fold (session es (step e st)). rewrite IH by (intros K; apply H; now right).
  destruct e as [s| |]; cbn.
  - unfold set_pmap_devices. now destruct (get_iterable s).
  - unfold mpi_jit. now destruct (pmap_devices_updated _ _).
  - exfalso. apply H. now left.
Qed.

Lemma mpi_exact rank all st0 es ds :
  g_import rank all = Ok st0 -> non_empty es -> selected all es ds ->
  (forall ran, g_mpiHelper (session es st0) = Some ran -> ~ Permutation ran ds) ->
  snd (mpi_call (session es st0)) = Ok (ds, g_myDevice st0).
Proof.
  intros H0 Hn Hs Hc. pose proof (session_inv _ _ _ _ _ H0 Hs) as [H1 H2 H3 H4 H5 H6].
  pose proof (selected_nonempty _ _ _ (import_nonempty _ _ _ H0) Hn Hs) as Hne.
  unfold mpi_call, mpi_jit. cbn [snd].
  destruct (pmap_devices_updated _ _) eqn:E; cbn [g_mpiHelper g_myDevice].
  - rewrite H4, run_ok by assumption. cbn. now rewrite H1.
  - exfalso. apply updated_spec in E. rewrite H2 in E. rewrite H5 in Hc.
    destruct (g_mpiDevices _) as [l|]; [exact (Hc l eq_refl E)|]. apply Permutation_nil in E. contradiction.
Qed.
Lemma stats_exact rank all st0 es ds :
  g_import rank all = Ok st0 -> non_empty es -> selected all es ds ->
  (forall ran, g_statsHelper (session es st0) = Some ran -> ~ Permutation ran ds) ->
  snd (stats_call (session es st0)) = Ok ds.
Proof.
  intros H0 Hn Hs Hc. pose proof (session_inv _ _ _ _ _ H0 Hs) as [H1 H2 H3 H4 H5 H6].
  pose proof (selected_nonempty _ _ _ (import_nonempty _ _ _ H0) Hn Hs) as Hne.
  unfold stats_call, stats_jit. cbn [snd].
  destruct (pmap_devices_updated _ _) eqn:E; cbn [g_statsHelper].
  - rewrite H4, run_ok by assumption. reflexivity.
  - exfalso. apply updated_spec in E. rewrite H2 in E. rewrite H6 in Hc.
    destruct (g_statsDevices _) as [l|]; [exact (Hc l eq_refl E)|]. apply Permutation_nil in E. contradiction.
Qed.

(** the devices on which a module ran in its last call are what it has cached *)
Lemma mpi_ran st ran d : snd (mpi_call st) = Ok (ran, d) -> g_mpiHelper (fst (mpi_call st)) = Some ran.
Proof.
  unfold mpi_call. cbn [fst snd]. destruct (g_mpiHelper (mpi_jit st)) as [[|x l]|]; cbn; try discriminate.
  intros H. now injection H as <- _.
Qed.
Lemma stats_ran st ran : snd (stats_call st) = Ok ran -> g_statsHelper (fst (stats_call st)) = Some ran.
Proof.
  unfold stats_call. cbn [fst snd]. destruct (g_statsHelper (stats_jit st)) as [[|x l]|]; cbn; try discriminate.
  intros H. now injection H as <-.
Qed.

Lemma non_empty_app es1 es2 : non_empty (es1 ++ es2) -> non_empty es1 /\ non_empty es2.
Proof. unfold non_empty. rewrite in_app_iff. tauto. Qed.

Lemma mpi_changed rank all st0 es1 ds1 es2 ds2 :
  g_import rank all = Ok st0 -> non_empty (es1 ++ MpiCall :: es2) -> ~ In MpiCall es2 ->
  selected all es1 ds1 -> selected all (es1 ++ MpiCall :: es2) ds2 -> ~ Permutation ds1 ds2 ->
  snd (mpi_call (session (es1 ++ MpiCall :: es2) st0)) = Ok (ds2, g_myDevice st0).
Proof.
  intros H0 Hn Hm Hs1 Hs2 Hp. apply (mpi_exact rank all); try assumption.
  intros ran Hran P. apply Hp.
  rewrite session_app in Hran. cbn in Hran. fold (session es2 (mpi_jit (session es1 st0))) in Hran.
  rewrite mpi_frame in Hran by assumption.
  destruct (mpi_perm _ _ _ _ _ H0 (proj1 (non_empty_app _ _ Hn)) Hs1) as (ran1 & R1 & P1).
  apply mpi_ran in R1. cbn [mpi_call fst] in R1. rewrite R1 in Hran. injection Hran as <-.
  now rewrite <- P1.
Qed.
Lemma stats_changed rank all st0 es1 ds1 es2 ds2 :
  g_import rank all = Ok st0 -> non_empty (es1 ++ StatsCall :: es2) -> ~ In StatsCall es2 ->
  selected all es1 ds1 -> selected all (es1 ++ StatsCall :: es2) ds2 -> ~ Permutation ds1 ds2 ->
  snd (stats_call (session (es1 ++ StatsCall :: es2) st0)) = Ok ds2.
Proof.
  intros H0 Hn Hm Hs1 Hs2 Hp. apply (stats_exact rank all); try assumption.
  intros ran Hran P. apply Hp.
  rewrite session_app in Hran. cbn in Hran. fold (session es2 (stats_jit (session es1 st0))) in Hran.
  rewrite stats_frame in Hran by assumption.
  destruct (stats_perm _ _ _ _ _ H0 (proj1 (non_empty_app _ _ Hn)) Hs1) as (ran1 & R1 & P1).
  apply stats_ran in R1. cbn [stats_call fst] in R1. rewrite R1 in Hran. injection Hran as <-.
  now rewrite <- P1.
Qed.
