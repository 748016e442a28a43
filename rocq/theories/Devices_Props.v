(** Properties of the device selection: C64. *)
From Coq Require Import List Arith Bool Permutation Lia.
From Verif Require Import Base Devices_Model Devices_Spec Devices_Proofs.
Import ListNotations.

(** a machine with four devices *)
Definition four : list device := [0; 1; 2; 3].
Definition at_start : gstate := mk_g 1 four 4 four None None None None.
Lemma at_start_import : g_import 1 four = Ok at_start. Proof. reflexivity. Qed.

Ltac noselect := let H := fresh in intros ? H; cbn in H; repeat (destruct H as [H|H]; [discriminate|]); contradiction.
Ltac nonempty := let H := fresh in intros H; cbn in H; repeat (destruct H as [H|H]; [discriminate|]); contradiction.

(** C64 (part). After any sequence of selections and collective calls, [devices()] is the last selection,
    [device_count()] its length, and objects built now are bound to it. *)
Theorem C64_selection_partial :
  forall rank all st0 es ds, g_import rank all = Ok st0 -> selected all es ds ->
  devices (session es st0) = ds /\ device_count (session es st0) = length ds
  /\ g_myDeviceCount (session es st0) = length ds /\ new_object (session es st0) = ds.
Proof.
  intros rank all st0 es ds H0 Hs. destruct (session_inv _ _ _ _ _ H0 Hs) as [_ H2 H3 H4 _ _].
  unfold devices, device_count, new_object. rewrite H2, H3, H4. repeat split; reflexivity.
Qed.
Print Assumptions C64_selection_partial.

(** C64 (part). The collective operations of mpi_wrapper and the creation of SampledObs run on the
    selected devices, up to their order.  Missing: the order, and [myDevice] (refuted below). *)
Theorem C64_collectives_partial :
  forall rank all st0 es ds,
  g_import rank all = Ok st0 -> non_empty es -> selected all es ds ->
  (exists ran d, snd (mpi_call (session es st0)) = Ok (ran, d) /\ Permutation ran ds)
  /\ (exists ran, snd (stats_call (session es st0)) = Ok ran /\ Permutation ran ds).
Proof.
  intros rank all st0 es ds H0 Hn Hs. split; [|exact (stats_perm _ _ _ _ _ H0 Hn Hs)].
  destruct (mpi_perm _ _ _ _ _ H0 Hn Hs) as (ran & H & P). now exists ran, (g_myDevice st0).
Qed.
Print Assumptions C64_collectives_partial.

(** C64 (part). The first call of a module, and a call after the selection has changed as a multiset since
    the module's previous call, run on exactly the selected list. *)
Theorem C64_first_call_partial :
  forall rank all st0 es ds,
  g_import rank all = Ok st0 -> non_empty es -> selected all es ds ->
  (~ In MpiCall es -> exists d, snd (mpi_call (session es st0)) = Ok (ds, d))
  /\ (~ In StatsCall es -> snd (stats_call (session es st0)) = Ok ds).
Proof.
  intros rank all st0 es ds H0 Hn Hs. destruct (import_inv _ _ _ H0) as (_ & _ & Hm & Ht).
  split; intros Hc.
  - exists (g_myDevice st0). apply (mpi_exact rank all); try assumption.
    rewrite mpi_frame, Hm by assumption. discriminate.
  - apply (stats_exact rank all); try assumption. rewrite stats_frame, Ht by assumption. discriminate.
Qed.
Print Assumptions C64_first_call_partial.

Theorem C64_changed_partial :
  forall rank all st0 es1 ds1 es2 ds2, g_import rank all = Ok st0 ->
  selected all es1 ds1 -> ~ Permutation ds1 ds2 ->
  (non_empty (es1 ++ MpiCall :: es2) -> ~ In MpiCall es2 -> selected all (es1 ++ MpiCall :: es2) ds2 ->
     exists d, snd (mpi_call (session (es1 ++ MpiCall :: es2) st0)) = Ok (ds2, d))
  /\ (non_empty (es1 ++ StatsCall :: es2) -> ~ In StatsCall es2 -> selected all (es1 ++ StatsCall :: es2) ds2 ->
     snd (stats_call (session (es1 ++ StatsCall :: es2) st0)) = Ok ds2).
Proof.
  intros rank all st0 es1 ds1 es2 ds2 H0 Hs1 Hp. split; intros Hn Hc Hs2.
  - exists (g_myDevice st0). now apply (mpi_changed rank all _ _ ds1).
  - now apply (stats_changed rank all _ _ ds1).
Qed.
Print Assumptions C64_changed_partial.

(** select two devices, reduce, select one other device, reduce *)
Example C64_case :
  let es1 := [Select (Several [2; 0])] in let es2 := [Select (One 3); StatsCall] in
  let es := es1 ++ MpiCall :: es2 in
  g_import 1 four = Ok at_start /\ non_empty es /\ selected four es1 [2; 0] /\ selected four es [3]
  /\ ~ Permutation [2; 0] [3] /\ ~ In MpiCall es2
  /\ snd (mpi_call (session es1 at_start)) = Ok ([2; 0], 1)
  /\ snd (mpi_call (session es at_start)) = Ok ([3], 1).
Proof.
  cbv zeta. split; [reflexivity|]. split; [nonempty|].
  split; [apply (sel_last four [] (Several [2; 0]) [2; 0] []); [constructor|noselect]|].
  split; [apply (sel_last four [Select (Several [2; 0]); MpiCall] (One 3) [3] [StatsCall]); [constructor|noselect]|].
  split; [intros P; apply Permutation_length in P; discriminate|].
  split; [nonempty|]. split; reflexivity.
Qed.

(** C64 (finding). [set_pmap_devices] assigns a local variable instead of [myDevice]: in no session does
    [myDevice] ever change. *)
Theorem C64_mydevice_constant_refuted :
  forall rank all st0 es, g_import rank all = Ok st0 ->
  nth_error all (rank mod length all) = Some (g_myDevice (session es st0)).
Proof.
  intros rank all st0 es H0. destruct (selected_total all es) as (ds & Hs).
  rewrite (i_my _ _ _ (session_inv _ _ _ _ _ H0 Hs)). apply (import_inv _ _ _ H0).
Qed.
Print Assumptions C64_mydevice_constant_refuted.

(** C64 (finding). After selecting device 2, [myDevice] is still 1, and the results of collective operations
    are placed on device 1, which is not selected. *)
Theorem C64_mydevice_refuted :
  exists rank all st0 es ds ran d,
    g_import rank all = Ok st0 /\ non_empty es /\ selected all es ds /\ incl ds all
    /\ Some (g_myDevice (session es st0)) <> hd_error ds
    /\ snd (mpi_call (session es st0)) = Ok (ran, d) /\ ~ In d ds.
Proof.
  exists 1, four, at_start, [Select (Several [2; 3])], [2; 3], [2; 3], 1.
  split; [reflexivity|]. split; [nonempty|].
  split; [apply (sel_last four [] (Several [2; 3]) [2; 3] []); [constructor|noselect]|].
  split; [intros x [<-|[<-|[]]]; cbn; tauto|].
  split; [discriminate|]. split; [reflexivity|]. cbn. intros [H|[H|[]]]; discriminate.
Qed.
Print Assumptions C64_mydevice_refuted.

(** C64 (finding). Selecting the same devices in another order does not reach functions compiled before:
    the cached functions run on the old order, functions compiled now on the new one. *)
Theorem C64_order_refuted :
  exists rank all st0 es ds ran d,
    g_import rank all = Ok st0 /\ non_empty es /\ selected all es ds
    /\ snd (mpi_call (session es st0)) = Ok (ran, d) /\ ran <> ds
    /\ snd (stats_call (session es st0)) = Ok ds.
Proof.
  exists 1, four, at_start, [Select (Several [0; 1]); MpiCall; Select (Several [1; 0])], [1; 0], [0; 1], 1.
  split; [reflexivity|]. split; [nonempty|].
  split; [apply (sel_last four [Select (Several [0; 1]); MpiCall] (Several [1; 0]) [1; 0] []); [constructor|noselect]|].
  split; [reflexivity|]. split; [discriminate|reflexivity].
Qed.
Print Assumptions C64_order_refuted.

(** C64 (finding). An object (network state, sampler, operator, ...) built before a selection keeps running
    on the devices selected when it was built; the methods of an existing SampledObs run on the devices
    selected when some SampledObs was created last. *)
Theorem C64_objects_refuted :
  exists rank all st0 es1 es2 ds, g_import rank all = Ok st0 /\ selected all (es1 ++ es2) ds
    /\ (exists ran, use_object (new_object (session es1 st0)) = Ok ran /\ forall d, In d ran -> ~ In d ds)
    /\ (exists ran, stats_use (session (es1 ++ es2) st0) = Ok ran /\ forall d, In d ran -> ~ In d ds).
Proof.
  exists 1, four, at_start, [Select (Several [0; 1]); StatsCall], [Select (Several [2; 3])], [2; 3].
  split; [reflexivity|].
  split; [apply (sel_last four [Select (Several [0; 1]); StatsCall] (Several [2; 3]) [2; 3] []); [constructor|noselect]|].
  split; exists [0; 1]; (split; [reflexivity|]);
    intros d H H'; cbn in *; repeat (destruct H as [<-|H]; [repeat (destruct H' as [H'|H']; [discriminate|]); contradiction|]); contradiction.
Qed.
Print Assumptions C64_objects_refuted.

(** C64 (finding). Selecting no device raises IndexError, but the selection takes effect nevertheless. *)
Theorem C64_empty_selection_refuted :
  exists rank all st0, g_import rank all = Ok st0
    /\ snd (set_pmap_devices (Several []) st0) = Err IndexError
    /\ devices st0 <> [] /\ devices (fst (set_pmap_devices (Several []) st0)) = [].
Proof. exists 1, four, at_start. repeat split. discriminate. Qed.
Print Assumptions C64_empty_selection_refuted.
