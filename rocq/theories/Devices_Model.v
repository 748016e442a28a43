(** Model of the device selection: /repo/jVMC/global_defs.py 15-54 and the caches of compiled functions
    in mpi_wrapper.py 27-50 and stats.py 14-48.  A compiled function is modelled by the list of devices
    that is bound in its [jax.pmap].  Not modelled: a change made in place to the list returned by
    [devices()]. *)
From Coq Require Import List Arith Bool.
From Verif Require Import Base.
Import ListNotations.

(** a jax device, global_defs.py 16 *)
Definition device := nat.

(** the global variables of global_defs.py 16-23, mpi_wrapper.py 27-32 (the helpers of that module are
    always assigned together, 44-48) and stats.py 14-26 *)
Record gstate := mk_g {
  g_myDevice : device;
  g_myPmapDevices : list device;
  g_myDeviceCount : nat;
  g_pmap : list device;                (* devices bound in pmap_for_my_devices *)
  g_mpiDevices : option (list device); (* mpi_wrapper.mpiPmapDevices *)
  g_mpiHelper : option (list device);  (* devices of the functions compiled in mpi_wrapper *)
  g_statsDevices : option (list device);
  g_statsHelper : option (list device) }.

(** importing the package, global_defs.py 15-23; [all] is [jax.devices()] *)
Definition g_import (rank : nat) (all : list device) : result gstate :=
  match nth_error all (rank mod length all) with
  | Some d => Ok (mk_g d all (length all) all None None None None)
  | None => Err IndexError
  end.

(** equality of two [collections.Counter], global_defs.py 26 *)
Definition counter_eqb (a b : list device) : bool :=
  forallb (fun d => Nat.eqb (count_occ Nat.eq_dec a d) (count_occ Nat.eq_dec b d)) (a ++ b).

(** [pmap_devices_updated], global_defs.py 25-28; [Counter(None)] is empty *)
Definition pmap_devices_updated (st : gstate) (pmapDevices : option (list device)) : bool :=
  negb (counter_eqb (match pmapDevices with Some l => l | None => [] end) (g_myPmapDevices st)).

(** argument of [set_pmap_devices]: one device or an iterable, global_defs.py 31-35 *)
Inductive selection := One (d : device) | Several (ds : list device).
(** [list(get_iterable(devices))], global_defs.py 39 *)
Definition get_iterable (s : selection) : list device :=
  match s with One d => [d] | Several ds => ds end.

(** [set_pmap_devices], global_defs.py 38-46.  In line 46 [myDevice] is a local variable. *)
Definition set_pmap_devices (s : selection) (st : gstate) : gstate * result unit :=
  let devices := get_iterable s in
  let st1 := mk_g (g_myDevice st) devices (length devices) devices
                  (g_mpiDevices st) (g_mpiHelper st) (g_statsDevices st) (g_statsHelper st) in
  match devices with
  | [] => (st1, Err IndexError)
  | _ :: _ => (st1, Ok tt)
  end.

(** [device_count], [devices], global_defs.py 49-54 *)
Definition device_count (st : gstate) : nat := length (g_myPmapDevices st).
(** global_defs.py 53-54 *)
Definition devices (st : gstate) : list device := g_myPmapDevices st.

(** [jit_my_stuff], mpi_wrapper.py 33-50 *)
Definition mpi_jit (st : gstate) : gstate :=
  if pmap_devices_updated st (g_mpiDevices st)
  then mk_g (g_myDevice st) (g_myPmapDevices st) (g_myDeviceCount st) (g_pmap st)
            (Some (g_myPmapDevices st)) (Some (g_pmap st)) (g_statsDevices st) (g_statsHelper st)
  else st.

(** [jit_my_stuff], stats.py 28-87 *)
Definition stats_jit (st : gstate) : gstate :=
  if pmap_devices_updated st (g_statsDevices st)
  then mk_g (g_myDevice st) (g_myPmapDevices st) (g_myDeviceCount st) (g_pmap st)
            (g_mpiDevices st) (g_mpiHelper st) (Some (g_myPmapDevices st)) (Some (g_pmap st))
  else st.

(** calling a compiled function: [None] is not callable, [jax.pmap] refuses an empty list of devices;
    mpi_wrapper.py 135, 174, 203, 243, stats.py 196-330 *)
Definition run_helper (h : option (list device)) : result (list device) :=
  match h with
  | None => Err TypeError
  | Some [] => Err ValueError
  | Some ds => Ok ds
  end.

(** [global_sum], [global_mean], [global_variance], [global_covariance], mpi_wrapper.py 114-243: the
    devices on which the compiled function runs and the device on which the result is placed (147, 217) *)
Definition mpi_call (st : gstate) : gstate * result (list device * device) :=
  let st1 := mpi_jit st in
  (st1, do ds <- run_helper (g_mpiHelper st1); Ok (ds, g_myDevice st1)).

(** creation of a [SampledObs], stats.py 147-194 *)
Definition stats_call (st : gstate) : gstate * result (list device) :=
  let st1 := stats_jit st in (st1, run_helper (g_statsHelper st1)).

(** methods of a [SampledObs] that exists already (stats.py 196-330) call the module's functions, which
    are the ones compiled last *)
Definition stats_use (st : gstate) : result (list device) := run_helper (g_statsHelper st).

(** objects that compile their functions in the constructor: vqs.py 177-181, sampler.py 401-404,
    operator/base.py 71-86, operator/povm.py 252-259, util/tdvp.py 94, util/minsr.py 42; the object is
    represented by the devices of these functions *)
Definition new_object (st : gstate) : list device := g_pmap st.
(** calling a method of such an object *)
Definition use_object (o : list device) : result (list device) := run_helper (Some o).

(** one event of a session, global_defs.py 38, mpi_wrapper.py 114-243, stats.py 147-194 *)
Inductive event := Select (s : selection) | MpiCall | StatsCall.
(** its effect on the global variables; exceptions are caught by the caller *)
Definition step (e : event) (st : gstate) : gstate :=
  match e with
  | Select s => fst (set_pmap_devices s st)
  | MpiCall => fst (mpi_call st)
  | StatsCall => fst (stats_call st)
  end.
(** a session: the events in order *)
Definition session (es : list event) (st : gstate) : gstate := fold_left (fun s e => step e s) es st.
