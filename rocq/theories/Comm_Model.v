(** Model of the accounting of communication times: jVMC/mpi_wrapper.py 15-17, 114-147, 150-174, 177-217, 220-243, 246-299,
    and of the timings that evaluations of TDVP and MinSR record (tdvp.py 256-326, minsr.py 114-158).

    One process.  Values are left out (areas Mpi, Tdvp and Minsr have them): an activity is described by how long its parts
    take.  Simplified: seconds are real numbers; reading the clock, adding numbers and keeping dictionaries takes no time;
    nothing raises an exception. *)
From Coq Require Import String List Reals.
From Verif Require Import Base Output_Model.
Import ListNotations.
Local Open Scope R_scope.
Local Open Scope string_scope.

(** a process: time.perf_counter(), mpi_wrapper.py 17 (communicationTime), and self.timings of the numbered output managers
    (output_manager.py 22) *)
Record process := mk_process { clock : R; communicationTime : R; managers : nat -> timings }.

(** time passes without a record, e.g. mpi_wrapper.py 131 *)
Definition pass (d : R) (p : process) : process := mk_process (clock p + d) (communicationTime p) (managers p).
(** mpi_wrapper.py 143-144 and 214-215; [t0]: reading of the clock in line 132 or 208 *)
Definition account (t0 : R) (p : process) : process :=
  mk_process (clock p) (communicationTime p + (clock p - t0)) (managers p).

(** mpi_wrapper.py 114-147.  [block]: line 131; [local]: lines 135-138; [reduce]: line 141 *)
Definition global_sum (block local reduce : R) (p : process) : process :=
  let p := pass block p in
  let t0 := clock p in
  let p := pass local p in
  let p := pass reduce p in
  account t0 p.
(** mpi_wrapper.py 150-174, and 220-243 with the other helper; [helper]: mean_helper or cov_helper *)
Definition global_mean (helper block local reduce : R) (p : process) : process := global_sum block local reduce (pass helper p).
(** mpi_wrapper.py 177-217.  [wait]: line 199; [mean]: the four numbers of the call in line 201; [local]: lines 203-206; [reduce]: line 212 *)
Definition global_variance (wait : R) (mean : R * R * R * R) (local reduce : R) (p : process) : process :=
  let p := pass wait p in
  let '(h, b, l, r) := mean in
  let p := global_mean h b l r p in
  let p := pass local p in
  let t0 := clock p in
  let p := pass reduce p in
  account t0 p.
(** mpi_wrapper.py 246-275: the broadcast of the size and the one of the data *)
Definition bcast_unknown_size (size data : R) (p : process) : process := pass data (pass size p).
(** mpi_wrapper.py 278-292 *)
Definition gather (d : R) (p : process) : process := pass d p.
(** mpi_wrapper.py 295-299 *)
Definition get_communication_time (p : process) : R * process :=
  (communicationTime p, mk_process (clock p) 0 (managers p)).

(** what a process can do between two evaluations and within one: anything without MPI; the functions above (stats.py 204, 227,
    245, 252, 278, 321-334, sampler.py 223, 368-370, 513, util.py 148-149, povm.py 38-46, minsr.py 69-70, output_manager.py 152) *)
Inductive activity :=
| Work (d : R)
| Sum (block local reduce : R)
| Mean (helper block local reduce : R)
| Variance (wait : R) (mean : R * R * R * R) (local reduce : R)
| Bcast (size data : R)
| Gather (d : R).
(** one of the functions above (mpi_wrapper.py 114-292), or other work *)
Definition act (p : process) (a : activity) : process :=
  match a with
  | Work d => pass d p
  | Sum b l r => global_sum b l r p
  | Mean h b l r => global_mean h b l r p
  | Variance w m l r => global_variance w m l r p
  | Bcast s d => bcast_unknown_size s d p
  | Gather d => gather d p
  end.
(** several in a row, e.g. within tdvp.py 268-284 *)
Definition acts (l : list activity) (p : process) : process := fold_left act l p.

(** a method of outp, when there is one: tdvp.py 256-264 and 287-288 *)
Definition on_outp (outp : option nat) (f : R -> timings -> timings) (p : process) : process :=
  match outp with
  | None => p
  | Some k => mk_process (clock p) (communicationTime p) (fun j => if Nat.eqb j k then f (clock p) (managers p j) else managers p j)
  end.
(** tdvp.py 256-258 *)
Definition start (outp : option nat) (name : string) (p : process) : process := on_outp outp (start_timing name) p.
(** tdvp.py 260-264; the waiting of lines 261-262 belongs to the phase before *)
Definition stop (outp : option nat) (name : string) (p : process) : process := on_outp outp (stop_timing name) p.
(** a timed phase, e.g. tdvp.py 267-269 *)
Definition phase (outp : option nat) (name : string) (l : list activity) (p : process) : process :=
  stop outp name (acts l (start outp name p)).
(** tdvp.py 287-288 *)
Definition report (outp : option nat) (p : process) : process :=
  match outp with
  | None => p
  | Some k => let '(t, p) := get_communication_time p in on_outp (Some k) (fun _ => add_timing "MPI communication" t) p
  end.
(** what the parts of an evaluation do: lines 268, 273, 275, 279, 281, 284 of tdvp.py (126, 131, 133, 137, 139, 142 of minsr.py);
    [later]: what follows the report, lines 290-324 of tdvp.py (cross validation) and 148-156 of minsr.py (Eloc.var()) *)
Record parts := mk_parts { sampling : list activity; eloc : list activity; obs_eloc : list activity;
                           grads : list activity; obs_grads : list activity; solving : list activity; later : list activity }.
(** tdvp.py 266-326 with [eqn] = "solve TDVP eqn."; minsr.py 124-158 with "solve MinSR eqn." *)
Definition evaluate (eqn : string) (outp : option nat) (w : parts) (p : process) : process :=
  let p := phase outp "sampling" (sampling w) p in
  let p := phase outp "compute Eloc" (eloc w) p in
  let p := acts (obs_eloc w) p in
  let p := phase outp "compute gradients" (grads w) p in
  let p := acts (obs_grads w) p in
  let p := phase outp eqn (solving w) p in
  let p := report outp p in
  acts (later w) p.
(** the two classes *)
Inductive method := TDVP | MinSR.
(** tdvp.py 283, minsr.py 141 *)
Definition eqn_name (m : method) : string := match m with TDVP => "solve TDVP eqn." | MinSR => "solve MinSR eqn." end.

(** a program: activities, evaluations and calls of print_timings (output_manager.py 211-218) in any order *)
Inductive step := Do (a : activity) | Evaluate (m : method) (outp : option nat) (w : parts) | PrintTimings (k : nat).
(** one step: mpi_wrapper.py 114-292, tdvp.py 266-326, minsr.py 124-158, output_manager.py 211-218 *)
Definition do_step (p : process) (s : step) : process :=
  match s with
  | Do a => act p a
  | Evaluate m outp w => evaluate (eqn_name m) outp w p
  | PrintTimings k => on_outp (Some k) (fun _ d => snd (print_timings d)) p
  end.
(** a script that calls tdvp.py 219-326 and minsr.py 75-158 any number of times *)
Definition run_steps (l : list step) (p : process) : process := fold_left do_step l p.
(** after the imports: mpi_wrapper.py 17, output_manager.py 22 *)
Definition fresh (t : R) : process := mk_process t 0 (fun _ => []).
