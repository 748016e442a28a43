(** Model of /repo/jVMC/mpi_wrapper.py.  All ranks of the communicator are
    modelled together: a value that exists once per MPI process is a list
    indexed by rank. *)
From Coq Require Import ZArith List Reals Bool.
From Verif Require Import Base Cplx.
Import ListNotations.

(** ** distribution of samples *)
Section Distribute.
Local Open Scope Z_scope.

(** mpi_wrapper.py 76-79: samples per process before rounding to chains *)
Definition samples_per_process (rank commSize numSamples : Z) : Z :=
  numSamples / commSize + (if rank <? numSamples mod commSize then 1 else 0).

(** mpi_wrapper.py 89-90 (inner function [spc]) *)
Definition spc (numChainsPerProcess spp : Z) : Z :=
  (spp + numChainsPerProcess - 1) / numChainsPerProcess.

(** mpi_wrapper.py 53-95.  Returns (value returned first, globNumSamples).
    The module-level variable [globNumSamples] is set to the second component.
    Python's [//] and [%] are floor division, as are Z.div / Z.modulo.
    Simplified: communicator size, devices and chains are assumed positive
    (Python raises ZeroDivisionError otherwise). *)
Definition distribute_sampling (rank commSize numSamples : Z)
           (localDevices : option Z) (numChainsPerDevice : Z) : Z * Z :=
  match localDevices with
  | None => (samples_per_process rank commSize numSamples, numSamples)
  | Some ld =>
      let chains := ld * numChainsPerDevice in
      let a := numSamples mod commSize in
      let glob := (a * spc chains (1 + numSamples / commSize)
                   + (commSize - a) * spc chains (numSamples / commSize)) * chains in
      (spc chains (samples_per_process rank commSize numSamples), glob)
  end.

(** mpi_wrapper.py 98-111; [globNumSamples] is the module-level variable *)
Definition first_sample_id (rank commSize globNumSamples : Z) : Z :=
  rank * (globNumSamples / commSize)
  + (if rank <? globNumSamples mod commSize then rank else globNumSamples mod commSize).

End Distribute.

(** ** collective operations *)

(** A blocking collective (mpi4py Allreduce, allgather): it completes when all
    ranks reach it; if some rank raised before reaching it, the remaining ranks
    wait forever. *)
Fixpoint all_ok {A} (xs : list (result A)) : option (list A) :=
  match xs with
  | [] => Some []
  | Ok a :: r => match all_ok r with Some l => Some (a :: l) | None => None end
  | Err _ :: _ => None
  end.

(** Allreduce in mpi_wrapper.py 141 and 212, as described above *)
Definition collective {A B} (f : list A -> B) (xs : list (result A)) : list (result B) :=
  match all_ok xs with
  | Some l => map (fun _ => Ok (f l)) xs
  | None => map (fun x => match x with Ok _ => Err Blocked | Err e => Err e end) xs
  end.

(** [x[0]] on an array with leading device dimension *)
Definition index0 {A} (l : list A) : result A :=
  match l with a :: _ => Ok a | [] => Err IndexError end.

(** a function applied to all entries of an array or list, e.g. the loops of branch_free.py 378-400; the first exception ends it *)
Fixpoint mapM {A B} (f : A -> result B) (l : list A) : result (list B) :=
  match l with
  | [] => Ok []
  | a :: r => do b <- f a; do bs <- mapM f r; Ok (b :: bs)
  end.

(** devices x batch, one data component *)
Notation local := (list (list C)).

(** mpi_wrapper.py 44: pmapped psum of the batch sums; every device holds the total *)
Definition sum_up_pmapd (data : local) : list C :=
  let total := csum (map csum data) in map (fun _ => total) data.

(** mpi_wrapper.py 114-147.  [data] is indexed by rank, device, batch.  The
    trailing dimensions [data.shape[2:]] are treated component-wise: this is one
    component.  Timing and device placement are left out. *)
Definition global_sum (data : list (result local)) : list (result C) :=
  collective csum (map (fun x => do d <- x; index0 (sum_up_pmapd d)) data).

(** [jnp.dot(p, data)] of two arrays with one dimension; shapes must agree *)
Definition dot (p : list R) (x : list C) : result C :=
  if Nat.eqb (length p) (length x)
  then Ok (csum (map (fun ab => Cscal (fst ab) (snd ab)) (combine p x)))
  else Err ShapeError.

(** pmap over the device dimension of two arrays *)
Fixpoint pmap2 {A B D} (f : A -> B -> result D) (xs : list A) (ys : list B) : result (list D) :=
  match xs, ys with
  | [], [] => Ok []
  | x :: xs', y :: ys' => do d <- f x y; do r <- pmap2 f xs' ys'; Ok (d :: r)
  | _, _ => Err ShapeError
  end.

(** mpi_wrapper.py 47 (mean_helper): one batch entry per device *)
Definition mean_helper (data : local) (p : list (list R)) : result local :=
  do l <- pmap2 (fun x w => dot w x) data p; Ok (map (fun s => [s]) l).


(** mpi_wrapper.py 150-174 *)
Definition global_mean (data : list local) (p : list (list (list R))) : list (result C) :=
  global_sum (map (fun dp => mean_helper (fst dp) (snd dp)) (combine data p)).

(** mpi_wrapper.py 46 (_sum_sq_pmapd): per device sum of p |x - mean|^2; there is
    no psum over devices *)
Definition sum_sq_dev (mean : C) (x : list C) (p : list R) : result C :=
  if Nat.eqb (length p) (length x)
  then Ok (csum (map (fun ab => (Cconj (snd ab - mean) * (snd ab - mean) * RtoC (fst ab))%C) (combine p x)))
  else Err ShapeError.

(** mpi_wrapper.py 177-217: entry [0] of the device dimension is taken (203) *)
Definition global_variance (data : list local) (p : list (list (list R))) : list (result C) :=
  let means := global_mean data p in
  collective csum
    (map (fun t => let '(d, w, m) := t in
                   do mean <- m;
                   do l <- pmap2 (sum_sq_dev mean) d w;
                   index0 l)
         (combine (combine data p) means)).

(** mpi_wrapper.py 20-24 (_cov_helper), entry (i,j) of one device; a sample is a
    function from the component index *)
Definition cov_helper_dev (i j : nat) (x : list (nat -> C)) (p : list R) : result C :=
  if Nat.eqb (length p) (length x)
  then Ok (csum (map (fun ab => (Cconj (snd ab i) * (RtoC (fst ab) * snd ab j))%C) (combine p x)))
  else Err ShapeError.

(** mpi_wrapper.py 220-243, entry (i,j) *)
Definition global_covariance (i j : nat) (data : list (list (list (nat -> C))))
           (p : list (list (list R))) : list (result C) :=
  global_sum (map (fun dp => do l <- pmap2 (cov_helper_dev i j) (fst dp) (snd dp);
                             Ok (map (fun s => [s]) l))
                  (combine data p)).

(** ** programs of collectives *)

(** numpy dtypes that matter *)
Inductive dtype := Float64 | OtherDtype (n : nat).

Section Prog.
Context {F : Type}.   (* the floating point numbers *)

Record array := mk_array { a_dtype : dtype; a_data : list F }.

(** messages *)
Inductive msg := MNone | MLen (n : nat) | MBuf (l : list F).

(** the collectives of mpi_wrapper.py 267-273 and 289 *)
Inductive coll := CBcast (root : nat) | CBcastBuf (root : nat) | CAllgather.

(** what one rank does: finish, or take part in a collective and continue with
    the reply *)
Inductive prog (A : Type) :=
| Done (r : result A)
| Call (c : coll) (m : msg) (k : list msg -> prog A).
Arguments Done {A} r.
Arguments Call {A} c m k.

(** the same collective call, mpi_wrapper.py 267-273 and 289 *)
Definition coll_eqb (a b : coll) : bool :=
  match a, b with
  | CBcast r, CBcast r' => Nat.eqb r r'
  | CBcastBuf r, CBcastBuf r' => Nat.eqb r r'
  | CAllgather, CAllgather => true
  | _, _ => false
  end.

(** is the rank waiting in the collective call [c]? (mpi_wrapper.py 267-273 and 289) *)
Definition at_coll {A} (c : coll) (p : prog A) : bool :=
  match p with Call c' _ _ => coll_eqb c c' | Done _ => false end.

(** what the rank contributes to the collective it waits in (mpi_wrapper.py 267-273 and 289) *)
Definition payload {A} (p : prog A) : msg :=
  match p with Call _ m _ => m | Done _ => MNone end.

(** the rank continues with the reply (mpi_wrapper.py 267-273 and 289) *)
Definition resume {A} (r : list msg) (p : prog A) : prog A :=
  match p with Call _ _ k => k r | Done x => Done x end.

(** reply of a collective: the root's message (one-element list) or everything *)
Definition reply (c : coll) (ms : list msg) : list msg :=
  match c with
  | CBcast r | CBcastBuf r => [nth r ms MNone]
  | CAllgather => ms
  end.

(** result of a rank when no collective can fire any more (mpi_wrapper.py 246-292) *)
Definition finish {A} (p : prog A) : result A :=
  match p with Done r => r | Call _ _ _ => Err Blocked end.

(** run all ranks: a collective fires when all ranks are at it, otherwise the
    ranks that are still waiting are blocked *)
Fixpoint run {A} (fuel : nat) (ps : list (prog A)) : list (result A) :=
  match fuel with
  | O => map finish ps
  | S f =>
      match ps with
      | Call c _ _ :: _ =>
          if forallb (at_coll c) ps
          then run f (map (resume (reply c (map payload ps))) ps)
          else map finish ps
      | _ => map finish ps
      end
  end.

(** mpi_wrapper.py 246-275, the program of one rank.  [data] is the argument of
    this rank, used on the root only; other ranks may pass None. *)
Definition bcast_unknown_size (rank root : nat) (data : option array) : prog (list F) :=
  if Nat.eqb rank root then
    match data with
    | None => Done (Err AttributeError)
    | Some d =>
        match a_dtype d with
        | Float64 =>
            Call (CBcast root) (MLen (length (a_data d))) (fun _ =>
            Call (CBcastBuf root) (MBuf (a_data d)) (fun _ => Done (Ok (a_data d))))
        | _ => Done (Err TypeError)
        end
    end
  else
    Call (CBcast root) MNone (fun r =>
      match r with
      | [MLen n] =>
          Call (CBcastBuf root) MNone (fun r' =>
            match r' with
            | [MBuf l] => if Nat.eqb (length l) n then Done (Ok l) else Done (Err ValueError)
            | _ => Done (Err ValueError)
            end)
      | _ => Done (Err TypeError)
      end).

(** mpi_wrapper.py 278-292: flatten device and batch dimension, allgather,
    concatenate *)
Definition gather (data : list (list F)) : prog (list F) :=
  Call CAllgather (MBuf (concat data)) (fun r =>
    Done (Ok (concat (map (fun m => match m with MBuf l => l | _ => [] end) r)))).

(** bcast_unknown_size on all ranks, mpi_wrapper.py 246-275 *)
Definition run_bcast (root : nat) (args : list (option array)) : list (result (list F)) :=
  run 3 (map (fun ra => bcast_unknown_size (fst ra) root (snd ra))
             (combine (seq 0 (length args)) args)).

(** gather on all ranks, mpi_wrapper.py 278-292 *)
Definition run_gather (args : list (list (list F))) : list (result (list F)) :=
  run 2 (map gather args).
End Prog.
Arguments Done {F A} r.
Arguments Call {F A} c m k.
