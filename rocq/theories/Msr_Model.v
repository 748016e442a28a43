(** A step of a ground state search with MinSR: the update of /repo/jVMC/util/minsr.py is a complex
    vector, which /repo/jVMC/util/stepper.py 38-40 adds to the parameters and /repo/jVMC/vqs.py 409-444
    turns into the parameters of the network. *)
From Coq Require Import List Reals Bool Arith.
From Verif Require Import Base Cplx Stats_Model Vqs_Model Tdvp_Model.
Import ListNotations.

(** vqs.py 430-444 (_param_unflatten) for a vector of complex numbers; the loop.  Nothing is cast or checked. *)
Fixpoint param_unflatten_cpx (realParams : bool) (shapes : list nat) (P : list C) (start : nat) : result tree :=
  match shapes with
  | [] => Ok []
  | s :: r =>
      if realParams then
        do leaf <- reshape s (slice start (start + s) P);
        do rest <- param_unflatten_cpx realParams r P (start + s);
        Ok (leaf :: rest)
      else
        do x <- broadcast_add (slice start (start + s) P) (map (Cmul Ci) (slice (start + s) (start + 2 * s) P));
        do leaf <- reshape s x;
        do rest <- param_unflatten_cpx realParams r P (start + 2 * s);
        Ok (leaf :: rest)
  end.
(** vqs.py 409-425 for a vector of complex numbers *)
Definition set_parameters_cpx (q : nqs) (P : list C) : result nqs :=
  if nq_init q then do t <- param_unflatten_cpx (nq_real q) (nq_shapes q) P 0; Ok (set_params q t) else Err RuntimeError.
(** stepper.py 38-40: yInitial + self.dt * dy; the lengths agree *)
Definition euler_cpx (dt : R) (y : list R) (dy : list C) : list C := map2 (fun a b => (RtoC a + RtoC dt * b)%C) y dy.
(** util.py 192-193 with the update of minsr.py 60-73, a vector of n numbers *)
Definition minsr_step (dt : R) (q : nqs) (n : nat) (update : nat -> C) : result nqs :=
  match get_parameters q with
  | Some y => set_parameters_cpx q (euler_cpx dt y (map update (seq 0 n)))
  | None => Err TypeError
  end.
