(** What a ground state search is, step by step. *)
From Coq Require Import List Reals.
From Verif Require Import Base.
Import ListNotations.
Local Open Scope R_scope.

(** componentwise y' = y + h u *)
Definition moved (h : R) (y u y' : list R) : Prop :=
  length y' = Nat.min (length y) (length u)
  /\ forall i a b, nth_error y i = Some a -> nth_error u i = Some b -> nth_error y' i = Some (a + h * b).

(** the shift used in step number i (counted from 0) *)
Definition shift_at (damped : bool) (shift : option R) (i : nat) : option R :=
  if damped then option_map (fun d => (95 / 100) ^ i * d) shift else shift.

Section Run.
Context {W Obs : Type}.
Variable rhs : W -> option R -> list R -> result (list R * W).
Variable variance : W -> R.
Variable measure : W -> list R -> result (Obs * W).

(** A run of k steps: parameters y_0..y_k, worlds w_i at the start of step i, m_i after the update of step
    i, updates u_i.  If [write] is set, record number i has label i and holds the observables measured at
    y_i; there are k+1 records. *)
Record run (damped write : bool) (h : R) (shift : option R) (k : nat) (w_start : W)
           (y : nat -> list R) (w m : nat -> W) (u : nat -> list R) (records : list (nat * Obs)) : Prop := {
  run_update : forall i, (i < k)%nat -> rhs (w i) (shift_at damped shift i) (y i) = Ok (u i, m i);
  run_move : forall i, (i < k)%nat -> moved h (y i) (u i) (y (S i));
  run_silent : write = false -> records = [] /\ w O = w_start /\ forall i, (i < k)%nat -> w (S i) = m i;
  run_write : write = true -> length records = S k
    /\ (exists o, nth_error records 0 = Some (O, o) /\ measure w_start (y O) = Ok (o, w O))
    /\ forall i, (i < k)%nat -> exists o, nth_error records (S i) = Some (S i, o) /\ measure (m i) (y (S i)) = Ok (o, w (S i)) }.

(** The variance v_n known after n steps is the one computed in step number n-1. *)
Definition criterion (tol : R) (m : nat -> W) (n : nat) : Prop :=
  match n with O => 1 <= tol | S i => variance (m i) <= tol end.
End Run.
