(** Vocabulary for C99: how long activities take, and which of these seconds are spent in what. *)
From Coq Require Import String List Reals.
From Verif Require Import Output_Model Comm_Model.
Import ListNotations.
Local Open Scope R_scope.

Definition total (l : list R) : R := fold_right Rplus 0 l.
(** duration *)
Definition lasts (a : activity) : R :=
  match a with
  | Work d => d
  | Sum b l r => b + l + r
  | Mean h b l r => h + b + l + r
  | Variance w (h, b, l, r) l' r' => w + (h + b + l + r) + l' + r'
  | Bcast s d => s + d
  | Gather d => d
  end.
(** seconds within MPI calls *)
Definition in_mpi (a : activity) : R :=
  match a with
  | Work _ => 0
  | Sum _ _ r => r
  | Mean _ _ _ r => r
  | Variance _ (_, _, _, r) _ r' => r + r'
  | Bcast s d => s + d
  | Gather d => d
  end.
(** seconds within reductions, together with the sums over the devices of the process that global sums and means start with *)
Definition in_reductions (a : activity) : R :=
  match a with
  | Work _ => 0
  | Sum _ l r => l + r
  | Mean _ _ l r => l + r
  | Variance _ (_, _, l, r) _ r' => l + r + r'
  | Bcast _ _ => 0
  | Gather _ => 0
  end.
(** all parts take time *)
Definition takes_time (a : activity) : Prop :=
  match a with
  | Work d => 0 <= d
  | Sum b l r => 0 <= b /\ 0 <= l /\ 0 <= r
  | Mean h b l r => 0 <= h /\ 0 <= b /\ 0 <= l /\ 0 <= r
  | Variance w (h, b, l, r) l' r' => 0 <= w /\ 0 <= h /\ 0 <= b /\ 0 <= l /\ 0 <= r /\ 0 <= l' /\ 0 <= r'
  | Bcast s d => 0 <= s /\ 0 <= d
  | Gather d => 0 <= d
  end.
(** everything an evaluation does before it reports, in order *)
Definition all_parts (w : parts) : list activity :=
  sampling w ++ eloc w ++ obs_eloc w ++ grads w ++ obs_grads w ++ solving w.
Definition of_step (s : step) : list activity :=
  match s with Do a => [a] | Evaluate _ _ w => all_parts w ++ later w | PrintTimings _ => [] end.
Definition seconds (f : activity -> R) (l : list step) : R := total (map f (flat_map of_step l)).
(** does the step write to output manager k, or to some output manager? *)
Definition reports_to (k : nat) (s : step) : bool :=
  match s with Evaluate _ (Some j) _ => Nat.eqb j k | _ => false end.
Definition reports (s : step) : bool := match s with Evaluate _ (Some _) _ => true | _ => false end.
(** what the process has done since the last report *)
Fixpoint unreported (l : list step) : list activity :=
  match l with
  | [] => []
  | s :: r => if existsb reports r then unreported r
              else match s with Evaluate _ (Some _) w => later w | _ => of_step s end ++ flat_map of_step r
  end.
(** what an output manager has on communication *)
Definition mpi_record (p : process) (k : nat) : timing := t_entry "MPI communication" (managers p k).
