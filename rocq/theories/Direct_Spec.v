(** Independent specification: averages over a distribution given by its probabilities. *)
From Coq Require Import String List Reals.
From Verif Require Import Base Cplx BranchFree_Model.
Import ListNotations.
Local Open Scope R_scope.

(** expectation value and variance of [f] for the probabilities [P] on [space] *)
Definition expected (space : list config) (P f : config -> R) : R := rsum (map (fun s => P s * f s) space).
Definition spread (space : list config) (P f : config -> R) : R := expected space P (fun s => (f s - expected space P f) ^ 2).
(** variance of a complex quantity *)
Definition cspread (space : list config) (P : config -> R) (f : config -> C) : R :=
  spread space P (fun s => Re (f s)) + spread space P (fun s => Im (f s)).

(** mean, variance and error in the result of a measurement of one observable *)
Definition reported_mean (r : result (list (string * (list R * list R * list R)))) : R :=
  match r with Ok [(_, ([m], _, _))] => m | _ => 0 end.
Definition reported_variance (r : result (list (string * (list R * list R * list R)))) : R :=
  match r with Ok [(_, (_, [v], _))] => v | _ => 0 end.
Definition reported_error (r : result (list (string * (list R * list R * list R)))) : R :=
  match r with Ok [(_, (_, _, [e]))] => e | _ => 0 end.
(** it has one mean, one variance and one error *)
Definition complete_report (r : result (list (string * (list R * list R * list R)))) : Prop :=
  exists name m v e, r = Ok [(name, ([m], [v], [e]))].
