(** Independent specification: expectation values in the state with given parameters. *)
From Coq Require Import List Reals Bool Arith.
From Verif Require Import Base Cplx Stats_Spec Vqs_Model Vqs_Spec.
Import ListNotations.

(** expectation value of the estimator O in the state with log-amplitudes lp, as a function of the parameters *)
Definition mean_value {X} (basis : list X) (lp O : X -> tree -> C) (p : tree) : C :=
  expect (map (fun s => (born basis (fun u => Re (lp u p)) s, s)) basis) (fun s => O s p).
