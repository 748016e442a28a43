(** Vocabulary for the statements about integrators. *)
From Coq Require Import List Reals.
Import ListNotations.
Local Open Scope R_scope.

(** two vectors of the same length differ by at most e in every component *)
Definition close (e : R) (x y : list R) : Prop := Forall2 (fun a b => Rabs (a - b) <= e) x y.

(** [ys] lists the components of a solution of dy/dt = F(y, t) on [a, b] *)
Definition at_time (ys : list (R -> R)) (t : R) : list R := map (fun y => y t) ys.
Definition solves (F : list R -> R -> list R) (ys : list (R -> R)) (a b : R) : Prop :=
  forall t, a <= t <= b ->
    Forall2 (fun y v => derivable_pt_lim y t v) ys (F (at_time ys t) t).

(** every component of the solution has derivatives of order 1..2 (1..3), the highest being bounded *)
Definition smooth2 (ys : list (R -> R)) (a b M2 : R) : Prop :=
  Forall (fun y => exists y1 y2, forall t, a <= t <= b ->
    derivable_pt_lim y t (y1 t) /\ derivable_pt_lim y1 t (y2 t) /\ Rabs (y2 t) <= M2) ys.
Definition smooth3 (ys : list (R -> R)) (a b M2 M3 : R) : Prop :=
  Forall (fun y => exists y1 y2 y3, forall t, a <= t <= b ->
    derivable_pt_lim y t (y1 t) /\ derivable_pt_lim y1 t (y2 t) /\ derivable_pt_lim y2 t (y3 t)
    /\ Rabs (y2 t) <= M2 /\ Rabs (y3 t) <= M3) ys.

(** Lipschitz in the state, uniformly in time *)
Definition lipschitz (F : list R -> R -> list R) (K : R) : Prop :=
  forall x y e t, 0 <= e -> close e x y -> close (K * e) (F x t) (F y t).

(** the Heun method written down directly: one step of size h from (t, y) *)
Fixpoint add (x y : list R) : list R :=
  match x, y with a :: x, b :: y => a + b :: add x y | _, _ => [] end.
Definition scale (c : R) (x : list R) : list R := map (fun a => c * a) x.
Definition sub (x y : list R) : list R := add x (scale (-1) y).
Definition heun (F : list R -> R -> list R) (t h : R) (y : list R) : list R :=
  add y (scale (h / 2) (add (F y t) (F (add y (scale h (F y t))) (t + h)))).
(** two successive steps of half the size *)
Definition heun_twice (F : list R -> R -> list R) (t h : R) (y : list R) : list R :=
  heun F (t + h / 2) (h / 2) (heun F t (h / 2) y).
