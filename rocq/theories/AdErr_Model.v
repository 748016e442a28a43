(** Model of the time evolution loop in the example scripts of /repo. *)
From Coq Require Import List Reals.
From Verif Require Import Base Stepper_Model.
Import ListNotations.
Local Open Scope R_scope.

(** examples/ex2_unitary_time_evolution.py 71-78 (the same loop: examples/ex5_dissipative_Lindblad.py 76-86,
    examples/ex6_dissipative_Lindblad_2D.py 82-92): [while t < tmax: y, dt = stepper.step(passed(t), f, y); t += dt] with a
    stepper of class AdaptiveHeun.  [passed] is what is handed over as time, 0 in the scripts.  Measurements, output and
    set_parameters (the parameters are the state [y], C39) are left out.  [k] bounds the number of passes, [fuel] the
    number of trials within a step (stepper.py 143). *)
Fixpoint evolve (f : rhs) (normFunction : list R -> xreal) (tolerance maxStep : R) (fuel : nat) (passed : R -> R) (tmax : R)
    (k : nat) (self_dt : xreal) (t : R) (y : list R) : result (list R * R) :=
  match k with
  | O => Err Diverges
  | S k => if Rlt_dec t tmax
           then do (yd, d) <- adaptive_step f normFunction tolerance maxStep fuel self_dt (passed t) y;
                evolve f normFunction tolerance maxStep fuel passed tmax k d (t + snd yd) (fst yd)
           else Ok (y, t)
  end.
