(** Model of [ground_state_search], /repo/jVMC/util/util.py 160-212.  Floating point numbers are real
    numbers.  [rhs] is the call of the equation object ([TDVP.__call__] or [MinSR.__call__]), [variance]
    its [get_energy_variance], [measure] the function of util.py 91-157; they act on a world [W] which
    holds sampler, state and the attributes of the equation object other than the diagonal shift.  The
    calls do not change the diagonal shift (tdvp.py and minsr.py assign it in [__init__] and
    [set_diagonal_shift] only).  Timings and prints are left out. *)
From Coq Require Import List Reals.
From Verif Require Import Base Stepper_Model.
Import ListNotations.
Local Open Scope R_scope.

Section Search.
Context {W Obs : Type}.
(* tdvp.py 240-330, minsr.py 105-180: world, diagonal shift (None: no such attribute), parameters *)
Variable rhs : W -> option R -> list R -> result (list R * W).
(* tdvp.py 122-124, minsr.py 52-54 *)
Variable variance : W -> R.
(* util.py 91-157 with the parameters of psi *)
Variable measure : W -> list R -> result (Obs * W).

(** what changes during the search: the attribute [diagonalShift] of the equation object, the local
    variable [delta], world, parameters of psi, records written so far; util.py 175-205 *)
Record gs_state := mk_gs {
  gs_shift : option R;
  gs_delta : option R;
  gs_world : W;
  gs_params : list R;
  gs_records : list (nat * Obs) }.

(** lines 181-184 and 198-201: [outp.write_observables(n, **measure(...))] *)
Definition record_obs (write : bool) (n : nat) (s : gs_state) : result gs_state :=
  if write
  then do ow <- measure (gs_world s) (gs_params s);
       Ok (mk_gs (gs_shift s) (gs_delta s) (snd ow) (gs_params s) (gs_records s ++ [(n, fst ow)]))
  else Ok s.

(** [stepper.step] of [Euler] (stepper.py 35-40), [psi.set_parameters]; util.py 192-193 *)
Definition gs_step (stepSize : R) (s : gs_state) : result gs_state :=
  do dw <- rhs (gs_world s) (gs_shift s) (gs_params s);
  Ok (mk_gs (gs_shift s) (gs_delta s) (snd dw) (vadd (gs_params s) (vscal stepSize (fst dw))) (gs_records s)).

(** lines 203-205 *)
Definition damp (has_setter : bool) (s : gs_state) : result gs_state :=
  if has_setter
  then match gs_delta s with
       | Some d => Ok (mk_gs (Some (95 / 100 * d)) (Some (95 / 100 * d)) (gs_world s) (gs_params s) (gs_records s))
       | None => Err UnboundLocalError
       end
  else Ok s.

(** the loop, lines 188-212, with [left] = numSteps - n *)
Fixpoint gs_loop (has_setter write : bool) (varianceTol stepSize : R) (left n : nat) (varE : R) (s : gs_state) : result (nat * gs_state) :=
  match left with
  | O => Ok (n, s)
  | S left' =>
      if Rlt_dec varianceTol varE
      then do s1 <- gs_step stepSize s;
           let varE' := variance (gs_world s1) in
           do s2 <- record_obs write (S n) s1;
           do s3 <- damp has_setter s2;
           gs_loop has_setter write varianceTol stepSize left' (S n) varE' s3
      else Ok (n, s)
  end.

(** lines 175-212; [shift] is the attribute [diagonalShift] if there is one, [has_setter] tells whether
    there is a method [set_diagonal_shift], [write] whether observables and an output manager are given.
    The number of steps performed is returned, too. *)
Definition ground_state_search (has_setter write : bool) (numSteps : nat) (varianceTol stepSize : R)
           (shift : option R) (w : W) (params : list R) : result (nat * gs_state) :=
  do s <- record_obs write 0 (mk_gs shift shift w params []);
  gs_loop has_setter write varianceTol stepSize numSteps 0 1 s.
End Search.
Arguments mk_gs {W Obs}. Arguments gs_shift {W Obs}. Arguments gs_delta {W Obs}. Arguments gs_world {W Obs}.
Arguments gs_params {W Obs}. Arguments gs_records {W Obs}.
