(** Model of /repo/jVMC/util/stepper.py.  Floating point numbers are real numbers; the quantities
    derived from a division (error ratio, next step size) may also be infinite or not-a-number.
    The right hand side is called as [f y t intStep] (the fixed keyword arguments [rhsArgs] are part
    of [f]) and does not raise.  Arrays of different lengths, for which jax broadcasts or raises, are
    cut to the shorter length. *)
From Coq Require Import List Reals Bool.
From Verif Require Import Base Stats_Model.
Import ListNotations.
Local Open Scope R_scope.

(** [+] and [*] of arrays, stepper.py 40, 88-90 *)
Definition vadd (x y : list R) : list R := map2 Rplus x y.
(** stepper.py 40, 88-90 *)
Definition vscal (c : R) (x : list R) : list R := map (Rmult c) x.
(** [-] of arrays, stepper.py 152, 162 *)
Definition vsub (x y : list R) : list R := map2 Rminus x y.
(** type of [f], stepper.py 38, 87 *)
Definition rhs := list R -> R -> nat -> list R.

(** [Euler.step], stepper.py 10-40; the step size is the attribute set in [__init__] *)
Definition euler_step (self_dt : R) (f : rhs) (t : R) (y : list R) : list R * R :=
  let dy := f y t 0%nat in
  (vadd y (vscal self_dt dy), self_dt).

(** [Heun.step], stepper.py 52-93; the step size is the one set in [__init__] or [set_dt]; [arg_dt] is [rhsArgs["dt"]] if present *)
Definition heun_step (self_dt : R) (arg_dt : option R) (f : rhs) (t : R) (yInitial : list R) : list R * R :=
  let dt := match arg_dt with Some d => d | None => self_dt end in
  let k0 := f yInitial t 0%nat in
  let y := vadd yInitial (vscal dt k0) in
  let k1 := f y (t + dt) 1%nat in
  let dy0 := vscal (1/2 * dt) (vadd k0 k1) in
  (vadd yInitial dy0, dt).

(** floating point numbers outside the reals, stepper.py 162-176 *)
Inductive xreal := Fin (r : R) | PInf | MInf | NaN.
(** [<] of floating point numbers: false if an operand is not a number, stepper.py 143, 165-175 *)
Definition xlt (a b : xreal) : bool :=
  match a, b with
  | Fin x, Fin y => if Rlt_dec x y then true else false
  | NaN, _ | _, NaN => false
  | MInf, MInf => false | MInf, _ => true
  | PInf, _ => false
  | Fin _, PInf => true | Fin _, MInf => false
  end.
(** [self.tolerance / updateDiff], stepper.py 163 *)
Definition xdiv (a : R) (b : xreal) : xreal :=
  match b with
  | Fin y => if Req_EM_T y 0
             then (if Rlt_dec 0 a then PInf else if Rlt_dec a 0 then MInf else NaN)
             else Fin (a / y)
  | PInf | MInf => Fin 0
  | NaN => NaN
  end.
(** [fe**0.33333], stepper.py 165, 168 *)
Definition xpow_third (a : xreal) : xreal :=
  match a with
  | Fin x => if Rlt_dec 0 x then Fin (Rpower x (33333 / 100000)) else if Rlt_dec x 0 then NaN else Fin 0
  | PInf | MInf => PInf
  | NaN => NaN
  end.
(** product with a positive number, stepper.py 165, 168, 173 *)
Definition xscal (c : R) (a : xreal) : xreal :=
  match a with Fin x => Fin (c * x) | PInf => PInf | MInf => MInf | NaN => NaN end.

(** stepper.py 165-170 *)
Definition step_factor (fe : xreal) : xreal :=
  let p := xscal (9/10) (xpow_third fe) in
  let tmp := if xlt p (Fin (1/5)) then Fin (1/5) else p in
  if xlt (Fin 2) tmp then Fin 2 else tmp.

Section Adaptive.
  Variable (f : rhs) (normFunction : list R -> xreal) (tolerance maxStep : R).
  (** one pass through the loop, stepper.py 145-176: new increment, error ratio, next step size *)
  Definition trial (t : R) (yInitial : list R) (dt : R) : list R * xreal * xreal :=
    let k0 := f yInitial t 0%nat in
    let y := vadd yInitial (vscal dt k0) in
    let k1 := f y (t + dt) 1%nat in
    let dy0 := vscal (1/2 * dt) (vadd k0 k1) in
    let y := vsub y (vscal (1/2 * dt) k0) in
    let k10 := f y (t + 1/2 * dt) 2%nat in
    let dy1 := vscal (1/4 * dt) (vadd k0 k10) in
    let y := vadd yInitial dy1 in
    let k01 := f y (t + 1/2 * dt) 3%nat in
    let y := vadd y (vscal (1/2 * dt) k01) in
    let k11 := f y (t + dt) 4%nat in
    let dy1 := vadd dy1 (vscal (1/4 * dt) (vadd k01 k11)) in
    let updateDiff := normFunction (vsub dy1 dy0) in
    let fe := xdiv tolerance updateDiff in
    let dt' := xscal dt (step_factor fe) in
    (dy1, fe, if xlt (Fin maxStep) dt' then Fin maxStep else dt').
  (** [while fe < 1.], stepper.py 143-178.  A pass with a step size that is not a finite number is
      not modelled ([Err ValueError]); it can only follow a negative tolerance. *)
  Fixpoint adaptive_loop (fuel : nat) (t : R) (yInitial : list R) (dt : R) : result (list R * R * xreal) :=
    match fuel with
    | O => Err Diverges
    | S n => let '(dy1, fe, dt') := trial t yInitial dt in
             if xlt fe (Fin 1)
             then match dt' with Fin d => adaptive_loop n t yInitial d | _ => Err ValueError end
             else Ok (vadd yInitial dy1, dt, dt')
    end.
  (** [AdaptiveHeun.step], stepper.py 107-182; returns also the new [self.dt] (line 180).  A step
      with a [self.dt] that is not a finite number is not modelled. *)
  Definition adaptive_step (fuel : nat) (self_dt : xreal) (t : R) (y : list R) : result ((list R * R) * xreal) :=
    match self_dt with
    | Fin dt => do (p, q, d) <- adaptive_loop fuel t y dt; Ok ((p, q), d)
    | _ => Err ValueError
    end.
  (** successive steps of one stepper object: [(y, dt) = stepper.step(t, f, y); t += dt]; the steps
      taken are collected *)
  Fixpoint adaptive_run (fuel n : nat) (self_dt : xreal) (t : R) (y : list R) : result (list R * R * list R * xreal) :=
    match n with
    | O => Ok (y, t, [], self_dt)
    | S k => do (yd, d) <- adaptive_step fuel self_dt t y;
             do (r, d') <- adaptive_run fuel k d (t + snd yd) (fst yd);
             let '(y', t', ds) := r in Ok (y', t', snd yd :: ds, d')
    end.
End Adaptive.

(** [Heun] and [Euler] used repeatedly, as in the loop of ground_state_search, util.py 188-190 *)
Fixpoint fixed_run (step : R -> list R -> list R * R) (n : nat) (t : R) (y : list R) : list R * R :=
  match n with
  | O => (y, t)
  | S k => let '(y', dt) := step t y in fixed_run step k (t + dt) y'
  end.
