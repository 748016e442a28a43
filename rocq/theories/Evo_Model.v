(** Time evolution with the TDVP object: the getters of /repo/jVMC/util/tdvp.py and
    /repo/jVMC/util/minsr.py, and the integrators of /repo/jVMC/util/stepper.py applied to a right
    hand side that changes a state and may raise.  Numbers and the treatment of step sizes are
    those of Stepper_Model. *)
From Coq Require Import List Reals Bool ZArith.
From Verif Require Import Base Cplx Stats_Model Stepper_Model Vqs_Model Tdvp_Model.
Import ListNotations.
Local Open Scope R_scope.

(** ** Getters and setters *)

(** tdvp.py 74-91: the attributes of a new object; metaData is None, the others do not exist *)
Definition new_tdvp : tdvp := mk_tdvp None None None None None None None.
(** tdvp.py 96-97 *)
Definition set_diagonal_shift (c : settings) (delta : R) : settings :=
  mk_settings (c_exact c) (c_snrTol c) (c_pinvTol c) (c_pinvCutoff c) (c_imag c) (c_prefactor c) delta (c_crossVal c) (c_onDevice c).
(** tdvp.py 99-100 *)
Definition set_cross_validation (c : settings) (crossValidation : bool) : settings :=
  mk_settings (c_exact c) (c_snrTol c) (c_pinvTol c) (c_pinvCutoff c) (c_imag c) (c_prefactor c) (c_shift c) crossValidation (c_onDevice c).
(** None["tdvp_error"], tdvp.py 108, 112, 116 *)
Definition meta_item {A} (o : tdvp) (item : metadata -> A) : result A :=
  match o_meta o with Some m => Ok (item m) | None => Err TypeError end.
(** tdvp.py 106-108 *)
Definition get_residuals (o : tdvp) : result (xreal * xreal) := meta_item o (fun m => (m_error m, m_residual m)).
(** tdvp.py 110-112; [_get_snr], which computes the values, is [get_snr] in Tdvp_Model *)
Definition reported_snr (o : tdvp) : result (nat -> xreal) := meta_item o m_snr.
(** tdvp.py 114-116 *)
Definition get_spectrum (o : tdvp) : result (nat -> R) := meta_item o m_ev.
(** tdvp.py 118-120 *)
Definition get_metadata (o : tdvp) : option metadata := o_meta o.
(** self.name, tdvp.py 124, 128, 132, 217: an attribute that may not exist yet *)
Definition attribute {A} (a : option A) : result A := match a with Some x => Ok x | None => Err AttributeError end.
(** tdvp.py 122-124 *)
Definition get_energy_variance (o : tdvp) : result R := attribute (o_var0 o).
(** tdvp.py 126-128 *)
Definition get_energy_mean (o : tdvp) : result R := do e <- attribute (o_mean0 o); Ok (Re e).
(** tdvp.py 130-132 *)
Definition get_S (o : tdvp) : result (nat -> nat -> C) := attribute (o_S o).
(** tdvp.py 215-217; a vector of the wrong length, for which jax raises, is not modelled *)
Definition S_dot (n : nat) (o : tdvp) (v : nat -> C) : result (nat -> C) :=
  do q <- attribute (o_eq o); Ok (dot n (e_S0 q) v).

(** ** Integrators *)

Section Stepper.
  Context {W : Type}.
  (** f(y, t, **rhsArgs, intStep=k), stepper.py 38, 87, 146; [W] is all that a call may change *)
  Variable f : W -> list R -> R -> nat -> W * result (list R).

  (** one evaluation after the other; an exception ends the step, stepper.py 87-89 *)
  Definition andthen {A B} (m : W * result A) (k : W -> A -> W * result B) : W * result B :=
    match m with (w, Ok a) => k w a | (w, Err e) => (w, Err e) end.

  (** [Euler.step], stepper.py 14-40 *)
  Definition euler_w (self_dt : R) (w : W) (t : R) (y : list R) : W * result (list R * R) :=
    andthen (f w y t 0%nat) (fun w dy => (w, Ok (vadd y (vscal self_dt dy), self_dt))).

  (** [Heun.step], stepper.py 62-93 *)
  Definition heun_w (self_dt : R) (arg_dt : option R) (w : W) (t : R) (yInitial : list R) : W * result (list R * R) :=
    let dt := match arg_dt with Some d => d | None => self_dt end in
    andthen (f w yInitial t 0%nat) (fun w k0 =>
    andthen (f w (vadd yInitial (vscal dt k0)) (t + dt) 1%nat) (fun w k1 =>
    (w, Ok (vadd yInitial (vscal (1/2 * dt) (vadd k0 k1)), dt)))).

  (** [normFunction] may read the state: examples/ex5_dissipative_Lindblad.py 83 passes S_dot *)
  Variable normFunction : W -> list R -> xreal.
  Variables tolerance maxStep : R.
  (** one pass through the loop, stepper.py 145-176 *)
  Definition trial_w (w : W) (t : R) (yInitial : list R) (dt : R) : W * result (list R * xreal * xreal) :=
    andthen (f w yInitial t 0%nat) (fun w k0 =>
    let y := vadd yInitial (vscal dt k0) in
    andthen (f w y (t + dt) 1%nat) (fun w k1 =>
    let dy0 := vscal (1/2 * dt) (vadd k0 k1) in
    let y := vsub y (vscal (1/2 * dt) k0) in
    andthen (f w y (t + 1/2 * dt) 2%nat) (fun w k10 =>
    let dy1 := vscal (1/4 * dt) (vadd k0 k10) in
    let y := vadd yInitial dy1 in
    andthen (f w y (t + 1/2 * dt) 3%nat) (fun w k01 =>
    let y := vadd y (vscal (1/2 * dt) k01) in
    andthen (f w y (t + dt) 4%nat) (fun w k11 =>
    let dy1 := vadd dy1 (vscal (1/4 * dt) (vadd k01 k11)) in
    let updateDiff := normFunction w (vsub dy1 dy0) in
    let fe := xdiv tolerance updateDiff in
    let dt' := xscal dt (step_factor fe) in
    (w, Ok (dy1, fe, if xlt (Fin maxStep) dt' then Fin maxStep else dt'))))))).
  (** [while fe < 1.], stepper.py 143-178 *)
  Fixpoint loop_w (fuel : nat) (w : W) (t : R) (yInitial : list R) (dt : R) : W * result (list R * R * xreal) :=
    match fuel with
    | O => (w, Err Diverges)
    | S k => andthen (trial_w w t yInitial dt) (fun w r =>
             let '(dy1, fe, dt') := r in
             if xlt fe (Fin 1)
             then match dt' with Fin d => loop_w k w t yInitial d | _ => (w, Err ValueError) end
             else (w, Ok (vadd yInitial dy1, dt, dt')))
    end.
  (** [AdaptiveHeun.step], stepper.py 112-182; also the new self.dt (line 180) *)
  Definition adaptive_w (fuel : nat) (self_dt : xreal) (w : W) (t : R) (y : list R) : W * result ((list R * R) * xreal) :=
    match self_dt with
    | Fin dt => andthen (loop_w fuel w t y dt) (fun w r => let '(p, q, d) := r in (w, Ok ((p, q), d)))
    | _ => (w, Err ValueError)
    end.
End Stepper.

(** ** TDVP as right hand side *)

Section Evolve.
  Variable n : nat.
  Variables eigh_jax eigh_np : (nat -> nat -> C) -> result ((nat -> R) * (nat -> nat -> C)).
  Variable c : settings.
  Variable smp : sampler.
  Context {Cfg : Type}.
  Variable draw : nqs -> result (Cfg * layout R).
  Variable markov : tree * nat -> result Cfg.
  Variable coeffs : nqs -> Cfg -> result (Cfg * layout R).
  Variable oloc : nqs -> Cfg -> R -> result (layout (unit -> C)).
  Variable grads : nqs -> Cfg -> result (layout (nat -> C)).
  Variable fuel : nat.

  (** tdvp.py 219-326 called by an integrator: the update as a vector.  The integrators are not
      modelled for vectors of NaNs, such an update ends the model's run. *)
  Definition tdvp_rhs (w : world) (y : list R) (t : R) (k : nat) : world * result (list R) :=
    let '(w', r) := tdvp_call n eigh_jax eigh_np c smp draw markov coeffs oloc grads fuel w (PVec y) t (Some k) in
    (w', do u <- r; match u with Some u => Ok (map u (seq 0 n)) | None => Err ValueError end).

  (** The loop of the examples, examples/ex2_unitary_time_evolution.py 75-88, for any integrator
      with internal state [D]: start from psi.get_parameters(), take a step, set the parameters,
      advance t; the energies reported after each step are collected.  (The example passes 0 as
      time to the integrator; [clock] turns the time into what is passed.)  get_parameters of an
      uninitialised network is None, and the integrator raises. *)
  Context {D : Type}.
  Variable step : D -> world -> R -> list R -> world * result ((list R * R) * D).
  Variable clock : R -> R.
  (** examples/ex2_unitary_time_evolution.py 75-88, as described above *)
  Fixpoint evolve (steps : nat) (d : D) (w : world) (t : R) : world * result (R * D * list (result R)) :=
    match steps with
    | O => (w, Ok (t, d, []))
    | S k =>
        match get_parameters (w_psi w) with
        | None => (w, Err TypeError)
        | Some y =>
            andthen (step d w (clock t) y) (fun w r =>
            let '((dp, dt), d) := r in
            match set_parameters (w_psi w) (PVec dp) with
            | Err e => (w, Err e)
            | Ok q =>
                let w := mk_world q (w_obj w) (w_glob w) in
                let energy := get_energy_mean (w_obj w) in
                andthen (evolve k d w (t + dt)) (fun w r => let '(t', d', es) := r in (w, Ok (t', d', energy :: es)))
            end)
        end
    end.
End Evolve.

(** ** MinSR objects *)

(** the attributes of a MinSR object, minsr.py 29-58, 150-156; metaData holds None or {} *)
Record minsr := mk_minsr { ms_mean0 : option C; ms_var0 : option R; ms_meta : bool }.
(** minsr.py 29-42 *)
Definition new_minsr : minsr := mk_minsr None None false.
(** minsr.py 52-54 *)
Definition minsr_energy_variance (o : minsr) : result R := attribute (ms_var0 o).
(** minsr.py 56-58 *)
Definition minsr_energy_mean (o : minsr) : result R := do e <- attribute (ms_mean0 o); Ok (Re e).

Section MinSRObject.
  Variable n : nat.
  Variable pinv : nat -> (nat -> nat -> C) -> nat -> nat -> C.
  Variable smp : sampler.
  Context {Cfg : Type}.
  Variable draw : nqs -> result (Cfg * layout R).
  Variable markov : tree * nat -> result Cfg.
  Variable coeffs : nqs -> Cfg -> result (Cfg * layout R).
  Variable oloc : nqs -> Cfg -> R -> result (layout (unit -> C)).
  Variable grads : nqs -> Cfg -> result (layout (nat -> C)).
  (** minsr.py 75-158: wave function and object afterwards, update or exception *)
  Definition minsr_step (q : nqs) (o : minsr) (netParameters : pvalue) (t : R) (intStep : option nat) : (nqs * minsr) * result (nat -> C) :=
    let tmp := get_parameters q in
    match set_parameters q netParameters with
    | Err e => ((q, o), Err e)
    | Ok q1 =>
        let '(q2, rs) := do_sample smp draw markov coeffs q1 in
        match rs with
        | Err e => ((q2, o), Err e)
        | Ok (configs, p) =>
            match oloc q2 configs t with
            | Err e => ((q2, o), Err e)
            | Ok eloc =>
                let Eloc := init eloc p in
                match grads q2 configs with
                | Err e => ((q2, o), Err e)
                | Ok g =>
                    let update := minsr_solve n pinv Eloc (init g p) in
                    match restore q2 tmp with
                    | Err e => ((q2, o), Err e)
                    | Ok q3 =>
                        match intStep with
                        | Some O => ((q3, mk_minsr (Some (mean Eloc tt)) (Some (var Eloc tt)) true), Ok update)
                        | _ => ((q3, o), Ok update)
                        end
                    end
                end
            end
        end
    end.
End MinSRObject.
