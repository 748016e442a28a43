(** Model of /repo/jVMC/util/tdvp.py and of [MinSR.solve] in /repo/jVMC/util/minsr.py.

    Simplified: exact arithmetic, with infinities and NaN of floating point numbers where the code
    divides by numbers that can vanish ([xreal]); matrices and vectors are functions of indices below
    the number of parameters [n]; the statistics are those of Stats_Model.v, seen on all ranks at once;
    weights are assumed positive where covar_data divides by them; timings and warnings are left out. *)
From Coq Require Import ZArith List Reals Bool.
From Verif Require Import Base Cplx Mpi_Model Stats_Model Sampler_Model Vqs_Model Stepper_Model.
Import ListNotations.
Local Open Scope R_scope.

(** tdvp.py 14-19, minsr.py 8-13: realFun and imagFun *)
Definition realFun (x : C) : C := RtoC (Re x).
(** tdvp.py 18-19, minsr.py 12-13 *)
Definition imagFun (x : C) : C := (RtoC (1/2) * (x - Cconj x))%C.
(** tdvp.py 88-90 *)
Definition makeReal (imag : bool) : C -> C := if imag then imagFun else realFun.
(** tdvp.py 22-23 *)
Definition transform_helper (rhsPrefactor : C) (imag : bool) (x : C) : C := makeReal imag ((- rhsPrefactor) * x)%C.

(** operations with floating point numbers, tdvp.py 104, 181, 193-209 *)
Definition xabs (a : xreal) : xreal := match a with Fin x => Fin (Rabs x) | PInf | MInf => PInf | NaN => NaN end.
(** jnp.sqrt, tdvp.py 181 *)
Definition xsqrt (a : xreal) : xreal := match a with Fin x => if Rlt_dec x 0 then NaN else Fin (sqrt x) | PInf => PInf | _ => NaN end.
(** the sixth powers of tdvp.py 201, 205 *)
Definition xpow6 (a : xreal) : xreal := match a with Fin x => Fin (x ^ 6) | PInf | MInf => PInf | NaN => NaN end.
(** 1 + x, tdvp.py 104, 201, 205 *)
Definition xplus1 (a : xreal) : xreal := match a with Fin x => Fin (1 + x) | a => a end.
(** product of numbers that are finite or NaN, tdvp.py 205, 207 *)
Definition xmul (a b : xreal) : xreal := match a, b with Fin x, Fin y => Fin (x * y) | _, _ => NaN end.
(** quotient with a non-negative divisor, tdvp.py 317, 320 *)
Definition xquot (a b : xreal) : xreal :=
  match a, b with
  | Fin x, _ => xdiv x b
  | NaN, _ | _, NaN => NaN
  | _, Fin _ => a
  | _, _ => NaN
  end.
(** a number for the finite ones, tdvp.py 209-211 *)
Definition finite (a : xreal) : option R := match a with Fin x => Some x | _ => None end.
(** tdvp.py 209-211: an array without infinities and NaNs *)
Definition finite_vec (n : nat) (v : nat -> xreal) : option (nat -> R) :=
  if forallb (fun k => match v k with Fin _ => true | _ => false end) (seq 0 n)
  then Some (fun k => match v k with Fin x => x | _ => 0 end) else None.

(** jnp.linalg.norm, jnp.dot; tdvp.py 171, 197, 209, 211 *)
Definition norm (n : nat) (v : nat -> C) : R := sqrt (rsumn n (fun k => Cnorm2 (v k))).
(** jnp.dot, tdvp.py 171, 211 *)
Definition dot (n : nat) (A : nat -> nat -> C) (v : nat -> C) : nat -> C := fun i => csumn n (fun k => (A i k * v k)%C).
(** jnp.transpose(jnp.conj(A)), tdvp.py 171 *)
Definition conj_transpose (A : nat -> nat -> C) : nat -> nat -> C := fun i j => Cconj (A j i).

(** settings of a TDVP object, tdvp.py 74-94 *)
Record settings := mk_settings {
  c_exact : bool;              (* isinstance(sampler, ExactSampler) *)
  c_snrTol : R; c_pinvTol : R; c_pinvCutoff : R;
  c_imag : bool; c_prefactor : C; c_shift : R; c_crossVal : bool; c_onDevice : bool }.

(** attributes set by get_tdvp_equation, tdvp.py 136-142 *)
Record equation := mk_equation { e_mean : C; e_var : R; e_F0 : nat -> C; e_S0 : nat -> nat -> C }.
(** attributes set by _transform_to_eigenbasis, _get_snr and solve, tdvp.py 157-193 *)
Record spectrum := mk_spectrum {
  s_ev : nat -> R; s_V : nat -> nat -> C; s_VtF : nat -> C; s_rhoVar : nat -> R; s_snr : nat -> xreal; s_invEv : nat -> R }.
(** metaData, tdvp.py 298-304, 321-322 *)
Record metadata := mk_meta {
  m_error : xreal; m_residual : xreal; m_cutoff : R; m_snr : nat -> xreal; m_ev : nat -> R;
  m_cvRes : option xreal; m_cvErr : option xreal }.
(** the attributes of a TDVP object; None before they are first assigned *)
Record tdvp := mk_tdvp {
  o_eq : option equation; o_S : option (nat -> nat -> C); o_sp : option spectrum;
  o_mean0 : option C; o_var0 : option R; o_meta : option metadata; o_cv : option (xreal * xreal) }.

(** tdvp.py 134-148; returns the object, S and F *)
Definition get_tdvp_equation (c : settings) (o : tdvp) (Eloc : sobs unit) (gradients : sobs nat)
  : tdvp * ((nat -> nat -> C) * (nat -> C)) :=
  let F0 := fun k => ((- c_prefactor c) * covar gradients Eloc (k, tt))%C in
  let F := fun k => makeReal (c_imag c) (F0 k) in
  let S0 := fun k l => covar gradients gradients (k, l) in
  let S := fun k l => makeReal (c_imag c) (S0 k l) in
  let S := if Rlt_dec (/ 10 ^ 10) (c_shift c)
           then fun k l => (S k l + (if Nat.eqb k l then RtoC (c_shift c) * S k k else C0))%C
           else S in
  (mk_tdvp (Some (mk_equation (mean Eloc tt) (var Eloc tt) F0 S0)) (o_S o) (o_sp o) (o_mean0 o) (o_var0 o) (o_meta o) (o_cv o),
   (S, F)).

(** tdvp.py 150-151: an unknown keyword argument *)
Definition get_sr_equation (c : settings) (o : tdvp) (Eloc : sobs unit) (gradients : sobs nat)
  : result ((nat -> nat -> C) * (nat -> C)) := Err TypeError.

Section Solve.
  Variable n : nat.                                                       (* number of parameters *)
  (** jnp.linalg.eigh and numpy.linalg.eigh: eigenvalues and eigenvectors, or an exception *)
  Variables eigh_jax eigh_np : (nat -> nat -> C) -> result ((nat -> R) * (nat -> nat -> C)).
  Variable c : settings.

  (** tdvp.py 155-169 *)
  Definition eigenbasis (S : nat -> nat -> C) : result ((nat -> R) * (nat -> nat -> C)) :=
    if c_onDevice c
    then match eigh_jax S with Err ValueError => eigh_np S | r => r end
    else eigh_np S.

  (** tdvp.py 173-181; [globNumSamples] is the module-level variable of mpi_wrapper.py.  covar_data
      yields samples of shape (n, 1). *)
  Definition get_rhoVar (V : nat -> nat -> C) (Eloc : sobs unit) (gradients : sobs nat) : nat -> R :=
    let EO := transform_linear (seq 0 n) (conj_transpose V)
                (map (fun (x : nat * unit -> C) kl => transform_helper (c_prefactor c) (c_imag c) (x kl)))
                (covar_data gradients Eloc) in
    fun k => var EO (k, tt).
  (** tdvp.py 181 *)
  Definition get_snr (globNumSamples : Z) (VtF : nat -> C) (rhoVar : nat -> R) : nat -> xreal :=
    fun k => xsqrt (xabs (xdiv (IZR globNumSamples * Cnorm2 (VtF k)) (Fin (rhoVar k)))).

  (** |ev / ev[-1]|, tdvp.py 193, 201 *)
  Definition rel_ev (ev : nat -> R) (k : nat) : xreal := xdiv (Rabs (ev k)) (Fin (Rabs (ev (n - 1)%nat))).
  (** tdvp.py 193 *)
  Definition inv_ev (ev : nat -> R) (k : nat) : R := if xlt (Fin (/ 10 ^ 14)) (rel_ev ev k) then 1 / ev k else 0.
  (** 1. / (1. + (a / b)**6), tdvp.py 201, 205 *)
  Definition soft_cutoff (a : R) (b : xreal) : xreal := xdiv 1 (xplus1 (xpow6 (xdiv a b))).
  (** tdvp.py 201-207 *)
  Definition pinv_ev (sp : spectrum) (cutoff : R) (k : nat) : xreal :=
    let regularizer := soft_cutoff (Rmax cutoff (c_pinvCutoff c)) (rel_ev (s_ev sp) k) in
    let regularizer := if c_exact c then regularizer
                       else xmul regularizer (soft_cutoff (c_snrTol c) (s_snr sp k)) in
    xmul (Fin (s_invEv sp k)) regularizer.
  (** tdvp.py 209 *)
  Definition residual_of (sp : spectrum) (F_norm : R) (pinvEv : nat -> xreal) : xreal :=
    match finite_vec n pinvEv with
    | None => NaN
    | Some p => xdiv (norm n (fun k => (RtoC (p k * s_ev sp k - 1) * s_VtF sp k)%C)) (Fin F_norm)
    end.
  (** the loop, tdvp.py 195-209; [pinvEv] is unassigned at first.  Out of fuel: [Diverges]. *)
  Fixpoint search (fuel : nat) (sp : spectrum) (F_norm : R) (residual : xreal) (cutoff : R) (pinvEv : option (nat -> xreal))
    : result (xreal * R * option (nat -> xreal)) :=
    if xlt (Fin (c_pinvTol c)) residual && (if Rlt_dec (c_pinvCutoff c) cutoff then true else false) then
      match fuel with
      | O => Err Diverges
      | S fuel =>
          let cutoff := cutoff * (8/10) in
          let p := pinv_ev sp cutoff in
          search fuel sp F_norm (residual_of sp F_norm p) cutoff (Some p)
      end
    else Ok (residual, cutoff, pinvEv).
  (** tdvp.py 195-213; an update of NaNs is [None] *)
  Definition regularise (fuel : nat) (sp : spectrum) (F : nat -> C) : result (option (nat -> R) * xreal * R) :=
    do r <- search fuel sp (norm n F) (Fin 1) (/ 10 ^ 2) None;
    let '(residual, cutoff, pinvEv) := r in
    match pinvEv with
    | None => Err UnboundLocalError
    | Some p =>
        let update := match finite_vec n p with
                      | None => None
                      | Some p => Some (fun k => Re (dot n (s_V sp) (fun j => (RtoC (p j) * s_VtF sp j)%C) k))
                      end in
        Ok (update, residual, Rmax cutoff (c_pinvCutoff c))
    end.

  (** tdvp.py 183-213: object afterwards and value or exception *)
  Definition solve (fuel : nat) (globNumSamples : Z) (o : tdvp) (Eloc : sobs unit) (gradients : sobs nat)
    : tdvp * result (option (nat -> R) * xreal * R) :=
    let '(o1, (Sm, F)) := get_tdvp_equation c o Eloc gradients in
    let o2 := mk_tdvp (o_eq o1) (Some Sm) (o_sp o1) (o_mean0 o1) (o_var0 o1) (o_meta o1) (o_cv o1) in
    match eigenbasis Sm with
    | Err e => (o2, Err e)
    | Ok (ev, V) =>
        let VtF := dot n (conj_transpose V) F in
        let rhoVar := get_rhoVar V Eloc gradients in
        let sp := mk_spectrum ev V VtF rhoVar (get_snr globNumSamples VtF rhoVar) (inv_ev ev) in
        (mk_tdvp (o_eq o2) (o_S o2) (Some sp) (o_mean0 o2) (o_var0 o2) (o_meta o2) (o_cv o2),
         regularise fuel sp F)
    end.

  (** tdvp.py 102-104 *)
  Definition tdvp_error (q : equation) (var0 : R) (update : option (nat -> R)) : xreal :=
    match update with
    | None => NaN
    | Some u =>
        let uc := fun k => RtoC (u k) in
        let uSu := csumn n (fun k => (uc k * dot n (e_S0 q) uc k)%C) in
        let uF := csumn n (fun k => (uc k * e_F0 q k)%C) in
        xabs (xplus1 (xdiv (Re uSu - 2 * Re uF) (Fin var0)))
    end.

  (** tdvp.py 306-324: object afterwards and (update) or exception; [m] is the metadata stored before *)
  Definition cross_validate (fuel : nat) (glob : Z) (o : tdvp) (m : metadata) (var0 : R) (Eloc : sobs unit) (gradients : sobs nat)
    : tdvp * result (option (nat -> R)) :=
    match subset (Some 0%Z) None (Some 2%Z) Eloc, subset (Some 0%Z) None (Some 2%Z) gradients,
          subset (Some 1%Z) None (Some 2%Z) Eloc, subset (Some 1%Z) None (Some 2%Z) gradients with
    | Ok Eloc1, Ok gradients1, Ok Eloc2, Ok gradients2 =>
        let '(o1, r1) := solve fuel glob o Eloc1 gradients1 in
        match r1 with
        | Err e => (o1, Err e)
        | Ok (update1, _, _) =>
            let '(o2, (S2, F2)) := get_tdvp_equation c o1 Eloc2 gradients2 in
            let validation_err := match o_eq o2 with Some q => tdvp_error q var0 update1 | None => NaN end in
            let '(o3, r3) := solve fuel glob o2 Eloc gradients in
            match r3 with
            | Err e => (o3, Err e)
            | Ok (update, solverResidual, _) =>
                let vres := match update1 with
                            | None => NaN
                            | Some u => xdiv (norm n (fun k => (dot n S2 (fun j => RtoC (u j)) k - F2 k)%C)) (Fin (norm n F2))
                            end in
                let f1 := xquot vres solverResidual in
                let f2 := xquot validation_err (m_error m) in
                let m' := mk_meta (m_error m) (m_residual m) (m_cutoff m) (m_snr m) (m_ev m) (Some f1) (Some f2) in
                let '(o4, (Sm, _)) := get_tdvp_equation c o3 Eloc gradients in
                (mk_tdvp (o_eq o4) (Some Sm) (o_sp o4) (o_mean0 o4) (o_var0 o4) (Some m') (Some (f1, f2)), Ok update)
            end
        end
    | _, _, _, _ => (o, Err ValueError)
    end.

  (** tdvp.py 292-326, with intStep == 0: object afterwards and update *)
  Definition record_step (fuel : nat) (glob : Z) (o : tdvp) (update : option (nat -> R)) (residual : xreal) (cutoff : R)
             (Eloc : sobs unit) (gradients : sobs nat) : tdvp * result (option (nat -> R)) :=
    match o_eq o, o_sp o with
    | Some q, Some sp =>
        let m := mk_meta (tdvp_error q (e_var q) update) residual cutoff (s_snr sp) (s_ev sp) None None in
        let o1 := mk_tdvp (o_eq o) (o_S o) (o_sp o) (Some (e_mean q)) (Some (e_var q)) (Some m) (o_cv o) in
        if c_crossVal c then cross_validate fuel glob o1 m (e_var q) Eloc gradients else (o1, Ok update)
    | _, _ => (o, Err AttributeError)
    end.
End Solve.

(** ** TDVP.__call__ *)

(** The sampler's effect on the module-level variable globNumSamples: MCSampler calls
    distribute_sampling (sampler.py 234, 267), ExactSampler.sample (sampler.py 484-518) does not *)
Inductive sampler :=
| MCMC (rank commSize numSamples devices numChains : Z)
| Generative (rank commSize numSamples devices : Z)
| Exact.
(** sampler.py 234, 267: globNumSamples after sampling *)
Definition sample_glob (s : sampler) (glob : Z) : Z :=
  match s with
  | MCMC r cs ns d k => snd (mcmc_counts r cs ns d k 1)
  | Generative r cs ns d => snd (gen_counts r cs ns d 1)
  | Exact => glob
  end.
(** other uses of samplers: construction of an ExactSampler with [states] basis states
    (sampler.py 415), sampling *)
Inductive use := NewExact (states : Z) | Sample (s : sampler).
(** globNumSamples after such a use, sampler.py 234, 267, 415 *)
Definition use_glob (glob : Z) (u : use) : Z :=
  match u with
  | NewExact states => snd (distribute_sampling 0 1 states None 1)
  | Sample s => sample_glob s glob
  end.

(** everything a call of the object can change: wave function, object, globNumSamples *)
Record world := mk_world { w_psi : nqs; w_obj : tdvp; w_glob : Z }.

Section Call.
  Variable n : nat.
  Variables eigh_jax eigh_np : (nat -> nat -> C) -> result ((nat -> R) * (nat -> nat -> C)).
  Variable c : settings.
  Variable smp : sampler.
  Context {Cfg : Type}.
  (** the sampler's draw (its chains are part of the oracle), hamiltonian.get_O_loc and
      psi.gradients read the wave function and return or raise *)
  Variable draw : nqs -> result (Cfg * layout R).
  Variable markov : tree * nat -> result Cfg.
  Variable coeffs : nqs -> Cfg -> result (Cfg * layout R).
  Variable oloc : nqs -> Cfg -> R -> result (layout (unit -> C)).
  Variable grads : nqs -> Cfg -> result (layout (nat -> C)).

  (** sampler.sample(numSamples=...), tdvp.py 268; the sampler's network is psi *)
  Definition do_sample (q : nqs) : call (Cfg * layout R) :=
    match smp with
    | MCMC _ _ _ _ _ => sample_mcmc markov coeffs q None
    | Generative _ _ _ _ => sample_gen draw q None
    | Exact => sample_exact draw q None
    end.

  (** psi.set_parameters(tmpParameters), tdvp.py 290: get_parameters returned None if uninitialised *)
  Definition restore (q : nqs) (tmp : option (list R)) : result nqs :=
    match tmp with Some P => set_parameters q (PVec P) | None => Err TypeError end.

  (** tdvp.py 219-326; [intStep]: None if not given *)
  Definition tdvp_call (fuel : nat) (w : world) (netParameters : pvalue) (t : R) (intStep : option nat)
    : world * result (option (nat -> R)) :=
    let tmp := get_parameters (w_psi w) in
    match set_parameters (w_psi w) netParameters with
    | Err e => (w, Err e)
    | Ok q1 =>
        let '(q2, rs) := do_sample q1 in
        let glob := sample_glob smp (w_glob w) in
        match rs with
        | Err e => (mk_world q2 (w_obj w) glob, Err e)
        | Ok (configs, p) =>
            match oloc q2 configs t with
            | Err e => (mk_world q2 (w_obj w) glob, Err e)
            | Ok eloc =>
                let Eloc := init eloc p in
                match grads q2 configs with
                | Err e => (mk_world q2 (w_obj w) glob, Err e)
                | Ok g =>
                    let gradients := init g p in
                    let '(o1, r1) := solve n eigh_jax eigh_np c fuel glob (w_obj w) Eloc gradients in
                    match r1 with
                    | Err e => (mk_world q2 o1 glob, Err e)
                    | Ok (update, residual, cutoff) =>
                        match restore q2 tmp with
                        | Err e => (mk_world q2 o1 glob, Err e)
                        | Ok q3 =>
                            match intStep with
                            | Some O => let '(o2, r2) := record_step n eigh_jax eigh_np c fuel glob o1 update residual cutoff Eloc gradients in
                                        (mk_world q3 o2 glob, r2)
                            | _ => (mk_world q3 o1 glob, Ok update)
                            end
                        end
                    end
                end
            end
        end
    end.
End Call.

(** ** MinSR *)

(** stats.py 332-336; gather concatenates the samples of all ranks and devices *)
Definition gathered {I} (a : sobs I) : list (I -> C) := concat (concat (so_data a)).
(** stats.py 332-336 *)
Definition tangent_kernel (n : nat) (a : sobs nat) : nat -> nat -> C :=
  fun i j => csumn n (fun k => (nth i (gathered a) (fun _ => C0) k * Cconj (nth j (gathered a) (fun _ => C0) k))%C).
(** minsr.py 60-73; [pinv] is jnp.linalg.pinv applied to a matrix of dimension [N] *)
Definition minsr_solve (n : nat) (pinv : nat -> (nat -> nat -> C) -> nat -> nat -> C) (eloc : sobs unit) (gradients : sobs nat) : nat -> C :=
  let T := tangent_kernel n gradients in
  let N := length (gathered gradients) in
  let T_inv := pinv N T in
  let eloc_all := fun i => nth i (gathered eloc) (fun _ => C0) tt in
  let O := fun i k => nth i (gathered gradients) (fun _ => C0) k in
  fun k => (- csumn N (fun i => (csumn N (fun j => (Cconj (O j k) * T_inv j i)%C) * eloc_all i)%C))%C.

(** minsr.py 75-158: the wave function afterwards and the update or exception; the metadata
    (Eloc.mean, Eloc.var for intStep == 0) are left out *)
Section MinSRCall.
  Variable n : nat.
  Variable pinv : nat -> (nat -> nat -> C) -> nat -> nat -> C.
  Variable smp : sampler.
  Context {Cfg : Type}.
  Variable draw : nqs -> result (Cfg * layout R).
  Variable markov : tree * nat -> result Cfg.
  Variable coeffs : nqs -> Cfg -> result (Cfg * layout R).
  Variable oloc : nqs -> Cfg -> R -> result (layout (unit -> C)).
  Variable grads : nqs -> Cfg -> result (layout (nat -> C)).
  (** minsr.py 75-158 *)
  Definition minsr_call (q : nqs) (netParameters : pvalue) (t : R) : nqs * result (nat -> C) :=
    let tmp := get_parameters q in
    match set_parameters q netParameters with
    | Err e => (q, Err e)
    | Ok q1 =>
        let '(q2, rs) := do_sample smp draw markov coeffs q1 in
        match rs with
        | Err e => (q2, Err e)
        | Ok (configs, p) =>
            match oloc q2 configs t with
            | Err e => (q2, Err e)
            | Ok eloc =>
                match grads q2 configs with
                | Err e => (q2, Err e)
                | Ok g =>
                    let update := minsr_solve n pinv (init eloc p) (init g p) in
                    match restore q2 tmp with
                    | Err e => (q2, Err e)
                    | Ok q3 => (q3, Ok update)
                    end
                end
            end
        end
    end.
End MinSRCall.
