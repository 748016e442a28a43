(** Properties of the ground state search: C61. *)
From Coq Require Import List Reals Lra Lia.
From Verif Require Import Base Stats_Model Stepper_Model Gs_Model Gs_Spec Gs_Proofs.
Import ListNotations.
Local Open Scope R_scope.

(** C61 (part). A search that returns has performed k <= numSteps Euler steps; it stops before numSteps only
    if the criterion holds, and the criterion holds after none of the earlier steps; one record per step plus
    one is written, record i holding the observables at the parameters after i steps; step i uses 0.95^i times
    the initial diagonal shift.  The criterion after n >= 1 steps refers to the variance computed in the n-th
    step, that is at the parameters before that step; before the first step the variance is taken to be 1.
    Missing: see the refuted claims below. *)
Theorem C61_search_partial :
  forall (W Obs : Type) (rhs : W -> option R -> list R -> result (list R * W)) (variance : W -> R)
         (measure : W -> list R -> result (Obs * W))
         damped write numSteps tol h shift w0 p0 k s',
  ground_state_search rhs variance measure damped write numSteps tol h shift w0 p0 = Ok (k, s') ->
  exists y w m u,
    run rhs measure damped write h shift k w0 y w m u (gs_records s')
    /\ y O = p0 /\ y k = gs_params s' /\ w k = gs_world s'
    /\ (k <= numSteps)%nat
    /\ ((k < numSteps)%nat -> criterion variance tol m k)
    /\ (forall j, (j < k)%nat -> ~ criterion variance tol m j)
    /\ gs_shift s' = shift_at damped shift k.
Proof. intros W Obs rhs variance measure. apply search_run. Qed.
Print Assumptions C61_search_partial.

(** C61 (part). The search returns if the calls of the equation and the measurements do, and the equation has
    the attribute [diagonalShift] whenever it has the method [set_diagonal_shift] (as TDVP; MinSR has none). *)
Theorem C61_returns_partial :
  forall (W Obs : Type) (rhs : W -> option R -> list R -> result (list R * W)) (variance : W -> R)
         (measure : W -> list R -> result (Obs * W)) damped write numSteps tol h shift w0 p0,
  (forall w sh p, exists r, rhs w sh p = Ok r) -> (forall w p, exists r, measure w p = Ok r) ->
  (damped = true -> shift <> None) ->
  exists k s', ground_state_search rhs variance measure damped write numSteps tol h shift w0 p0 = Ok (k, s').
Proof.
  intros W Obs rhs variance measure damped write numSteps tol h shift w0 p0 Hr Hm Hs.
  pose proof (search_total rhs variance measure damped write numSteps tol h shift w0 p0) as H.
  destruct (ground_state_search _ _ _ _ _ _ _ _ _ _ _) as [[k s']|e]; [now exists k, s'|].
  exfalso. enough (@is_ok (nat * gs_state) (@Err (nat * @gs_state W Obs) e) = true) by discriminate. apply H; [| |assumption].
  - intros w sh p. now destruct (Hr w sh p) as (r & ->).
  - intros w p. now destruct (Hm w p) as (r & ->).
Qed.
Print Assumptions C61_returns_partial.

(** A toy problem: one parameter, energy variance 100 p^2 at parameter p, update -p.  The world holds the
    parameters of the last call of the equation. *)
Definition toy_rhs (w : list R) (sh : option R) (p : list R) : result (list R * list R) := Ok (map Ropp p, p).
Definition toy_variance (w : list R) : R := 100 * (hd 0 w * hd 0 w).
Definition toy_measure (w : list R) (p : list R) : result (R * list R) := Ok (hd 0 p, w).
Notation toy := (ground_state_search toy_rhs toy_variance toy_measure).

(** two steps with step size 1/2 from p = 1: variances 100, 25; the records are p = 1, 1/2, 1/4 *)
Example C61_case :
  exists s', toy true true 2%nat (1/10) (1/2) (Some 1) [] [1] = Ok (2%nat, s')
    /\ gs_shift s' = Some (361/400) /\ gs_params s' = [1/4]
    /\ gs_records s' = [(0%nat, 1); (1%nat, 1/2); (2%nat, 1/4)]
    /\ (forall w sh p, exists r, toy_rhs w sh p = Ok r) /\ (forall w p, exists r, toy_measure w p = Ok r).
Proof.
  unfold ground_state_search. cbn [record_obs gs_world gs_params toy_measure bind fst snd gs_shift gs_delta gs_records gs_loop app].
  destruct (Rlt_dec (1/10) 1) as [_|]; [|lra].
  cbn [gs_step toy_rhs bind fst snd gs_world gs_params gs_shift gs_delta gs_records record_obs toy_measure damp app].
  unfold toy_variance at 1. cbn [hd gs_world].
  destruct (Rlt_dec (1/10) (100 * (1 * 1))) as [_|]; [|lra].
  cbn [gs_step toy_rhs bind fst snd gs_world gs_params gs_shift gs_delta gs_records record_obs toy_measure damp app].
  eexists. split; [reflexivity|]. cbn.
  split; [f_equal; lra|]. split; [f_equal; lra|].
  split; [repeat (f_equal; try lra)|].
  split; intros; eexists; reflexivity.
Qed.

(** C61 (finding). The variance is initialised with 1, not computed: with a tolerance of 2 no step is made
    although the variance of the given state is 100. *)
Theorem C61_start_refuted :
  exists tol p0 s', toy true true 2%nat tol (1/2) (Some 1) [] p0 = Ok (0%nat, s')
    /\ toy_variance p0 > tol.
Proof.
  exists 2, [1]. unfold ground_state_search.
  cbn [record_obs gs_world gs_params toy_measure bind fst snd gs_shift gs_delta gs_records gs_loop app].
  destruct (Rlt_dec 2 1); [lra|]. eexists. split; [reflexivity|]. unfold toy_variance. cbn. lra.
Qed.
Print Assumptions C61_start_refuted.

(** C61 (finding). A state that fulfils the criterion already is nevertheless changed by one step. *)
Theorem C61_extra_step_refuted :
  exists tol p0 s', toy true true 2%nat tol (1/2) (Some 1) [] p0 = Ok (1%nat, s')
    /\ toy_variance p0 <= tol /\ gs_params s' <> p0.
Proof.
  exists (1/10), [1/100]. unfold ground_state_search.
  cbn [record_obs gs_world gs_params toy_measure bind fst snd gs_shift gs_delta gs_records gs_loop app].
  destruct (Rlt_dec (1/10) 1) as [_|]; [|lra].
  cbn [gs_step toy_rhs bind fst snd gs_world gs_params gs_shift gs_delta gs_records record_obs toy_measure damp app].
  unfold toy_variance at 1. cbn [hd gs_world].
  destruct (Rlt_dec (1/10) (100 * (1/100 * (1/100)))); [lra|].
  eexists. split; [reflexivity|]. split; [unfold toy_variance; cbn; lra|].
  cbn. intros E. injection E as E. lra.
Qed.
Print Assumptions C61_extra_step_refuted.

(** C61 (finding). The state that is returned may violate the criterion although fewer than numSteps steps
    were made, because the tested variance is the one before the last step. *)
Theorem C61_stale_variance_refuted :
  exists (rhs : list R -> option R -> list R -> result (list R * list R)) tol p0 s',
    (forall w sh p d w', rhs w sh p = Ok (d, w') -> w' = p)
    /\ ground_state_search rhs toy_variance toy_measure true true 2%nat tol (1/2) (Some 1) [] p0 = Ok (1%nat, s')
    /\ toy_variance (gs_params s') > tol.
Proof.
  exists (fun w sh p => Ok ([1], p)), (1/10), [0].
  unfold ground_state_search.
  cbn [record_obs gs_world gs_params toy_measure bind fst snd gs_shift gs_delta gs_records gs_loop app].
  destruct (Rlt_dec (1/10) 1) as [_|]; [|lra].
  cbn [gs_step bind fst snd gs_world gs_params gs_shift gs_delta gs_records record_obs toy_measure damp app].
  unfold toy_variance at 1. cbn [hd gs_world].
  destruct (Rlt_dec (1/10) (100 * (0 * 0))); [lra|].
  eexists. split; [intros w sh p d w' E; now injection E as _ <-|]. split; [reflexivity|].
  unfold toy_variance. cbn. lra.
Qed.
Print Assumptions C61_stale_variance_refuted.

(** C61 (finding). The equation object is not left as it was found: after every search of k >= 1 steps its
    diagonal shift is 0.95^k times what it was. *)
Theorem C61_shift_left_refuted :
  forall (W Obs : Type) (rhs : W -> option R -> list R -> result (list R * W)) (variance : W -> R)
         (measure : W -> list R -> result (Obs * W)) write numSteps tol h d w0 p0 k s',
  ground_state_search rhs variance measure true write numSteps tol h (Some d) w0 p0 = Ok (k, s') ->
  (0 < k)%nat -> d <> 0 -> gs_shift s' <> Some d.
Proof.
  intros W Obs rhs variance measure write numSteps tol h d w0 p0 k s' H Hk Hd.
  destruct (search_run _ _ _ _ _ _ _ _ _ _ _ _ _ H) as (y & w & m & u & _ & _ & _ & _ & _ & _ & _ & ->).
  cbn. intros E. injection E as E. assert ((95 / 100) ^ k < 1) as L.
  { destruct k as [|k]; [lia|]. cbn. clear. induction k as [|k IH]; cbn; [lra|].
    apply Rle_lt_trans with (95/100 * 1); [|lra]. apply Rmult_le_compat_l; lra. }
  assert (((95 / 100) ^ k - 1) * d = 0) as Z by lra. apply Rmult_integral in Z. lra.
Qed.
Print Assumptions C61_shift_left_refuted.
