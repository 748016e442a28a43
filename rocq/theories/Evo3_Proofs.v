(** Steps return if the evaluations do. *)
From Coq Require Import List Reals Lra Lia Arith ZArith Bool.
From Verif Require Import Base Cplx Mpi_Model Stats_Model Stats_Spec Stats_Proofs Sampler_Model Stepper_Model
  Vqs_Model Vqs_Spec Vqs_Proofs Tdvp_Model Tdvp_Spec Tdvp_Proofs Tdvp5_Proofs Tdvp7_Proofs Evo_Model Evo_Spec Evo_Proofs Evo2_Proofs.
Import ListNotations.
Local Open Scope R_scope.

Section Total.
  Context {W : Type}.
  Variable f : W -> list R -> R -> nat -> W * result (list R).
  Variables (Inv : W -> Prop) (g : rhs) (n : nat).
  Hypothesis Hf : forall w y t k, Inv w -> length y = n -> exists w', f w y t k = (w', Ok (g y t k)) /\ Inv w' /\ length (g y t k) = n.

  Ltac len := repeat rewrite ?vadd_length, ?vsub_length, ?vscal_length; repeat match goal with H : length _ = n |- _ => rewrite H end; rewrite ?Nat.min_id; reflexivity.
  Lemma euler_total dt w t y : Inv w -> length y = n -> exists w', euler_w f dt w t y = (w', Ok (euler_step dt g t y)) /\ Inv w'.
  Proof using Hf. intros I L. destruct (Hf w y t O I L) as (w1 & E & I1 & _). exists w1. unfold euler_w. rewrite E. split; [reflexivity|exact I1]. Qed.
  Lemma heun_total sdt arg w t y : Inv w -> length y = n -> exists w', heun_w f sdt arg w t y = (w', Ok (heun_step sdt arg g t y)) /\ Inv w'.
  Proof using Hf.
    intros I L. unfold heun_w, heun_step. set (dt := match arg with Some d => d | None => sdt end). destruct (Hf w y t O I L) as (w1 & E & I1 & L1). rewrite E. cbn [andthen].
    destruct (Hf w1 (vadd y (vscal dt (g y t O))) (t + dt) 1%nat I1 ltac:(len)) as (w2 & E2 & I2 & _). rewrite E2. exists w2. split; [reflexivity|exact I2].
  Qed.
  Variables (N : list R -> xreal) (tol maxStep : R).
  Lemma trial_total w t y dt : Inv w -> length y = n -> exists w', trial_w f (fun _ => N) tol maxStep w t y dt = (w', Ok (trial g N tol maxStep t y dt)) /\ Inv w'.
  Proof using Hf.
    intros I L. unfold trial_w, trial. destruct (Hf w y t O I L) as (w1 & E & I1 & L1). rewrite E. cbn [andthen]. clear E. set (k0 := g y t O) in *.
    set (y1 := vadd y (vscal dt k0)). assert (M1 : length y1 = n) by (unfold y1; len).
    destruct (Hf w1 y1 (t + dt) 1%nat I1 M1) as (w2 & E & I2 & L2). rewrite E. cbn [andthen]. clear E.
    set (y2 := vsub y1 (vscal (1/2 * dt) k0)). assert (M2 : length y2 = n) by (unfold y2; len).
    destruct (Hf w2 y2 (t + 1/2 * dt) 2%nat I2 M2) as (w3 & E & I3 & L3). rewrite E. cbn [andthen]. clear E.
    set (y3 := vadd y (vscal (1/4 * dt) (vadd k0 (g y2 (t + 1/2 * dt) 2%nat)))). assert (M3 : length y3 = n) by (unfold y3; len).
    destruct (Hf w3 y3 (t + 1/2 * dt) 3%nat I3 M3) as (w4 & E & I4 & L4). rewrite E. cbn [andthen]. clear E.
    set (y4 := vadd y3 (vscal (1/2 * dt) (g y3 (t + 1/2 * dt) 3%nat))). assert (M4 : length y4 = n) by (unfold y4; len).
    destruct (Hf w4 y4 (t + dt) 4%nat I4 M4) as (w5 & E & I5 & L5). rewrite E. cbn [andthen]. clear E.
    exists w5. split; [reflexivity|exact I5].
  Qed.
  Lemma loop_total fuel w t y dt : Inv w -> length y = n ->
    exists w', loop_w f (fun _ => N) tol maxStep fuel w t y dt = (w', adaptive_loop g N tol maxStep fuel t y dt) /\ Inv w'.
  Proof using Hf.
    revert w dt. induction fuel as [|k IH]; intros w dt I L; [exists w; split; [reflexivity|exact I]|]. cbn [loop_w adaptive_loop].
    destruct (trial_total w t y dt I L) as (w1 & E & I1). rewrite E. cbn [andthen]. destruct (trial g N tol maxStep t y dt) as [[dy fe] dt'].
    destruct (xlt fe (Fin 1)); [|exists w1; split; [reflexivity|exact I1]].
    destruct dt'; [now apply IH|exists w1; split; [reflexivity|exact I1]..].
  Qed.
  Lemma adaptive_total fuel sdt w t y : Inv w -> length y = n ->
    exists w', adaptive_w f (fun _ => N) tol maxStep fuel sdt w t y = (w', adaptive_step g N tol maxStep fuel sdt t y) /\ Inv w'.
  Proof using Hf.
    intros I L. unfold adaptive_w, adaptive_step. destruct sdt as [dt| | |]; [|exists w; split; [reflexivity|exact I]..].
    destruct (loop_total fuel w t y dt I L) as (w1 & E & I1). rewrite E. exists w1. destruct (adaptive_loop g N tol maxStep fuel t y dt) as [[[p q] d]|]; split; try reflexivity; exact I1.
  Qed.
End Total.

Section History2.
  Context {Cfg : Type}.
  Variables (n : nat) (ej en : (nat -> nat -> C) -> result ((nat -> R) * (nat -> nat -> C))) (smp : sampler).
  Variables (draw : nqs -> result (Cfg * layout R)) (markov : tree * nat -> result Cfg) (coeffs : nqs -> Cfg -> result (Cfg * layout R)).
  Variables (oloc : nqs -> Cfg -> R -> result (layout (unit -> C))) (grads : nqs -> Cfg -> result (layout (nat -> C))).
  (** without cross validation an evaluation returns if it returns without a number *)
  Lemma call_returns c fuel w y t st w1 u q o z : c_crossVal c = false ->
    tdvp_call n ej en c smp draw markov coeffs oloc grads fuel w (PVec y) t None = (w1, Ok u) ->
    same_network (w_psi w) q -> good q -> sample_glob smp z = sample_glob smp (w_glob w) ->
    exists w2, tdvp_call n ej en c smp draw markov coeffs oloc grads fuel (mk_world q o z) (PVec y) t st = (w2, Ok u) /\ w_psi w2 = q.
  Proof.
    intros HC H S G Z. apply call_ok in H as (q1 & configs & p & eloc & gr & o1 & u' & res & cut & E1 & E2 & E3 & E4 & E5 & E6 & E7 & E8). destruct E8 as [_ ->].
    destruct (solve_same _ _ _ _ _ _ _ o _ _ _ _ E5) as (o1' & SO & _). rewrite <- Z in SO.
    destruct (call_runs n ej en smp draw markov coeffs oloc grads c fuel (mk_world q o z) (PVec y) t st q1 q configs p eloc gr o1' u' res cut) as (w2 & A & B & _); try assumption.
    - cbn [w_psi]. rewrite <- (set_same _ _ y S). exact E1.
    - cbn [w_psi]. apply (restore_good q q1 G). apply (same_network_trans _ (w_psi w)); [now apply same_network_sym|now apply set_network in E1].
    - exists w2. auto.
  Qed.
End History2.

(** successive steps of AdaptiveHeun are a trajectory *)
Lemma trajectory_run g N tol maxStep fuel : forall steps d t y y' t' d',
  (exists ps, trajectory (adaptive_step g N tol maxStep fuel) (fun t => t) steps d t y = Ok (y', t', d', ps))
  <-> exists ds, adaptive_run g N tol maxStep fuel steps d t y = Ok (y', t', ds, d').
Proof.
  induction steps as [|k IH]; intros d t y y' t' d'.
  - cbn. split; intros [x H]; injection H as <- <- <- <-; eexists; reflexivity.
  - cbn [adaptive_run trajectory]. destruct (adaptive_step g N tol maxStep fuel d t y) as [[yd d1]|]; cbn [bind]; [|split; intros [? H]; discriminate].
    specialize (IH d1 (t + snd yd) (fst yd) y' t' d').
    split; intros [x H].
    + destruct (trajectory _ _ k _ _ _) as [[[[y1 t1] d2] ps]|] eqn:E; [|discriminate]. cbn [bind] in H. injection H as -> -> -> _.
      destruct (proj1 IH (ex_intro _ ps eq_refl)) as [ds ->]. cbn [bind]. eexists. reflexivity.
    + destruct (adaptive_run _ _ _ _ _ k _ _ _) as [[[[y1 t1] ds] d2]|] eqn:E; [|discriminate]. cbn [bind] in H. injection H as -> -> _ ->.
      destruct (proj2 IH (ex_intro _ ds eq_refl)) as [ps ->]. cbn [bind]. eexists. reflexivity.
Qed.
