(** Evaluations of the TDVP equation do not depend on the history of the object. *)
From Coq Require Import List Reals Lra Lia Arith ZArith Bool.
From Verif Require Import Base Cplx Mpi_Model Stats_Model Stats_Spec Stats_Proofs Sampler_Model Stepper_Model
  Vqs_Model Vqs_Spec Vqs_Proofs Tdvp_Model Tdvp_Spec Tdvp_Proofs Tdvp5_Proofs Tdvp7_Proofs Evo_Model Evo_Spec Evo_Proofs.
Import ListNotations.
Local Open Scope R_scope.

Lemma sample_glob_idem s z : sample_glob s (sample_glob s z) = sample_glob s z.
Proof. destruct s; reflexivity. Qed.
Lemma same_network_refl q : same_network q q.
Proof. repeat split. Qed.
Lemma same_network_sym q q' : same_network q q' -> same_network q' q.
Proof. intros (A & B & D & E). repeat split; congruence. Qed.
Lemma same_network_trans q q' q2 : same_network q q' -> same_network q' q2 -> same_network q q2.
Proof. intros (A & B & D & E) (A' & B' & D' & E'). repeat split; congruence. Qed.
Lemma set_same q q' y : same_network q q' -> set_parameters q (PVec y) = set_parameters q' (PVec y).
Proof. intros (A & B & D & E). unfold set_parameters, set_params. now rewrite A, B, D, E. Qed.
Lemma set_network q P q1 : set_parameters q P = Ok q1 -> same_network q q1.
Proof.
  unfold set_parameters. destruct (nq_init q) eqn:E; [|discriminate]. destruct P.
  - destruct (param_unflatten _ _ _ _); cbn; [|discriminate]. intros H. injection H as <-. repeat split.
  - intros H. injection H as <-. repeat split.
Qed.
Lemma restore_good q q1 : good q -> same_network q q1 -> restore q1 (get_parameters q) = Ok q.
Proof.
  intros G S. destruct (good_get q G) as [E _]. rewrite E. cbn [restore]. rewrite <- (set_same q q1 _ S). now apply get_set.
Qed.

Lemma record_same n ej en c fuel N o o1 o1' o2 upd res cut E G u :
  solve n ej en c fuel N o E G = (o1, Ok (upd, res, cut)) -> record_step n ej en c fuel N o1 upd res cut E G = (o2, Ok u) ->
  o_eq o1' = o_eq o1 -> o_S o1' = o_S o1 -> o_sp o1' = o_sp o1 ->
  exists o2', record_step n ej en c fuel N o1' upd res cut E G = (o2', Ok u)
    /\ o_mean0 o2' = o_mean0 o2 /\ o_var0 o2' = o_var0 o2 /\ o_meta o2' = o_meta o2.
Proof.
  intros HS H Q1 Q2 Q3. unfold record_step in *. rewrite Q1, Q3.
  destruct (o_eq o1) as [q|] eqn:Q; [|discriminate]. destruct (o_sp o1) as [sp|] eqn:P; [|discriminate].
  destruct (c_crossVal c).
  - unfold cross_validate in *. destruct (subset _ _ _ E) as [E1|]; [|discriminate]. destruct (subset _ _ _ G) as [G1|]; [|discriminate].
    destruct (subset (Some 1%Z) _ _ E) as [E2|]; [|discriminate]. destruct (subset (Some 1%Z) _ _ G) as [G2|]; [|discriminate].
    destruct (solve _ _ _ _ _ _ (mk_tdvp (Some q) (o_S o1) _ _ _ _ _) E1 G1) as [oa [[[ua ra] ca]|]] eqn:SA; [|discriminate].
    set (ob1 := mk_tdvp (Some q) (o_S o1') _ _ _ _ _).
    destruct (solve_same _ _ _ _ _ _ _ ob1 _ _ _ _ SA) as (oa' & SA' & A1 & A2 & A3 & A4 & A5 & A6 & A7). rewrite SA'.
    apply solve_keeps in SA as (B1 & B2 & B3 & B4). cbn in B1, B2, B3, B4.
    unfold get_tdvp_equation in H |- *. cbv zeta in H |- *. cbn [o_eq o_S o_sp o_mean0 o_var0 o_meta o_cv] in H |- *.
    destruct (solve _ _ _ _ _ _ _ E G) as [oc [[[uc rc] cc]|]] eqn:SC in H; [|discriminate].
    match goal with |- context [solve _ _ _ _ _ _ ?o E G] => destruct (solve_same _ _ _ _ _ _ _ o _ _ _ _ SC) as (oc' & SC' & D1 & D2 & D3 & D4 & D5 & D6 & D7); rewrite SC' end.
    apply solve_keeps in SC as (F1 & F2 & F3 & F4). cbn in F1, F2, F3, F4, D4, D5, D6, D7.
    injection H as <- <-. eexists. split; [reflexivity|]. cbn [o_mean0 o_var0 o_meta]. rewrite D4, D5, A4, A5, F1, F2, B1, B2. repeat split.
  - injection H as <- <-. eexists. split; [reflexivity|]. repeat split.
Qed.

Section History.
  Context {Cfg : Type}.
  Variables (n : nat) (ej en : (nat -> nat -> C) -> result ((nat -> R) * (nat -> nat -> C))) (smp : sampler).
  Variables (draw : nqs -> result (Cfg * layout R)) (markov : tree * nat -> result Cfg) (coeffs : nqs -> Cfg -> result (Cfg * layout R)).
  Variables (oloc : nqs -> Cfg -> R -> result (layout (unit -> C))) (grads : nqs -> Cfg -> result (layout (nat -> C))).
  Notation call := (tdvp_call n ej en) (only parsing).

  Lemma call_history c fuel w y t st w' u q o z : call c smp draw markov coeffs oloc grads fuel w (PVec y) t st = (w', Ok u) ->
    same_network (w_psi w) q -> good q -> sample_glob smp z = sample_glob smp (w_glob w) ->
    exists w2, call c smp draw markov coeffs oloc grads fuel (mk_world q o z) (PVec y) t st = (w2, Ok u)
      /\ o_eq (w_obj w2) = o_eq (w_obj w') /\ o_S (w_obj w2) = o_S (w_obj w')
      /\ (st = Some O -> o_mean0 (w_obj w2) = o_mean0 (w_obj w') /\ o_var0 (w_obj w2) = o_var0 (w_obj w') /\ o_meta (w_obj w2) = o_meta (w_obj w')).
  Proof.
    intros H S G Z. apply call_ok in H as (q1 & configs & p & eloc & gr & o1 & u' & res & cut & E1 & E2 & E3 & E4 & E5 & E6 & E7 & E8).
    unfold tdvp_call. cbn [w_psi w_obj w_glob]. rewrite <- (set_same _ _ y S), E1.
    pose proof (do_sample_keeps smp draw markov coeffs q1) as K. destruct (do_sample smp draw markov coeffs q1) as [q2 rs]. cbn [fst snd] in K, E2. subst q2 rs.
    rewrite E3, E4, Z. destruct (solve_same _ _ _ _ _ _ _ o _ _ _ _ E5) as (o1' & SO & A1 & A2 & A3 & _). rewrite SO.
    rewrite (restore_good q q1 G) by (apply (same_network_trans _ (w_psi w)); [now apply same_network_sym|now apply set_network in E1]).
    destruct st as [[|k]|].
    - destruct (record_same _ _ _ _ _ _ _ _ o1' _ _ _ _ _ _ _ E5 E8 A1 A2 A3) as (o2' & R2 & B1 & B2 & B3).
      destruct (record_ok _ _ _ _ _ _ _ _ _ _ _ _ _ _ _ E5 E8) as (_ & T1 & T2 & _).
      destruct (record_ok _ _ _ _ _ _ _ _ _ _ _ _ _ _ _ SO R2) as (_ & T1' & T2' & _).
      rewrite R2. eexists. split; [reflexivity|]. cbn [w_obj]. rewrite T1', T2', T1, T2. auto.
    - destruct E8 as [-> ->]. eexists. split; [reflexivity|]. cbn [w_obj]. repeat split; try assumption; discriminate.
    - destruct E8 as [-> ->]. eexists. split; [reflexivity|]. cbn [w_obj]. repeat split; try assumption; discriminate.
  Qed.
  (** the number of the evaluation does not matter for what it returns *)
  Lemma call_number c fuel w y t st w' u : good (w_psi w) -> call c smp draw markov coeffs oloc grads fuel w (PVec y) t st = (w', Ok u) ->
    exists w2, call c smp draw markov coeffs oloc grads fuel w (PVec y) t None = (w2, Ok u)
      /\ o_eq (w_obj w2) = o_eq (w_obj w') /\ o_S (w_obj w2) = o_S (w_obj w').
  Proof.
    intros G H. apply call_ok in H as (q1 & configs & p & eloc & gr & o1 & u' & res & cut & E1 & E2 & E3 & E4 & E5 & E6 & E7 & E8).
    unfold tdvp_call. rewrite E1.
    pose proof (do_sample_keeps smp draw markov coeffs q1) as K. destruct (do_sample smp draw markov coeffs q1) as [q2 rs]. cbn [fst snd] in K, E2. subst q2 rs.
    rewrite E3, E4, E5, E6. destruct st as [[|k]|].
    - destruct (record_ok _ _ _ _ _ _ _ _ _ _ _ _ _ _ _ E5 E8) as (-> & T1 & T2 & _). eexists. split; [reflexivity|]. cbn [w_obj]. auto.
    - destruct E8 as [-> ->]. eexists. split; [reflexivity|]. split; reflexivity.
    - destruct E8 as [-> ->]. eexists. split; [reflexivity|]. split; reflexivity.
  Qed.
  (** data stored by evaluation number 0 survive the others, even those that raise *)
  Lemma call_keeps c fuel w y t st : st <> Some O ->
    let w' := fst (call c smp draw markov coeffs oloc grads fuel w y t st) in
    o_mean0 (w_obj w') = o_mean0 (w_obj w) /\ o_var0 (w_obj w') = o_var0 (w_obj w) /\ o_meta (w_obj w') = o_meta (w_obj w).
  Proof.
    intros HS. unfold tdvp_call. destruct (set_parameters (w_psi w) y) as [q1|]; [|cbn; auto].
    destruct (do_sample smp draw markov coeffs q1) as [q2 [[configs p]|]]; [|cbn; auto].
    destruct (oloc q2 configs t) as [eloc|]; [|cbn; auto]. destruct (grads q2 configs) as [gr|]; [|cbn; auto].
    destruct (solve _ _ _ _ _ _ _ _ _) as [o1 r1] eqn:E. apply solve_keeps in E as (A & B & D & _).
    destruct r1 as [[[u r] cu]|]; [|cbn; auto]. destruct (restore q2 _); [|cbn; auto].
    destruct st as [[|k]|]; [congruence|cbn; auto|cbn; auto].
  Qed.
End History.
