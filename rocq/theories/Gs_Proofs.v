From Coq Require Import List Reals Lra Lia.
From Verif Require Import Base Stats_Model Stepper_Model Gs_Model Gs_Spec.
Import ListNotations.
Local Open Scope R_scope.

Lemma moved_ok h y u : moved h y u (vadd y (vscal h u)).
Proof.
  unfold moved, vadd, vscal. revert u. induction y as [|a y IH]; intros [|b u]; cbn; split; auto.
  - intros [|i]; discriminate.
  - intros [|i]; discriminate.
  - intros [|i]; discriminate.
  - f_equal. apply (IH u).
  - intros [|i] a' b' Ha Hb; cbn in *.
    + injection Ha as <-. now injection Hb as <-.
    + apply (proj2 (IH u)); assumption.
Qed.

Lemma moved_unique h y u y1 y2 : length y = length u -> moved h y u y1 -> moved h y u y2 -> y1 = y2.
Proof.
  intros L [L1 H1] [L2 H2]. apply nth_ext with (d := 0) (d' := 0); [lia|].
  intros i Hi. rewrite L1, L, Nat.min_id in Hi.
  destruct (nth_error y i) as [a|] eqn:Ea; [|apply nth_error_None in Ea; lia].
  destruct (nth_error u i) as [b|] eqn:Eb; [|apply nth_error_None in Eb; lia].
  now rewrite (nth_error_nth _ _ _ (H1 i a b Ea Eb)), (nth_error_nth _ _ _ (H2 i a b Ea Eb)).
Qed.

Definition scons {A} (a : A) (f : nat -> A) : nat -> A := fun i => match i with O => a | S j => f j end.

Lemma shift_at_0 b s : shift_at b s 0 = s.
Proof. unfold shift_at. destruct b, s; cbn; try reflexivity. f_equal. lra. Qed.
Lemma shift_at_S b s i : shift_at b (shift_at b s 1) i = shift_at b s (S i).
Proof.
  unfold shift_at. destruct b, s as [d|]; cbn; try reflexivity. f_equal. lra.
Qed.

Section P.
Context {W Obs : Type}.
Variable rhs : W -> option R -> list R -> result (list R * W).
Variable variance : W -> R.
Variable measure : W -> list R -> result (Obs * W).

Definition crit (tol varE : R) (m : nat -> W) (n : nat) : Prop :=
  match n with O => varE <= tol | S i => variance (m i) <= tol end.

(** the records written by k steps, the first of which has number n+1 *)
Definition written (wr : bool) (n k : nat) (y : nat -> list R) (w m : nat -> W) (recs : list (nat * Obs)) : Prop :=
  if wr
  then length recs = k
       /\ forall i, (i < k)%nat -> exists o, nth_error recs i = Some ((n + S i)%nat, o) /\ measure (m i) (y (S i)) = Ok (o, w (S i))
  else recs = [] /\ forall i, (i < k)%nat -> w (S i) = m i.

Lemma loop_run hs wr tol h : forall left n varE (s : @gs_state W Obs) n' s',
  gs_shift s = gs_delta s ->
  gs_loop rhs variance measure hs wr tol h left n varE s = Ok (n', s') ->
  exists k y w m u recs,
    n' = (n + k)%nat /\ (k <= left)%nat
    /\ y O = gs_params s /\ w O = gs_world s /\ y k = gs_params s' /\ w k = gs_world s'
    /\ (forall i, (i < k)%nat -> rhs (w i) (shift_at hs (gs_shift s) i) (y i) = Ok (u i, m i))
    /\ (forall i, (i < k)%nat -> moved h (y i) (u i) (y (S i)))
    /\ written wr n k y w m recs
    /\ gs_records s' = gs_records s ++ recs
    /\ gs_shift s' = shift_at hs (gs_shift s) k
    /\ ((k < left)%nat -> crit tol varE m k)
    /\ (forall j, (j < k)%nat -> ~ crit tol varE m j).
Proof.
  assert (Hstop : forall left n varE (s : @gs_state W Obs), ((O < left)%nat -> varE <= tol) ->
    exists k y w m u recs,
    n = (n + k)%nat /\ (k <= left)%nat
    /\ y O = gs_params s /\ w O = gs_world s /\ y k = gs_params s /\ w k = gs_world s
    /\ (forall i, (i < k)%nat -> rhs (w i) (shift_at hs (gs_shift s) i) (y i) = Ok (u i, m i))
    /\ (forall i, (i < k)%nat -> moved h (y i) (u i) (y (S i)))
    /\ written wr n k y w m recs
    /\ gs_records s = gs_records s ++ recs
    /\ gs_shift s = shift_at hs (gs_shift s) k
    /\ ((k < left)%nat -> crit tol varE m k)
    /\ (forall j, (j < k)%nat -> ~ crit tol varE m j)).
  { intros left n varE s Hv.
    exists O, (fun _ => gs_params s), (fun _ => gs_world s), (fun _ => gs_world s), (fun _ => []), [].
    rewrite shift_at_0, app_nil_r.
    repeat (split; [solve [reflexivity|lia|auto|intros; lia|unfold written; destruct wr; split; solve [reflexivity|intros; lia]]|]).
    intros; lia. }
  induction left as [|left IH]; intros n varE s n' s' Hd H.
  - injection H as <- <-. apply Hstop. lia.
  - cbn [gs_loop] in H. destruct (Rlt_dec tol varE) as [Hlt|Hge].
    2:{ injection H as <- <-. apply Hstop. intros _. lra. }
    unfold gs_step in H.
    destruct (rhs (gs_world s) (gs_shift s) (gs_params s)) as [[u0 m0]|e] eqn:Er; [|discriminate].
    cbn [bind fst snd gs_world] in H.
    set (y1 := vadd (gs_params s) (vscal h u0)) in *.
    set (s1 := mk_gs (gs_shift s) (gs_delta s) m0 y1 (gs_records s)) in *.
    destruct (record_obs measure wr (S n) s1) as [s2|e] eqn:Eo; [|discriminate]. cbn [bind] in H.
    destruct (damp hs s2) as [s3|e] eqn:Ed; [|discriminate]. cbn [bind] in H.
    assert (exists w1 r0, gs_shift s2 = gs_shift s /\ gs_delta s2 = gs_delta s /\ gs_world s2 = w1 /\ gs_params s2 = y1
      /\ gs_records s2 = gs_records s ++ r0
      /\ if wr then exists o, r0 = [(S n, o)] /\ measure m0 y1 = Ok (o, w1) else r0 = [] /\ w1 = m0) as (w1 & r0 & A1 & A2 & A3 & A4 & A5 & A6).
    { unfold record_obs in Eo. destruct wr.
      - cbn [gs_world gs_params s1] in Eo. destruct (measure m0 y1) as [[o w1]|e] eqn:Em; [|discriminate].
        injection Eo as <-. exists w1, [(S n, o)]. cbn. repeat (split; [reflexivity|]). now exists o.
      - injection Eo as <-. exists m0, []. cbn. rewrite app_nil_r. repeat (split; [reflexivity|]). now split. }
    assert (gs_shift s3 = shift_at hs (gs_shift s) 1 /\ gs_delta s3 = gs_shift s3 /\ gs_world s3 = w1 /\ gs_params s3 = y1
      /\ gs_records s3 = gs_records s ++ r0) as (B1 & B2 & B3 & B4 & B5).
    { unfold damp in Ed. destruct hs.
      - destruct (gs_delta s2) as [d|] eqn:E; [|discriminate]. injection Ed as <-. cbn.
        rewrite Hd, <- A2. cbn. repeat split; try assumption. f_equal. lra.
      - injection Ed as <-. cbn. rewrite A1, A2, Hd. repeat split; assumption. }
    destruct (IH _ _ _ _ _ (eq_sym B2) H) as (k & y & w & m & u & recs & C1 & C2 & C3 & C4 & C5 & C6 & C7 & C8 & C9 & C10 & C11 & C12 & C13).
    exists (S k), (scons (gs_params s) y), (scons (gs_world s) w), (scons m0 m), (scons u0 u), (r0 ++ recs).
    split; [lia|]. split; [lia|]. cbn [scons]. split; [reflexivity|]. split; [reflexivity|].
    split; [exact C5|]. split; [exact C6|].
    split. { intros [|i] Hi; cbn [scons]; [now rewrite shift_at_0|]. rewrite <- shift_at_S, <- B1. apply C7. lia. }
    split. { intros [|i] Hi; cbn [scons]; [rewrite C3, B4; apply moved_ok|]. apply C8. lia. }
    split. { revert A6 C9. unfold written. destruct wr.
      - intros (o & -> & Hm) [L Hr]. split; [cbn; lia|].
        intros [|i] Hi; cbn.
        + exists o. rewrite C3, C4, B4, B3. split; [f_equal; f_equal; lia|assumption].
        + destruct (Hr i ltac:(lia)) as (o' & Ho & Hm'). exists o'. rewrite Ho. split; [f_equal; f_equal; lia|assumption].
      - intros [-> ->] [-> Hr]. split; [reflexivity|]. intros [|i] Hi; cbn; [congruence|]. apply Hr. lia. }
    split; [rewrite C10, B5, app_assoc; reflexivity|].
    split; [rewrite C11, B1; apply shift_at_S|].
    split.
    + intros Hk. cbn. destruct k; cbn in *.
      * apply C12. lia.
      * apply C12. lia.
    + intros [|[|j]] Hj; cbn.
      * lra.
      * apply (C13 O). lia.
      * apply (C13 (S j)). lia.
Qed.

Lemma search_run hs wr numSteps tol h shift w0 p0 k s' :
  ground_state_search rhs variance measure hs wr numSteps tol h shift w0 p0 = Ok (k, s') ->
  exists y w m u,
    run rhs measure hs wr h shift k w0 y w m u (gs_records s')
    /\ y O = p0 /\ y k = gs_params s' /\ w k = gs_world s'
    /\ (k <= numSteps)%nat
    /\ ((k < numSteps)%nat -> criterion variance tol m k)
    /\ (forall j, (j < k)%nat -> ~ criterion variance tol m j)
    /\ gs_shift s' = shift_at hs shift k.
Proof.
  unfold ground_state_search. intros H.
  destruct (record_obs measure wr 0 _) as [s|e] eqn:Eo; [|discriminate]. cbn [bind] in H.
  assert (gs_shift s = shift /\ gs_delta s = shift /\ gs_params s = p0
    /\ if wr then exists o, gs_records s = [(O, o)] /\ measure w0 p0 = Ok (o, gs_world s) else gs_records s = [] /\ gs_world s = w0)
    as (A1 & A2 & A3 & A4).
  { unfold record_obs in Eo. destruct wr.
    - cbn in Eo. destruct (measure w0 p0) as [[o w1]|e] eqn:Em; [|discriminate]. injection Eo as <-. cbn.
      repeat (split; [reflexivity|]). now exists o.
    - injection Eo as <-. cbn. repeat split; reflexivity. }
  destruct (loop_run _ _ _ _ _ _ _ _ _ _ (eq_trans A1 (eq_sym A2)) H)
    as (k' & y & w & m & u & recs & C1 & C2 & C3 & C4 & C5 & C6 & C7 & C8 & C9 & C10 & C11 & C12 & C13).
  cbn in C1. subst k'. rewrite A1 in *. exists y, w, m, u.
  split.
  - split.
    + exact C7.
    + exact C8.
    + intros ->. destruct A4 as [A4 A5], C9 as [-> C9]. rewrite C10, A4. split; [reflexivity|]. split; [congruence|exact C9].
    + intros ->. destruct A4 as (o & A4 & A5), C9 as [C9 C9']. rewrite C10, A4. split; [cbn; lia|].
      split; [exists o; split; [reflexivity|congruence]|].
      intros i Hi. destruct (C9' i Hi) as (o' & Ho & Hm). exists o'. split; assumption.
  - split; [congruence|]. split; [assumption|]. split; [assumption|]. split; [assumption|].
    split; [exact C12|]. split; [exact C13|assumption].
Qed.

(** nothing else can go wrong *)
Lemma search_total hs wr numSteps tol h shift w0 p0 :
  (forall w sh p, is_ok (rhs w sh p) = true) -> (forall w p, is_ok (measure w p) = true) ->
  (hs = true -> shift <> None) ->
  is_ok (ground_state_search rhs variance measure hs wr numSteps tol h shift w0 p0) = true.
Proof.
  intros Hr Hm Hs. unfold ground_state_search, record_obs at 1.
  assert (G : forall left n v (s : @gs_state W Obs), (hs = true -> gs_delta s <> None) ->
    is_ok (gs_loop rhs variance measure hs wr tol h left n v s) = true).
  { induction left as [|left IH]; intros n v s Hd; [reflexivity|]. cbn [gs_loop].
    destruct (Rlt_dec _ _); [|reflexivity].
    unfold gs_step. specialize (Hr (gs_world s) (gs_shift s) (gs_params s)).
    destruct (rhs _ _ _) as [[u m]|]; [|discriminate]. cbn [bind fst snd].
    set (y1 := vadd _ _). unfold record_obs. cbn [gs_world gs_params gs_shift gs_delta gs_records].
    assert (K : forall wx rx, is_ok (do s3 <- damp hs (mk_gs (gs_shift s) (gs_delta s) wx y1 rx);
      gs_loop rhs variance measure hs wr tol h left (S n) (variance m) s3) = true).
    { intros wx rx. unfold damp. cbn [gs_delta]. destruct hs.
      - destruct (gs_delta s); [|exfalso; now apply Hd]. cbn [bind]. apply IH. cbn. discriminate.
      - cbn [bind]. apply IH. discriminate. }
    destruct wr.
    - specialize (Hm m y1). destruct (measure m y1) as [[o wx]|]; [|discriminate]. cbn [bind fst snd]. apply K.
    - cbn [bind]. apply K. }
  destruct wr.
  - cbn [gs_world gs_params]. specialize (Hm w0 p0). destruct (measure w0 p0) as [[o wx]|]; [|discriminate].
    cbn [bind]. apply G. exact Hs.
  - cbn [bind]. apply G. exact Hs.
Qed.
End P.
