(** The layers of convolutional networks: C93. *)
From Coq Require Import ZArith List Reals Bool Arith Lia Lra Permutation.
From Verif Require Import Base Cplx BranchFree_Model Stats_Model Cnn_Model Cnn_Spec Cnn_Props Rbm_Model Layers_Spec Layers_Proofs.
Import ListNotations.

Lemma layers_nth channels actFun bias flb ps l c f b p : actFun <> [] -> nth_error (layers channels actFun bias flb ps) l = Some (c, f, b, p) ->
  c = nth l channels 0 /\ activation actFun l f /\ b = has_bias bias flb l /\ nth_error ps l = Some p.
Proof.
  intros HA. unfold layers. revert p.
  assert (C : forall {A B} (x : list A) (y : list B) l u v, nth_error (combine x y) l = Some (u, v) <-> nth_error x l = Some u /\ nth_error y l = Some v).
  { induction x as [|a x IH]; intros [|b0 y] [|l0] u v; cbn [combine nth_error]; try (split; [discriminate|intros [? ?]; discriminate]); try apply IH.
    split; [intros [= -> ->]; split; reflexivity|intros [[= ->] [= ->]]; reflexivity]. }
  intros p H. apply C in H as [H H4]. apply C in H as [H H3]. apply C in H as [H1 H2].
  assert (Hl : l < length channels) by (apply nth_error_Some; rewrite H1; discriminate).
  split; [symmetry; now apply nth_error_nth|]. split; [|split; [|exact H4]].
  - unfold activations in H2. unfold activation. destruct (lt_dec l (length actFun)) as [L|L]; [rewrite nth_error_app1 in H2 by exact L; now left|].
    right. split; [lia|]. rewrite nth_error_app2 in H2 by lia. apply nth_error_In, repeat_spec in H2. subst f.
    rewrite (nth_error_nth' actFun (fun z => z)) by (destruct actFun; [congruence|cbn [length]; lia]). f_equal.
    clear -HA. induction actFun as [|a r IH]; [congruence|]. destruct r as [|b r]; [reflexivity|]. cbn [length Nat.sub] in *. rewrite Nat.sub_0_r in *. change (last (a :: b :: r) (fun z => z)) with (last (b :: r) (fun z : C => z)).
    rewrite <- IH by discriminate. reflexivity.
  - unfold biases in H3. destruct channels as [|c0 cs]; [cbn in Hl; lia|]. cbn [length repeat] in H3. destruct l as [|l]; [injection H3 as ->; reflexivity|].
    cbn [nth_error] in H3. apply nth_error_In, repeat_spec in H3. exact H3.
Qed.
Lemma layers_length channels actFun bias flb ps : channels <> [] -> length ps = length channels -> length (layers channels actFun bias flb ps) = length channels.
Proof.
  intros HC HL. unfold layers, activations, biases. rewrite !combine_length, app_length, repeat_length.
  destruct channels as [|c cs]; [congruence|]. cbn [length repeat] in *. rewrite repeat_length. lia.
Qed.
Lemma activation_unique actFun l f g : activation actFun l f -> activation actFun l g -> f = g.
Proof.
  assert (K : forall h, nth_error actFun l = Some h -> length actFun <= l -> False) by (intros h H L; assert (l < length actFun) by (apply nth_error_Some; congruence); lia).
  intros [H1|[L1 H1]] [H2|[L2 H2]]; try congruence; exfalso; [exact (K _ H1 L2)|exact (K _ H2 L1)].
Qed.

(** class CNN: the value is the result of evaluating the described layers one after another, and nothing else is *)
Theorem C93_cnn F channels strides actFun bias firstLayerBias periodic ps shape x r :
  length F = length shape -> length strides = length shape -> Forall (fun n => 1 <= n) F -> Forall (fun n => 1 <= n) strides -> Forall (fun n => 1 <= n) shape ->
  channels <> [] -> actFun <> [] -> length ps = length channels ->
  (r = cnn F channels strides actFun bias firstLayerBias periodic ps shape x
   <-> exists x0 y, is_input shape x x0 /\ runs (cnn_step periodic F strides channels actFun bias firstLayerBias ps) 0 x0 (length channels) y /\ is_result y r).
Proof.
  intros LF LS HF HS HP HC HA HL. rewrite <- (layers_length channels actFun bias firstLayerBias ps HC HL). symmetry.
  apply (network _ (cnn_layer F strides periodic) _ (length shape)); [| |reflexivity|exact HP].
  - intros l [[[c f] b] p] y Q [G1 G2]. destruct (layers_nth _ _ _ _ _ _ _ _ _ _ HA Q) as (-> & A & -> & P). exists f, p. split; [exact A|]. split; [exact P|].
    now apply (cnn_layer_ok F strides (length shape) LF LS HF HS).
  - intros l u u' v v' [G1 G2] A (f & p & A1 & P1 & H1) (f' & p' & A2 & P2 & H2). rewrite (activation_unique _ _ _ _ A2 A1) in H2. rewrite P1 in P2. injection P2 as <-.
    split; [|split].
    + eapply (conv_layer_unique periodic F strides _ _ _ f _ p u v u' v' (length shape) LF LS); [rewrite map_length; exact LF|exact G1|exact G2|exact A|exact H1|exact H2].
    + destruct H1 as (_ & L & _). congruence.
    + now apply (conv_layer_pos _ _ _ _ _ _ _ _ _ _ _ H1).
Qed.
Print Assumptions C93_cnn.

(** class CpxCNN: centred filters with zeros around; with periodicBoundary, the array is continued periodically before *)
Theorem C93_cpx_partial F channels strides actFun bias firstLayerBias periodic ps shape x r :
  length F = length shape -> length strides = length shape -> Forall (fun n => 1 <= n) F -> Forall (fun n => 1 <= n) strides -> Forall (fun n => 1 <= n) shape ->
  channels <> [] -> actFun <> [] -> length ps = length channels ->
  (r = cpx_cnn F channels strides actFun bias firstLayerBias periodic ps shape x
   <-> exists x0 y, is_input shape x x0 /\ runs (cpx_cnn_step periodic F strides channels actFun bias firstLayerBias ps) 0 x0 (length channels) y /\ is_result y r).
Proof.
  intros LF LS HF HS HP HC HA HL. rewrite <- (layers_length channels actFun bias firstLayerBias ps HC HL). symmetry.
  apply (network _ (cpx_cnn_layer F strides periodic) _ (length shape)); [| |reflexivity|exact HP].
  - intros l [[[c f] b] p] y Q [G1 G2]. destruct (layers_nth _ _ _ _ _ _ _ _ _ _ HA Q) as (-> & A & -> & P).
    exists f, p, (if periodic then pad_wrap F y else y). split; [exact A|]. split; [exact P|].
    destruct periodic.
    + pose proof (wrap_continued F strides (length shape) LF LS HF y G1 G2) as W. split; [exact W|].
      destruct (continued_unique F y _ y _ (agree_refl y) G2 HF ltac:(congruence) W W) as (_ & W1 & W2).
      apply (cpx_conv_ok F strides (length shape) LF LS HF HS); [congruence|exact W2].
    + split; [reflexivity|]. now apply (cpx_conv_ok F strides (length shape) LF LS HF HS).
  - intros l u u' v v' [G1 G2] A (f & p & w & A1 & P1 & W1 & H1) (f' & p' & w' & A2 & P2 & W2 & H2). rewrite (activation_unique _ _ _ _ A2 A1) in H2. rewrite P1 in P2. injection P2 as <-.
    assert (W : agree w w' /\ length (t_shape w) = length shape /\ Forall (fun n => 1 <= n) (t_shape w)).
    { destruct periodic; [|subst; repeat split; try assumption; apply A]. destruct (continued_unique F u w u' w' A G2 HF ltac:(congruence) W1 W2) as (K1 & K2 & K3). repeat split; try apply K1; [congruence|exact K3]. }
    destruct W as (K1 & K2 & K3). destruct K1 as (E1 & E2 & E3). rewrite <- E1 in H2.
    split; [|split].
    + eapply (conv_layer_unique false F strides _ _ _ f _ p w v w' v' (length shape) LF LS); [|exact K2|exact K3|split; [exact E1|split; [exact E2|exact E3]]|exact H1|exact H2].
      rewrite (in_front_same F strides (length shape) LF LS) by exact K2. rewrite map_length. apply (same_length F strides (length shape) LF LS). exact K2.
    + destruct H1 as (_ & L & _). congruence.
    + now apply (conv_layer_pos _ _ _ _ _ _ _ _ _ _ _ H1).
Qed.
Print Assumptions C93_cpx_partial.

Lemma Ceq_dec (a b : C) : {a = b} + {a <> b}.
Proof. destruct a as [a1 a2], b as [b1 b2]. destruct (Req_EM_T a1 b1) as [->|N]; [|right; congruence]. destruct (Req_EM_T a2 b2) as [->|N]; [left; reflexivity|right; congruence]. Qed.
(** with periodicBoundary, CpxCNN does not evaluate periodic convolutions *)
Theorem C93_cpx_refuted : exists F channels actFun ps shape x,
  length F = length shape /\ Forall (fun n => 1 <= n) F /\ Forall (fun n => 1 <= n) shape /\ channels <> [] /\ actFun <> [] /\ length ps = length channels
  /\ ~ exists x0 y, is_input shape x x0 /\ runs (cnn_step true F (repeat 1 (length shape)) channels actFun true false ps) 0 x0 (length channels) y
         /\ is_result y (cpx_cnn F channels (repeat 1 (length shape)) actFun true false true ps shape x).
Proof.
  pose proof (C47_cnn [3] [1] [square] true false [w011] [3] (ring3 0 0 1) [1] eq_refl eq_refl ltac:(repeat constructor) ltac:(repeat constructor)) as T.
  cbn [length repeat] in T.
  assert (N : cpx_cnn [3] [1] [1] [square] true false true [w011] [3] (translated [3] [1] (ring3 0 0 1)) <> cpx_cnn [3] [1] [1] [square] true false true [w011] [3] (ring3 0 0 1)).
  { rewrite !cpx_value. unfold translated. cbn [moved]. unfold Nat.modulo. cbn [Nat.add Nat.divmod snd Nat.sub ring3]. cbv zeta. unfold ring3. intros E.
    assert (P : (0 < sqrt (INR 5))%R) by (apply sqrt_lt_R0; cbn; lra). set (s5 := sqrt (INR 5)) in *.
    assert (NZ : RtoC s5 <> C0) by (intros Z; unfold RtoC, C0 in Z; inversion Z; lra).
    apply (f_equal (fun z => Cmul z (RtoC s5))) in E. unfold Cdiv in E.
    assert (K : forall u, (u * Cinv (RtoC s5) * RtoC s5)%C = u) by (intros u; field; exact NZ).
    rewrite !K in E. apply RtoC_inj in E. lra. }
  assert (H1 : Forall (fun n => 1 <= n) [3]) by repeat constructor. assert (H2 : Forall (fun n => 1 <= n) [1]) by repeat constructor.
  assert (D : exists x, cpx_cnn [3] [1] [1] [square] true false true [w011] [3] x <> cnn [3] [1] [1] [square] true false true [w011] [3] x).
  { destruct (Ceq_dec (cpx_cnn [3] [1] [1] [square] true false true [w011] [3] (ring3 0 0 1)) (cnn [3] [1] [1] [square] true false true [w011] [3] (ring3 0 0 1))) as [E|E]; [|exists (ring3 0 0 1); exact E].
    exists (translated [3] [1] (ring3 0 0 1)). rewrite T, <- E. exact N. }
  destruct D as [x D]. exists [3], [1], [square], [w011], [3], x. split; [reflexivity|]. split; [exact H1|]. split; [exact H1|]. split; [discriminate|]. split; [discriminate|]. split; [reflexivity|].
  intros H. apply D. apply (C93_cnn [3] [1] [1] [square] true false true [w011] [3] x _ eq_refl eq_refl H1 H2 H1 ltac:(discriminate) ltac:(discriminate) eq_refl). exact H.
Qed.
Print Assumptions C93_cpx_refuted.

(** two layers on a 3 x 4 lattice with two different biases, one activation function given, strides 1 and 2 *)
Example C93_case : length [2; 3] = length [3; 4] /\ Forall (fun n => 1 <= n) [2; 3] /\ Forall (fun n => 1 <= n) [1; 2] /\ Forall (fun n => 1 <= n) [3; 4]
  /\ [5; 2] <> [] /\ [square] <> [] /\ length [w011; w011] = length [5; 2]
  /\ activation [square] 1 square /\ has_bias true false 0 = false /\ has_bias true false 1 = true.
Proof. repeat split; try (repeat constructor; fail); try discriminate. Qed.
