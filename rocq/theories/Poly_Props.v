(** C89: polynomial activation functions and the spin-flip symmetry of convolutional networks. *)
From Coq Require Import List Reals Bool Arith Lia Lra.
From Verif Require Import Base Cplx Stats_Model Rbm_Model Rbm_Spec Rnet_Proofs Cnn_Model Poly_Spec Poly_Proofs.
Import ListNotations.
Local Open Scope R_scope.

(** For real arguments between -1 and 1, poly5 is the hyperbolic tangent up to
    (17/315)|x|^7 and the rounding of its coefficients, *)
Theorem C89_poly5 x : Rabs x <= 1 ->
  Im (poly5 (RtoC x)) = 0 /\ Rabs (Re (poly5 (RtoC x)) - tanh x) <= 17 / 315 * Rabs x ^ 7 + / 1000000000.
Proof. intros H. split; [now rewrite poly5_real|now apply poly5_all]. Qed.
Print Assumptions C89_poly5.

(** poly6 is the function log_cosh of the same file up to (17/2520) x^8 and rounding, *)
Theorem C89_poly6 sb x : Rabs x <= 1 ->
  exists l, log_cosh sb (RtoC x) = Fin (RtoC l) /\ Im (poly6 (RtoC x)) = 0
  /\ Rabs (Re (poly6 (RtoC x)) - l) <= 17 / 2520 * x ^ 8 + / 1000000000.
Proof.
  intros H. exists (ln (cosh x)). split; [|split; [now rewrite poly6_real|now apply poly6_all]].
  unfold log_cosh. set (y := if sb (Re (RtoC x)) then - x else x).
  assert (Ey : log_cosh_arg sb (RtoC x) = RtoC y).
  { unfold log_cosh_arg, y. destruct (sb (Re (RtoC x))); unfold RtoC, Cmul; apply C_eq; cbn [fst snd]; ring. }
  rewrite Ey. replace (RtoC (-2) * RtoC y)%C with (RtoC (-2 * y)) by (unfold RtoC, Cmul; apply C_eq; cbn [fst snd]; ring).
  rewrite Cexp_RtoC. unfold log1p. pose proof (exp_pos (-2 * y)) as P.
  replace (C1 + RtoC (exp (-2 * y)))%C with (RtoC (1 + exp (-2 * y))) by (unfold RtoC, C1, Cadd; apply C_eq; cbn [fst snd]; ring).
  destruct (Req_EM_T (Cnorm2 (RtoC (1 + exp (-2 * y)))) 0) as [E|_].
  - exfalso. unfold Cnorm2, RtoC in E. cbn [fst snd] in E. nra.
  - cbn [xadd]. f_equal.
    assert (EL : Clog (RtoC (1 + exp (-2 * y))) = RtoC (ln (1 + exp (-2 * y)))).
    { apply C_eq; [|apply Clog_pos; lra]. unfold Clog, RtoC. cbn [fst snd]. f_equal. unfold Cabs, Cnorm2. cbn [fst snd].
      replace ((1 + exp (-2 * y)) * (1 + exp (-2 * y)) + 0 * 0) with ((1 + exp (-2 * y)) * (1 + exp (-2 * y))) by ring. apply sqrt_square. lra. }
    rewrite EL. replace (RtoC y + RtoC (ln (1 + exp (-2 * y))) + - RtoC (ln 2))%C with (RtoC (y + ln (1 + exp (-2 * y)) - ln 2))
      by (unfold RtoC, Cadd, Copp; apply C_eq; cbn [fst snd]; ring).
    f_equal. replace (cosh x) with (cosh y) by (unfold y; destruct (sb _); [apply cosh_even|reflexivity]).
    replace (cosh y) with (exp y * (1 + exp (-2 * y)) * / 2).
    + rewrite !ln_mult; try lra; try apply exp_pos; [|apply Rmult_lt_0_compat; [apply exp_pos|lra]]. rewrite ln_exp, ln_Rinv by lra. ring.
    + unfold cosh. replace (-2 * y) with (- y + - y) by ring. rewrite exp_plus. assert (E : exp y * exp (- y) = 1) by (rewrite <- exp_plus, Rplus_opp_r; apply exp_0).
      transitivity ((exp y + exp y * exp (- y) * exp (- y)) / 2); [field|]. rewrite E. field.
Qed.
Print Assumptions C89_poly6.

(** and the derivative of poly6 is poly5 up to the rounding of the coefficients. *)
Theorem C89_slope x : Rabs x <= 1 ->
  exists l, derivable_pt_lim (fun y => Re (poly6 (RtoC y))) x l /\ Rabs (l - Re (poly5 (RtoC x))) <= 2 / 1000000000.
Proof. intros H. destruct (poly6_deriv x) as (l & D & B). exists l. auto. Qed.
Print Assumptions C89_slope.
Example C89_example : Rabs (- (1 / 2)) <= 1 /\ 17 / 315 * Rabs (- (1 / 2)) ^ 7 + / 1000000000 < 5 / 10000 /\ 17 / 2520 * (- (1 / 2)) ^ 8 + / 1000000000 < 3 / 100000.
Proof. rewrite Rabs_Ropp, Rabs_pos_eq by lra. repeat split; lra. Qed.

(** Parity, for all complex arguments. *)
Theorem C89_parity : odd poly5 /\ even poly6 /\ even square.
Proof. split; [exact poly5_odd|]. split; [exact poly6_even|exact square_even]. Qed.
Print Assumptions C89_parity.

(** Hence convolutional networks without bias in the first layer (the default) and with an
    even first activation function have the same amplitude when all spins are flipped: for
    every shape, filter, stride, number of layers, boundary condition and all parameters. *)
Theorem C89_flip_cnn F channels strides actFun bias periodic ps sh x fn :
  hd_error actFun = Some fn -> even fn -> channels <> [] -> ps <> [] ->
  cnn F channels strides actFun bias false periodic ps sh (all_flipped x) = cnn F channels strides actFun bias false periodic ps sh x.
Proof.
  intros Ha He Hc Hp. unfold cnn. apply output_eq. destruct (layers_cons channels actFun bias ps fn Ha Hc Hp) as (c & p & r & ->). cbn [fold_left].
  apply fold_eq; [intros; now apply cnn_layer_eq|]. apply cnn_layer_neg; [exact He|apply input_neg].
Qed.
Print Assumptions C89_flip_cnn.
Theorem C89_flip_cpx F channels strides actFun bias periodic ps sh x fn :
  hd_error actFun = Some fn -> even fn -> channels <> [] -> ps <> [] ->
  cpx_cnn F channels strides actFun bias false periodic ps sh (all_flipped x) = cpx_cnn F channels strides actFun bias false periodic ps sh x.
Proof.
  intros Ha He Hc Hp. unfold cpx_cnn. apply output_eq. destruct (layers_cons channels actFun bias ps fn Ha Hc Hp) as (c & p & r & ->). cbn [fold_left].
  apply fold_eq; [intros; now apply cpx_layer_eq|]. apply cpx_layer_neg; [exact He|apply input_neg].
Qed.
Print Assumptions C89_flip_cpx.
(** the default activation function of CpxCNN, and a configuration that the flip changes *)
Example C89_flip_example : hd_error [poly6] = Some poly6 /\ even poly6 /\ [10%nat] <> []
  /\ all_flipped (fun idx => match idx with [O] => 1 | _ => 0 end) [1%nat] = 1.
Proof. split; [reflexivity|]. split; [exact poly6_even|]. split; [discriminate|]. unfold all_flipped. lra. Qed.

(** With a bias in the first layer, or an activation function that is not even, the
    symmetry is lost: one site, one channel, weight one. *)
Theorem C89_flip_needs_no_bias : exists ps sh x fn, even fn /\
  cnn [1%nat] [1%nat] [1%nat] [fn] true true true ps sh (all_flipped x) <> cnn [1%nat] [1%nat] [1%nat] [fn] true true true ps sh x.
Proof.
  exists [mkP (fun _ _ _ => C1) (fun _ => C1)], [1%nat], (fun _ => 1), square. split; [exact square_even|].
  unfold cnn, all_flipped, square, output, layers, activations, biases. cbn. intros E. apply (f_equal fst) in E. revert E.
  rewrite sqrt_1. unfold csum, Cdiv, Cmul, Cadd, Cinv, Cnorm2, RtoC, C1, C0, Re, Im. cbn [fst snd fold_left fold_right]. intros E. field_simplify in E; lra.
Qed.
Print Assumptions C89_flip_needs_no_bias.
