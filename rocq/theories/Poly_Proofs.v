(** Proofs about the polynomial activation functions and spin flips in convolutional networks. *)
From Coq Require Import List Reals Bool Arith Lia Lra.
From Verif Require Import Base Cplx Stats_Model Rbm_Model Cnn_Model.
Import ListNotations.
Local Open Scope R_scope.

(** ** derivatives *)
Lemma d_plus f g x a b : derivable_pt_lim f x a -> derivable_pt_lim g x b -> derivable_pt_lim (fun y => f y + g y) x (a + b).
Proof. exact (derivable_pt_lim_plus f g x a b). Qed.
Lemma d_minus f g x a b : derivable_pt_lim f x a -> derivable_pt_lim g x b -> derivable_pt_lim (fun y => f y - g y) x (a - b).
Proof. exact (derivable_pt_lim_minus f g x a b). Qed.
Lemma d_mono a n x : derivable_pt_lim (fun y => a * y ^ n) x (a * (INR n * x ^ pred n)).
Proof. exact (derivable_pt_lim_scal (fun y => y ^ n) a x _ (derivable_pt_lim_pow x n)). Qed.
Lemma d_eq f x a b : derivable_pt_lim f x a -> a = b -> derivable_pt_lim f x b.
Proof. now intros H <-. Qed.

Lemma cosh_gt0 x : 0 < cosh x.
Proof. unfold cosh. pose proof (exp_pos x). pose proof (exp_pos (- x)). lra. Qed.
Lemma cosh_sinh x : cosh x * cosh x = 1 + sinh x * sinh x.
Proof.
  unfold cosh, sinh. assert (E : exp x * exp (- x) = 1) by (rewrite <- exp_plus, Rplus_opp_r; apply exp_0).
  replace 1 with (exp x * exp (- x)). field.
Qed.
Lemma d_tanh x : derivable_pt_lim tanh x (1 - tanh x * tanh x).
Proof.
  apply (d_eq tanh x ((cosh x * cosh x - sinh x * sinh x) / Rsqr (cosh x))).
  - apply (derivable_pt_lim_div sinh cosh x); [apply derivable_pt_lim_sinh|apply derivable_pt_lim_cosh|]. pose proof (cosh_gt0 x). lra.
  - unfold tanh, Rsqr. pose proof (cosh_gt0 x). field. lra.
Qed.
Lemma d_lncosh x : derivable_pt_lim (fun y => ln (cosh y)) x (tanh x).
Proof.
  apply (d_eq _ x (/ cosh x * sinh x)).
  - apply (derivable_pt_lim_comp cosh ln); [apply derivable_pt_lim_cosh|apply derivable_pt_lim_ln, cosh_gt0].
  - unfold tanh, Rdiv. ring.
Qed.

(** a function that starts at zero and does not decrease *)
Lemma grows f f' : f 0 = 0 -> (forall c, derivable_pt_lim f c (f' c)) -> forall X, (forall c, 0 <= c <= X -> 0 <= f' c) ->
  forall x, 0 <= x <= X -> 0 <= f x.
Proof.
  intros H0 Hd X Hp x Hx. destruct (Req_dec x 0) as [->|N]; [lra|].
  destruct (MVT_cor2 f f' 0 x ltac:(lra) (fun c _ => Hd c)) as (c & E & Hc).
  rewrite H0, Rminus_0_r, Rminus_0_r in E. rewrite E. apply Rmult_le_pos; [apply Hp|]; lra.
Qed.

Lemma tanh_0 : tanh 0 = 0. Proof. unfold tanh. rewrite sinh_0. unfold Rdiv. ring. Qed.
Lemma tanh_nonneg x : 0 <= x -> 0 <= tanh x.
Proof.
  intros H. apply (grows tanh (fun c => 1 - tanh c * tanh c) tanh_0 d_tanh x); [|lra].
  intros c _. unfold tanh. pose proof (cosh_gt0 c). pose proof (cosh_sinh c).
  replace (1 - sinh c / cosh c * (sinh c / cosh c)) with (/ (cosh c * cosh c)).
  - left. apply Rinv_0_lt_compat. now apply Rmult_lt_0_compat.
  - apply (Rmult_eq_reg_r (cosh c * cosh c)); [|nra]. replace ((1 - sinh c / cosh c * (sinh c / cosh c)) * (cosh c * cosh c)) with (cosh c * cosh c - sinh c * sinh c) by (field; lra).
    rewrite Rinv_l by nra. lra.
Qed.
Lemma tanh_le x : 0 <= x -> tanh x <= x.
Proof.
  intros H. cut (0 <= 1 * x ^ 1 - tanh x); [simpl; lra|].
  apply (grows (fun y => 1 * y ^ 1 - tanh y) (fun c => 1 * (INR 1 * c ^ 0) - (1 - tanh c * tanh c))) with (X := x); [rewrite tanh_0; ring| | |lra].
  - intros c. apply d_minus; [apply d_mono|apply d_tanh].
  - intros c _. simpl. pose proof (Rle_0_sqr (tanh c)). unfold Rsqr in *. lra.
Qed.
Lemma tanh_ge3 x : 0 <= x -> x - x ^ 3 / 3 <= tanh x.
Proof.
  intros H. cut (0 <= tanh x - (1 * x ^ 1 - / 3 * x ^ 3)); [simpl; lra|].
  apply (grows (fun y => tanh y - (1 * y ^ 1 - / 3 * y ^ 3)) (fun c => (1 - tanh c * tanh c) - (1 * (INR 1 * c ^ 0) - / 3 * (INR 3 * c ^ 2)))) with (X := x); [rewrite tanh_0; ring| | |lra].
  - intros c. apply d_minus; [apply d_tanh|]. apply d_minus; apply d_mono.
  - intros c Hc. simpl. pose proof (tanh_le c ltac:(lra)). pose proof (tanh_nonneg c ltac:(lra)). nra.
Qed.
Definition T5 (x : R) : R := x - x ^ 3 / 3 + 2 / 15 * x ^ 5.
Lemma tanh_le5 x : 0 <= x <= 1 -> tanh x <= T5 x.
Proof.
  intros H. unfold T5. cut (0 <= (1 * x ^ 1 - / 3 * x ^ 3 + 2 / 15 * x ^ 5) - tanh x); [simpl; lra|].
  apply (grows (fun y => (1 * y ^ 1 - / 3 * y ^ 3 + 2 / 15 * y ^ 5) - tanh y)
               (fun c => (1 * (INR 1 * c ^ 0) - / 3 * (INR 3 * c ^ 2) + 2 / 15 * (INR 5 * c ^ 4)) - (1 - tanh c * tanh c))) with (X := 1); [rewrite tanh_0; ring| | |lra].
  - intros c. apply d_minus; [|apply d_tanh]. apply d_plus; [apply d_minus; apply d_mono|apply d_mono].
  - intros c Hc. pose proof (tanh_ge3 c ltac:(lra)) as L.
    assert (P : 0 <= c - c ^ 3 / 3). { replace (c - c ^ 3 / 3) with (c * (1 - c * c / 3)) by field. apply Rmult_le_pos; nra. }
    assert (Q : (c - c ^ 3 / 3) * (c - c ^ 3 / 3) <= tanh c * tanh c) by (apply Rmult_le_compat; lra).
    replace ((c - c ^ 3 / 3) * (c - c ^ 3 / 3)) with (c ^ 2 - 2 / 3 * c ^ 4 + (c ^ 3) * (c ^ 3) / 9) in Q by field.
    pose proof (Rle_0_sqr (c ^ 3)) as Z. unfold Rsqr in Z. replace (INR 1) with 1 by reflexivity. replace (INR 3) with 3 by (simpl; ring). replace (INR 5) with 5 by (simpl; ring).
    replace (c ^ 0) with 1 by reflexivity. lra.
Qed.
Lemma tanh_ge7 x : 0 <= x <= 1 -> T5 x - 17 / 315 * x ^ 7 <= tanh x.
Proof.
  intros H. unfold T5. cut (0 <= tanh x - (1 * x ^ 1 - / 3 * x ^ 3 + 2 / 15 * x ^ 5 - 17 / 315 * x ^ 7)); [simpl; lra|].
  apply (grows (fun y => tanh y - (1 * y ^ 1 - / 3 * y ^ 3 + 2 / 15 * y ^ 5 - 17 / 315 * y ^ 7))
               (fun c => (1 - tanh c * tanh c) - (1 * (INR 1 * c ^ 0) - / 3 * (INR 3 * c ^ 2) + 2 / 15 * (INR 5 * c ^ 4) - 17 / 315 * (INR 7 * c ^ 6)))) with (X := 1); [rewrite tanh_0; ring| | |lra].
  - intros c. apply d_minus; [apply d_tanh|]. apply d_minus; [apply d_plus; [apply d_minus; apply d_mono|apply d_mono]|apply d_mono].
  - intros c Hc. pose proof (tanh_le5 c ltac:(lra)) as L. pose proof (tanh_nonneg c ltac:(lra)) as N. unfold T5 in L.
    assert (Q : tanh c * tanh c <= (c - c ^ 3 / 3 + 2 / 15 * c ^ 5) * (c - c ^ 3 / 3 + 2 / 15 * c ^ 5)) by (apply Rmult_le_compat; lra).
    replace ((c - c ^ 3 / 3 + 2 / 15 * c ^ 5) * (c - c ^ 3 / 3 + 2 / 15 * c ^ 5))
      with (c ^ 2 - 2 / 3 * c ^ 4 + 17 / 45 * c ^ 6 - 4 / 45 * (c ^ 4 * c ^ 4) + 4 / 225 * (c ^ 4 * c ^ 4) * (c * c)) in Q by field.
    assert (Z : 0 <= c ^ 4 * c ^ 4) by apply Rle_0_sqr.
    assert (Z2 : c ^ 4 * c ^ 4 * (c * c) <= c ^ 4 * c ^ 4 * 1) by (apply Rmult_le_compat_l; [exact Z|nra]).
    replace (INR 1) with 1 by reflexivity. replace (INR 3) with 3 by (simpl; ring). replace (INR 5) with 5 by (simpl; ring). replace (INR 7) with 7 by (simpl; ring).
    replace (c ^ 0) with 1 by reflexivity. lra.
Qed.

Definition T6 (x : R) : R := x ^ 2 / 2 - x ^ 4 / 12 + x ^ 6 / 45.
Lemma lncosh_0 : ln (cosh 0) = 0. Proof. rewrite cosh_0. apply ln_1. Qed.
Lemma lncosh_le x : 0 <= x <= 1 -> ln (cosh x) <= T6 x.
Proof.
  intros H. unfold T6. cut (0 <= (/ 2 * x ^ 2 - / 12 * x ^ 4 + / 45 * x ^ 6) - ln (cosh x)); [lra|].
  apply (grows (fun y => (/ 2 * y ^ 2 - / 12 * y ^ 4 + / 45 * y ^ 6) - ln (cosh y))
               (fun c => (/ 2 * (INR 2 * c ^ 1) - / 12 * (INR 4 * c ^ 3) + / 45 * (INR 6 * c ^ 5)) - tanh c)) with (X := 1); [rewrite lncosh_0; ring| | |lra].
  - intros c. apply d_minus; [|apply d_lncosh]. apply d_plus; [apply d_minus; apply d_mono|apply d_mono].
  - intros c Hc. pose proof (tanh_le5 c ltac:(lra)) as L. unfold T5 in L.
    replace (INR 2) with 2 by (simpl; ring). replace (INR 4) with 4 by (simpl; ring). replace (INR 6) with 6 by (simpl; ring). replace (c ^ 1) with c by (simpl; ring). lra.
Qed.
Lemma lncosh_ge x : 0 <= x <= 1 -> T6 x - 17 / 2520 * x ^ 8 <= ln (cosh x).
Proof.
  intros H. unfold T6. cut (0 <= ln (cosh x) - (/ 2 * x ^ 2 - / 12 * x ^ 4 + / 45 * x ^ 6 - 17 / 2520 * x ^ 8)); [lra|].
  apply (grows (fun y => ln (cosh y) - (/ 2 * y ^ 2 - / 12 * y ^ 4 + / 45 * y ^ 6 - 17 / 2520 * y ^ 8))
               (fun c => tanh c - (/ 2 * (INR 2 * c ^ 1) - / 12 * (INR 4 * c ^ 3) + / 45 * (INR 6 * c ^ 5) - 17 / 2520 * (INR 8 * c ^ 7)))) with (X := 1); [rewrite lncosh_0; ring| | |lra].
  - intros c. apply d_minus; [apply d_lncosh|]. apply d_minus; [apply d_plus; [apply d_minus; apply d_mono|apply d_mono]|apply d_mono].
  - intros c Hc. pose proof (tanh_ge7 c ltac:(lra)) as L. unfold T5 in L.
    replace (INR 2) with 2 by (simpl; ring). replace (INR 4) with 4 by (simpl; ring). replace (INR 6) with 6 by (simpl; ring). replace (INR 8) with 8 by (simpl; ring). replace (c ^ 1) with c by (simpl; ring). lra.
Qed.

(** ** the polynomials on real numbers *)
Lemma poly5_real x : poly5 (RtoC x) = RtoC ((133333333 / 1000000000) * x ^ 5 - (333333333 / 1000000000) * x ^ 3 + x).
Proof. unfold poly5, RtoC, C1, Csub, Cmul, Copp, Cadd. apply C_eq; cbn [fst snd]; field. Qed.
Lemma poly6_real x : poly6 (RtoC x) = RtoC ((22222222 / 1000000000) * x ^ 6 - (83333333 / 1000000000) * x ^ 4 + x ^ 2 / 2).
Proof. unfold poly6, RtoC, C1, Csub, Cmul, Copp, Cadd. apply C_eq; cbn [fst snd]; field. Qed.
Lemma poly5_odd z : poly5 (- z)%C = (- poly5 z)%C.
Proof. unfold poly5. ring. Qed.
Lemma poly6_even z : poly6 (- z)%C = poly6 z.
Proof. unfold poly6. replace ((- z) * (- z))%C with (z * z)%C by ring. reflexivity. Qed.
Lemma square_even z : square (- z)%C = square z.
Proof. unfold square. ring. Qed.

Lemma pow_le_1 x n : 0 <= x <= 1 -> 0 <= x ^ n <= 1.
Proof. intros H. split; [apply pow_le; lra|]. rewrite <- (pow1 n). apply pow_incr. lra. Qed.

Lemma poly5_pos x : 0 <= x <= 1 -> Rabs (Re (poly5 (RtoC x)) - tanh x) <= 17 / 315 * x ^ 7 + / 1000000000.
Proof.
  intros H. rewrite poly5_real. unfold Re, RtoC. cbn [fst].
  pose proof (tanh_le5 x H). pose proof (tanh_ge7 x H). unfold T5 in *. pose proof (pow_le_1 x 5 H). pose proof (pow_le_1 x 3 H). pose proof (pow_le_1 x 7 H).
  apply Rabs_le. split; lra.
Qed.
Lemma poly6_pos x : 0 <= x <= 1 -> Rabs (Re (poly6 (RtoC x)) - ln (cosh x)) <= 17 / 2520 * x ^ 8 + / 1000000000.
Proof.
  intros H. rewrite poly6_real. unfold Re, RtoC. cbn [fst].
  pose proof (lncosh_le x H). pose proof (lncosh_ge x H). unfold T6 in *. pose proof (pow_le_1 x 6 H). pose proof (pow_le_1 x 4 H). pose proof (pow_le_1 x 8 H).
  apply Rabs_le. split; lra.
Qed.
Lemma tanh_odd x : tanh (- x) = - tanh x.
Proof. unfold tanh, sinh, cosh. rewrite Ropp_involutive. pose proof (exp_pos x). pose proof (exp_pos (- x)). field. lra. Qed.
Lemma cosh_even x : cosh (- x) = cosh x.
Proof. unfold cosh. rewrite Ropp_involutive. lra. Qed.
Lemma RtoC_neg x : RtoC (- x) = (- RtoC x)%C.
Proof. unfold RtoC, Copp. cbn. f_equal. ring. Qed.
Lemma poly5_all x : Rabs x <= 1 -> Rabs (Re (poly5 (RtoC x)) - tanh x) <= 17 / 315 * Rabs x ^ 7 + / 1000000000.
Proof.
  intros H. destruct (Rle_dec 0 x) as [L|L].
  - rewrite (Rabs_pos_eq x L) in *. apply poly5_pos. lra.
  - assert (Lx : x < 0) by lra. rewrite (Rabs_left x Lx) in *. pose proof (poly5_pos (- x) ltac:(lra)) as P.
    rewrite RtoC_neg, poly5_odd, tanh_odd in P. rewrite <- Rabs_Ropp. replace (- (Re (poly5 (RtoC x)) - tanh x)) with (Re (- poly5 (RtoC x))%C - - tanh x); [exact P|].
    unfold Re, Copp. cbn. ring.
Qed.
Lemma poly6_all x : Rabs x <= 1 -> Rabs (Re (poly6 (RtoC x)) - ln (cosh x)) <= 17 / 2520 * x ^ 8 + / 1000000000.
Proof.
  intros H. destruct (Rle_dec 0 x) as [L|L].
  - rewrite (Rabs_pos_eq x L) in *. apply poly6_pos. lra.
  - assert (Lx : x < 0) by lra. rewrite (Rabs_left x Lx) in *. pose proof (poly6_pos (- x) ltac:(lra)) as P.
    rewrite RtoC_neg, poly6_even, cosh_even in P. replace ((- x) ^ 8) with (x ^ 8) in P by ring. exact P.
Qed.
Lemma poly6_deriv x : exists l, derivable_pt_lim (fun y => Re (poly6 (RtoC y))) x l
  /\ (Rabs x <= 1 -> Rabs (l - Re (poly5 (RtoC x))) <= 2 / 1000000000).
Proof.
  exists ((22222222 / 1000000000) * (INR 6 * x ^ 5) - (83333333 / 1000000000) * (INR 4 * x ^ 3) + / 2 * (INR 2 * x ^ 1)). split.
  -
    assert (E : forall y, Re (poly6 (RtoC y)) = (22222222 / 1000000000) * y ^ 6 - (83333333 / 1000000000) * y ^ 4 + / 2 * y ^ 2).
    { intros y. rewrite poly6_real. unfold Re, RtoC. cbn [fst]. field. }
    assert (D : derivable_pt_lim (fun y => (22222222 / 1000000000) * y ^ 6 - (83333333 / 1000000000) * y ^ 4 + / 2 * y ^ 2) x
        ((22222222 / 1000000000) * (INR 6 * x ^ 5) - (83333333 / 1000000000) * (INR 4 * x ^ 3) + / 2 * (INR 2 * x ^ 1))).
    { apply d_plus; [apply d_minus; apply d_mono|apply d_mono]. }
    intros eps He. destruct (D eps He) as (del & Hd). exists del. intros h Hh Hl. rewrite !E. now apply Hd.
  - intros H. rewrite poly5_real. unfold Re, RtoC. cbn [fst].
    replace (INR 6) with 6 by (simpl; ring). replace (INR 4) with 4 by (simpl; ring). replace (INR 2) with 2 by (simpl; ring). replace (x ^ 1) with x by (simpl; ring).
    assert (B : forall n, Rabs (x ^ n) <= 1). { intros n. rewrite <- RPow_abs. apply pow_le_1. split; [apply Rabs_pos|exact H]. }
    replace (22222222 / 1000000000 * (6 * x ^ 5) - 83333333 / 1000000000 * (4 * x ^ 3) + / 2 * (2 * x) - (133333333 / 1000000000 * x ^ 5 - 333333333 / 1000000000 * x ^ 3 + x))
      with (/ 1000000000 * x ^ 3 - / 1000000000 * x ^ 5) by field.
    pose proof (B 3%nat) as B3. pose proof (B 5%nat) as B5. pose proof (Rle_abs (x ^ 3)). pose proof (Rle_abs (- x ^ 3)). pose proof (Rle_abs (x ^ 5)). pose proof (Rle_abs (- x ^ 5)). rewrite Rabs_Ropp in *. apply Rabs_le. lra.
Qed.

(** ** spin flips in convolutional networks *)
Definition teq (X Y : tensor) : Prop := t_shape X = t_shape Y /\ t_chan X = t_chan Y /\ forall idx c, t_at Y idx c = t_at X idx c.
Definition tneg (X Y : tensor) : Prop := t_shape X = t_shape Y /\ t_chan X = t_chan Y /\ forall idx c, t_at Y idx c = (- t_at X idx c)%C.

Lemma wrap_eq F X Y : teq X Y -> teq (pad_wrap F X) (pad_wrap F Y).
Proof. intros (S & K & H). unfold pad_wrap. rewrite <- S, <- K. repeat split. intros. cbn. now rewrite H. Qed.
Lemma wrap_neg F X Y : tneg X Y -> tneg (pad_wrap F X) (pad_wrap F Y).
Proof. intros (S & K & H). unfold pad_wrap. rewrite <- S, <- K. repeat split. intros. cbn. now rewrite H. Qed.
Lemma zero_eq p X Y : teq X Y -> teq (pad_zero p X) (pad_zero p Y).
Proof. intros (S & K & H). unfold pad_zero. rewrite <- S, <- K. repeat split. intros. cbn. destruct (forallb _ _); [apply H|reflexivity]. Qed.
Lemma zero_neg p X Y : tneg X Y -> tneg (pad_zero p X) (pad_zero p Y).
Proof. intros (S & K & H). unfold pad_zero. rewrite <- S, <- K. repeat split. intros. cbn. destruct (forallb _ _); [apply H|ring]. Qed.

Lemma csum_neg {A} (f g : A -> C) l : (forall x, g x = (- f x)%C) -> csum (map g l) = (- csum (map f l))%C.
Proof. intros H. induction l as [|a l IH]; cbn [map]; rewrite ?csum_nil, ?csum_cons; [ring|]. rewrite IH, H. ring. Qed.
Lemma csum_same {A} (f g : A -> C) l : (forall x, g x = f x) -> csum (map g l) = csum (map f l).
Proof. intros H. f_equal. apply map_ext, H. Qed.

Lemma valid_eq F st n b p X Y : teq X Y -> teq (conv_valid F st n b p X) (conv_valid F st n b p Y).
Proof.
  intros (S & K & H). unfold conv_valid. rewrite <- S, <- K. repeat split. intros. cbn [t_at]. f_equal.
  apply csum_same. intros j. apply csum_same. intros c0. now rewrite H.
Qed.
Lemma valid_neg F st n p X Y : tneg X Y -> tneg (conv_valid F st n false p X) (conv_valid F st n false p Y).
Proof.
  intros (S & K & H). unfold conv_valid. rewrite <- S, <- K. repeat split. intros. cbn [t_at].
  rewrite (csum_neg (fun j => csum (map (fun c0 => p_kernel p j c0 c * t_at X (map2 Nat.add (map2 Nat.mul idx st) j) c0)%C (seq 0 (t_chan X))))); [ring|].
  intros j. apply csum_neg. intros c0. rewrite H. ring.
Qed.
Lemma same_eq F st n b p X Y : teq X Y -> teq (conv_same F st n b p X) (conv_same F st n b p Y).
Proof. intros H. unfold conv_same. replace (t_shape Y) with (t_shape X) by apply H. now apply valid_eq, zero_eq. Qed.
Lemma same_neg F st n p X Y : tneg X Y -> tneg (conv_same F st n false p X) (conv_same F st n false p Y).
Proof. intros H. unfold conv_same. replace (t_shape Y) with (t_shape X) by apply H. now apply valid_neg, zero_neg. Qed.
Lemma act_eq f X Y : teq X Y -> teq (Cnn_Model.act f X) (Cnn_Model.act f Y).
Proof. intros (S & K & H). repeat split; cbn; auto. intros. now rewrite H. Qed.
Lemma act_neg f X Y : (forall z, f (- z)%C = f z) -> tneg X Y -> teq (Cnn_Model.act f X) (Cnn_Model.act f Y).
Proof. intros E (S & K & H). repeat split; cbn; auto. intros. now rewrite H. Qed.
Lemma output_eq X Y : teq X Y -> output Y = output X.
Proof.
  intros (S & K & H). unfold output. rewrite <- S, <- K. f_equal. apply csum_same. intros idx. apply csum_same. intros c. apply H.
Qed.
Lemma cnn_layer_eq F st per l X Y : teq X Y -> teq (cnn_layer F st per X l) (cnn_layer F st per Y l).
Proof. intros H. destruct l as [[[c fn] b] p]. cbn. apply act_eq, valid_eq. destruct per; [now apply wrap_eq|now apply zero_eq]. Qed.
Lemma cnn_layer_neg F st per c fn p X Y : (forall z, fn (- z)%C = fn z) -> tneg X Y -> teq (cnn_layer F st per X (c, fn, false, p)) (cnn_layer F st per Y (c, fn, false, p)).
Proof. intros E H. cbn. apply act_neg; [exact E|]. apply valid_neg. destruct per; [now apply wrap_neg|now apply zero_neg]. Qed.
Lemma cpx_layer_eq F st per l X Y : teq X Y -> teq (cpx_cnn_layer F st per X l) (cpx_cnn_layer F st per Y l).
Proof. intros H. destruct l as [[[c fn] b] p]. cbn. apply act_eq, same_eq. destruct per; [now apply wrap_eq|exact H]. Qed.
Lemma cpx_layer_neg F st per c fn p X Y : (forall z, fn (- z)%C = fn z) -> tneg X Y -> teq (cpx_cnn_layer F st per X (c, fn, false, p)) (cpx_cnn_layer F st per Y (c, fn, false, p)).
Proof. intros E H. cbn. apply act_neg; [exact E|]. apply same_neg. destruct per; [now apply wrap_neg|exact H]. Qed.
Lemma fold_eq {L} (f : tensor -> L -> tensor) ls : (forall l X Y, teq X Y -> teq (f X l) (f Y l)) -> forall X Y, teq X Y -> teq (fold_left f ls X) (fold_left f ls Y).
Proof. intros Hf. induction ls as [|l ls IH]; intros X Y H; cbn; [exact H|]. apply IH, Hf, H. Qed.

Lemma input_neg sh x : tneg (input sh x) (input sh (fun idx => 1 - x idx)).
Proof. repeat split. intros. unfold input, RtoC, Copp. cbn. f_equal; ring. Qed.

(** first layer *)
Lemma layers_cons channels actFun bias ps fn : hd_error actFun = Some fn -> channels <> [] -> ps <> [] ->
  exists c p r, layers channels actFun bias false ps = (c, fn, false, p) :: r.
Proof.
  intros Ha Hc Hp. destruct channels as [|c channels]; [congruence|]. destruct ps as [|p ps]; [congruence|]. destruct actFun as [|g actFun]; [discriminate|].
  inversion Ha; subst. unfold layers, activations, biases. cbn [length repeat app combine]. eauto.
Qed.
