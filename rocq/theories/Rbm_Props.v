(** Theorems about restricted Boltzmann machines. *)
From Coq Require Import List Reals Bool Arith Lia Lra.
From Verif Require Import Base Cplx BranchFree_Model Stats_Model Sampler_Spec Rbm_Model Rbm_Spec.
From Verif Require Import Sym_Proofs Vqs_Proofs.
Import ListNotations.
Local Open Scope R_scope.

Lemma xexp_add a b : xexp (xadd a b) = (xexp a * xexp b)%C.
Proof. destruct a, b; cbn [xadd xexp]; try ring. apply Cexp_add. Qed.
Lemma xexp_sum l : xexp (xsum l) = cprod (map xexp l).
Proof. induction l as [|a l IH]; [apply Cexp_C0|]. cbn [xsum fold_right map]. fold (xsum l). rewrite xexp_add, IH. reflexivity. Qed.
Lemma xexp_log1p z : xexp (log1p z) = (C1 + z)%C.
Proof.
  unfold log1p. destruct (Req_EM_T (Cnorm2 (C1 + z)%C) 0) as [e|n]; cbn [xexp].
  - symmetry. now apply Cnorm2_eq0.
  - apply Cexp_Clog. intros E. apply n. rewrite E. apply Cnorm2_C0.
Qed.
Lemma Ccosh_opp x : Ccosh (- x)%C = Ccosh x.
Proof. unfold Ccosh. replace (- - x)%C with x by ring. now rewrite CaddC. Qed.
Lemma Cexp_opp_mul x : (Cexp x * Cexp (- x))%C = C1.
Proof. rewrite <- Cexp_add. replace (x + - x)%C with C0 by ring. apply Cexp_C0. Qed.

(** ** C48: log_cosh and the machines *)
(** for every complex number and whatever sign zero has *)
Theorem C48_log_cosh sb x : xexp (log_cosh sb x) = Ccosh x.
Proof.
  unfold log_cosh. rewrite !xexp_add, xexp_log1p. cbn [xexp].
  assert (K : forall y, (Cexp y * (C1 + Cexp (RtoC (-2) * y)) * Cexp (- RtoC (ln 2)))%C = Ccosh y).
  { intros y. replace (Cexp (- RtoC (ln 2)))%C with (RtoC (/ 2)).
    - replace (RtoC (-2) * y)%C with (- y + - y)%C by (unfold RtoC, Cmul, Cadd, Copp; apply C_eq; cbn; ring). rewrite Cexp_add. unfold Ccosh. rewrite Cscal_RtoC.
      replace (1 / 2) with (/ 2) by field.
      replace (Cexp y * (C1 + Cexp (- y) * Cexp (- y)) * RtoC (/ 2))%C with (RtoC (/ 2) * (Cexp y + (Cexp y * Cexp (- y)) * Cexp (- y)))%C by ring.
      rewrite Cexp_opp_mul. ring.
    - rewrite <- RtoC_opp, Cexp_RtoC, exp_Ropp, exp_ln by lra. reflexivity. }
  rewrite K. unfold log_cosh_arg. destruct (sb (Re x)).
  - rewrite <- (Ccosh_opp x). f_equal. unfold RtoC, Cmul, Copp. apply C_eq; cbn; ring.
  - f_equal. unfold RtoC, Cmul. apply C_eq; cbn; ring.
Qed.
Print Assumptions C48_log_cosh.
Example C48_log_cosh_example : Ccosh (RtoC 0) = C1 /\ Ccosh (0, PI / 2) = C0 /\ log_cosh (fun _ => false) (0, PI / 2) = NegInf.
Proof.
  split; [|split].
  - unfold Ccosh. rewrite RtoC_0. replace (- C0)%C with C0 by ring. rewrite Cexp_C0. unfold Cscal, C1, Cadd. apply C_eq; cbn; field.
  - unfold Ccosh, Cexp, Cscal, Cadd, Copp. cbn [fst snd]. rewrite Ropp_0, cos_neg, sin_neg, cos_PI2. apply C_eq; cbn; ring.
  - unfold log_cosh, log1p, log_cosh_arg. destruct (Req_EM_T _ 0) as [_|n]; [reflexivity|]. exfalso. apply n.
    match goal with |- Cnorm2 (C1 + Cexp ?a)%C = 0 => replace a with ((0, - PI) : C) end.
    + unfold Cexp. cbn [fst snd]. rewrite exp_0, cos_neg, sin_neg, cos_PI, sin_PI. unfold Cnorm2, C1, Cadd. cbn. ring.
    + unfold RtoC, Cmul. apply C_eq; cbn; field.
Qed.

(** with the sign bit of the real part the exponential never exceeds one in magnitude *)
Theorem C48_bounded sb x : is_signbit sb -> Cabs (Cexp (RtoC (-2) * log_cosh_arg sb x)%C) <= 1.
Proof.
  intros H. rewrite Cabs_Cexp. rewrite <- exp_0. destruct (H (Re x)) as [Hn Hp].
  assert (L : Re (RtoC (-2) * log_cosh_arg sb x)%C <= 0).
  { unfold log_cosh_arg. destruct x as [u v]. unfold Re in *. cbn [fst] in *. unfold RtoC, Cmul. cbn [fst snd].
    destruct (Rtotal_order u 0) as [G|[G|G]]; [rewrite (Hn G); lra|destruct (sb u); subst; lra|rewrite (Hp G); lra]. }
  destruct L as [L|L]; [left; now apply exp_increasing|right; now rewrite L].
Qed.
Print Assumptions C48_bounded.
Example C48_bounded_example : is_signbit (fun x => if Rlt_dec x 0 then true else false).
Proof. intros x. split; intros H; destruct (Rlt_dec x 0); try reflexivity; lra. Qed.

Lemma dense_eq m n kernel b s : shape m n kernel -> length b = m -> length s = n ->
  dense kernel b s = map (field_of kernel b (fun i => nth i s C0) n) (seq 0 m).
Proof.
  intros [H1 H2] Hb Hs. unfold dense. apply nth_ext with C0 C0.
  - rewrite map2_length by (rewrite map_length; lia). rewrite !map_length, seq_length. exact H1.
  - intros j Hj. rewrite map2_length in Hj by (rewrite map_length; lia). rewrite map_length in Hj.
    rewrite (nth_map2 _ _ _ _ C0 C0) by (rewrite ?map_length; lia). rewrite nth_map_seq by lia. unfold field_of.
    rewrite (nth_indep _ C0 ((fun w => csum (map2 Cmul w s)) [])) by (rewrite map_length; lia). rewrite (map_nth (fun w => csum (map2 Cmul w s))).
    set (w := nth j kernel []). assert (Lw : length w = n) by (rewrite Forall_forall in H2; apply H2, nth_In; lia). f_equal.
    unfold csumn. apply (f_equal csum). apply nth_ext with C0 C0.
    + rewrite map2_length by lia. now rewrite map_length, seq_length.
    + intros i Hi. rewrite map2_length in Hi by lia. rewrite (nth_map2 _ _ _ _ C0 C0) by lia. rewrite nth_map_seq by lia. reflexivity.
Qed.
Definition bias_used (useBias : bool) (b : list C) : list C := if useBias then b else [].
Lemma bias_field ub kernel b spin n j : (j < length kernel)%nat ->
  field_of kernel (bias_of ub kernel b) spin n j = field_of kernel (bias_used ub b) spin n j.
Proof. intros H. unfold field_of, bias_of, bias_used. destruct ub; [reflexivity|]. rewrite nth_repeat. destruct j; reflexivity. Qed.
Lemma nth_spins s i : (i < length s)%nat -> nth i (map RtoC (spins s)) C0 = RtoC (2 * INR (nth i s 0%nat) - 1).
Proof.
  intros H. unfold spins. rewrite map_map. rewrite (nth_indep _ C0 ((fun x => RtoC (2 * INR x - 1)) 0%nat)) by now rewrite map_length.
  now rewrite (map_nth (fun x => RtoC (2 * INR x - 1))).
Qed.
Lemma field_ext kernel b f g n j : (forall i, (i < n)%nat -> f i = g i) -> field_of kernel b f n j = field_of kernel b g n j.
Proof. intros H. unfold field_of, csumn. f_equal. apply csum_ext. intros i Hi. apply in_seq in Hi. now rewrite H by lia. Qed.

(** amplitude of the complex machine: product over the hidden units of cosh(w_j (2s-1) + b_j);
    without [useBias] the b_j are zero *)
Theorem C48_amplitude sb useBias kernel b s m : shape m (length s) kernel -> length b = m ->
  xexp (cpx_rbm sb useBias kernel b s)
  = cprod (map (fun j => Ccosh (field_of kernel (if useBias then b else []) (fun i => RtoC (2 * INR (nth i s 0%nat) - 1)) (length s) j)) (seq 0 m)).
Proof.
  intros HS Hb. unfold cpx_rbm. rewrite xexp_sum, map_map.
  assert (HB : length (bias_of useBias kernel b) = m) by (unfold bias_of; destruct useBias; [exact Hb|rewrite repeat_length; apply HS]).
  rewrite (dense_eq m (length s)) by (try exact HS; try exact HB; unfold spins; now rewrite !map_length).
  rewrite map_map. apply (f_equal cprod). apply map_ext_in. intros j Hj. apply in_seq in Hj. rewrite C48_log_cosh. f_equal.
  rewrite bias_field by (rewrite (proj1 HS); lia). apply field_ext. intros i Hi. now apply nth_spins.
Qed.
Print Assumptions C48_amplitude.
Theorem C48_amplitude_nospinflip sb useBias kernel b s m : shape m (length s) kernel -> length b = m ->
  xexp (cpx_rbm_nospinflip sb useBias kernel b s)
  = cprod (map (fun j => Ccosh (field_of kernel (if useBias then b else []) (fun i => RtoC (INR (nth i s 0%nat))) (length s) j)) (seq 0 m)).
Proof.
  intros HS Hb. unfold cpx_rbm_nospinflip. rewrite xexp_sum, map_map.
  assert (HB : length (bias_of useBias kernel b) = m) by (unfold bias_of; destruct useBias; [exact Hb|rewrite repeat_length; apply HS]).
  rewrite (dense_eq m (length s)) by (try exact HS; try exact HB; now rewrite !map_length).
  rewrite map_map. apply (f_equal cprod). apply map_ext_in. intros j Hj. apply in_seq in Hj. rewrite C48_log_cosh. f_equal.
  rewrite bias_field by (rewrite (proj1 HS); lia). apply field_ext. intros i Hi.
  rewrite (nth_indep _ C0 ((fun x => RtoC (INR x)) 0%nat)) by now rewrite map_length. now rewrite (map_nth (fun x => RtoC (INR x))).
Qed.
Print Assumptions C48_amplitude_nospinflip.
Example C48_amplitude_example : shape 2 3 [[Ci; C1; C0]; [C1; C1; Ci]] /\ length [C1; Ci] = 2%nat /\ length [0; 1; 1]%nat = 3%nat.
Proof. repeat constructor. Qed.

Lemma flip_spin x : (x < 2)%nat -> 2 * INR (1 - x) - 1 = - (2 * INR x - 1).
Proof. destruct x as [|[|x]]; [| |lia]; intros _; cbn; lra. Qed.
(** without bias, turning all spins over does not change the amplitude *)
Theorem C48_spinflip sb kernel b s m : shape m (length s) kernel -> length b = m -> binary s ->
  xexp (cpx_rbm sb false kernel b (flipped s)) = xexp (cpx_rbm sb false kernel b s).
Proof.
  intros HS Hb HB. assert (HL : length (flipped s) = length s) by (unfold flipped; now rewrite map_length).
  rewrite (C48_amplitude sb false kernel b s m HS Hb). rewrite (C48_amplitude sb false kernel b (flipped s) m) by (try rewrite HL; assumption).
  apply (f_equal cprod). apply map_ext. intros j. rewrite HL. refine (eq_trans (f_equal Ccosh _) (Ccosh_opp _)). unfold field_of.
  replace (nth j [] C0) with C0 by now destruct j. unfold csumn.
  transitivity (csum (map (fun i => (- (nth i (nth j kernel []) C0 * RtoC (2 * INR (nth i s 0%nat) - 1)))%C) (seq 0 (length s))) + C0)%C.
  - f_equal. apply csum_ext. intros i Hi. apply in_seq in Hi. unfold flipped.
    rewrite (nth_indep _ 0%nat ((fun x => 1 - x)%nat 0%nat)) by (rewrite map_length; lia). rewrite (map_nth (fun x => 1 - x)%nat).
    rewrite flip_spin, RtoC_opp; [ring|]. unfold binary in HB. rewrite Forall_forall in HB. apply HB, nth_In. lia.
  - rewrite csum_opp. ring.
Qed.
Print Assumptions C48_spinflip.
Example C48_spinflip_example : binary [0; 1; 1]%nat /\ flipped [0; 1; 1]%nat = [1; 0; 0]%nat /\ shape 2 3 [[Ci; C1; C0]; [C1; C1; Ci]].
Proof. repeat constructor. Qed.

(** the real machine; its layer acts on every row of the configuration *)
Lemma cosh_pos x : 0 < cosh x.
Proof. unfold cosh. pose proof (exp_pos x). pose proof (exp_pos (- x)). lra. Qed.
Lemma cosh_even x : cosh (- x) = cosh x.
Proof. unfold cosh. rewrite Ropp_involutive. lra. Qed.
Lemma exp_rsum {A} (f g : A -> R) l : (forall a, In a l -> exp (f a) = g a) -> exp (rsum (map f l)) = rprod (map g l).
Proof.
  induction l as [|a l IH]; intros H; cbn [map]; [apply exp_0|]. rewrite rsum_cons, exp_plus, H, IH by (intros; apply H; now right) || (now left). reflexivity.
Qed.
Lemma rdense_eq m n (kernel : list (list R)) b s : shape m n kernel -> length b = m -> length s = n ->
  map2 (fun w c => rsum (map2 Rmult w (spins s)) + c) kernel b = map (rfield_of kernel b (fun i => 2 * INR (nth i s 0%nat) - 1) n) (seq 0 m).
Proof.
  intros [H1 H2] Hb Hs. apply nth_ext with 0 0.
  - rewrite map2_length by lia. now rewrite map_length, seq_length.
  - intros j Hj. rewrite map2_length in Hj by lia.
    rewrite (nth_map2 _ _ _ _ [] 0) by lia. rewrite nth_map_seq by lia. unfold rfield_of.
    set (w := nth j kernel []). assert (Lw : length w = n) by (rewrite Forall_forall in H2; apply H2, nth_In; lia). f_equal.
    unfold rsumn. apply (f_equal rsum). apply nth_ext with 0 0.
    + rewrite map2_length by (unfold spins; rewrite map_length; lia). now rewrite map_length, seq_length.
    + intros i Hi. rewrite map2_length in Hi by (unfold spins; rewrite map_length; lia). rewrite (nth_map2 _ _ _ _ 0 0) by (unfold spins; rewrite ?map_length; lia). rewrite nth_map_seq by lia.
      unfold spins. rewrite (nth_indep (map (fun x => 2 * INR x - 1) s) 0 ((fun x => 2 * INR x - 1) 0%nat)) by (rewrite map_length; lia). now rewrite (map_nth (fun x => 2 * INR x - 1)).
Qed.
Theorem C48_real_amplitude useBias kernel b (rows : list config) m n : shape m n kernel -> length b = m -> Forall (fun r => length r = n) rows ->
  exp (rbm useBias kernel b rows)
  = rprod (map (fun r => rprod (map (fun j => cosh (rfield_of kernel (if useBias then b else []) (fun i => 2 * INR (nth i r 0%nat) - 1) n j)) (seq 0 m))) rows).
Proof.
  intros HS Hb HR. unfold rbm. apply exp_rsum. intros r Hr. rewrite Forall_forall in HR. specialize (HR r Hr).
  set (bb := if useBias then b else repeat 0 (length kernel)).
  assert (HB : length bb = m) by (unfold bb; destruct useBias; [exact Hb|rewrite repeat_length; apply HS]).
  transitivity (exp (rsum (map (fun x => ln (cosh x)) (map2 (fun w c => rsum (map2 Rmult w (spins r)) + c) kernel bb)))).
  - unfold map2 at 1 3. rewrite map_map. reflexivity.
  - rewrite (rdense_eq m n) by assumption. rewrite map_map. apply exp_rsum. intros j Hj. apply in_seq in Hj. rewrite exp_ln by apply cosh_pos.
    f_equal. unfold rfield_of, bb. destruct useBias; [reflexivity|]. rewrite nth_repeat. now destruct j.
Qed.
Print Assumptions C48_real_amplitude.
Example C48_real_example : shape 2 3 [[1; 2; 0]; [0; 1; -1]] /\ Forall (fun r => length r = 3%nat) [[0; 1; 1]; [1; 1; 0]]%nat.
Proof. repeat constructor. Qed.
