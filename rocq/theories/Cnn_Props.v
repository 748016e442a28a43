(** Theorems about convolutional networks. *)
From Coq Require Import ZArith List Reals Bool Arith Lia Lra Permutation.
From Verif Require Import Base Cplx BranchFree_Model Stats_Model Sampler_Spec Sym_Model Sym_Spec Cnn_Model Cnn_Spec Rbm_Model.
From Verif Require Import Sampler2_Proofs Sym_Proofs Sym2_Proofs Sym4_Proofs Sym_Props Vqs_Proofs Cnn_Proofs.
Import ListNotations.

(** ** C47: translation invariance *)
(** class CNN, any number of axes, layers, channels, any parameters and activation functions *)
Theorem C47_cnn F channels actFun bias firstLayerBias ps sh x t :
  length F = length sh -> length t = length sh -> Forall (fun n => 1 <= n) F -> Forall (fun n => 1 <= n) sh ->
  cnn F channels (repeat 1 (length sh)) actFun bias firstLayerBias true ps sh (translated sh t x)
  = cnn F channels (repeat 1 (length sh)) actFun bias firstLayerBias true ps sh x.
Proof.
  intros HF HT H1 H2. unfold cnn. apply (output_rel sh t); [exact HT|]. apply fold_rel.
  - intros l X Y HR. now apply cnn_layer_rel.
  - split; [reflexivity|]. split; [reflexivity|]. split; [reflexivity|]. reflexivity.
Qed.
Print Assumptions C47_cnn.
Example C47_cnn_example : length [2; 3] = length [4; 4] /\ Forall (fun n => 1 <= n) [2; 3] /\ Forall (fun n => 1 <= n) [4; 4]
  /\ translated [4; 4] [1; 3] (fun idx => idx) [3; 2] = [0; 1].
Proof. repeat constructor; lia. Qed.

(** class CpxCNN: only for filters of diameter one.  Missing: all others, see C47_cpx_refuted *)
Theorem C47_cpx_partial channels actFun bias firstLayerBias ps sh x t :
  length t = length sh -> Forall (fun n => 1 <= n) sh ->
  cpx_cnn (repeat 1 (length sh)) channels (repeat 1 (length sh)) actFun bias firstLayerBias true ps sh (translated sh t x)
  = cpx_cnn (repeat 1 (length sh)) channels (repeat 1 (length sh)) actFun bias firstLayerBias true ps sh x.
Proof.
  intros HT H2. unfold cpx_cnn. apply (output_rel sh t); [exact HT|]. apply fold_rel.
  - intros l X Y HR. now apply cpx_layer_rel.
  - split; [reflexivity|]. split; [reflexivity|]. split; [reflexivity|]. reflexivity.
Qed.
Print Assumptions C47_cpx_partial.
Example C47_cpx_example : length [1; 2] = length [3; 4] /\ Forall (fun n => 1 <= n) [3; 4].
Proof. repeat constructor; lia. Qed.

(** a ring of three sites, filter of diameter three with weights (0, 1, 1), activation square *)
Definition ring3 (a b c : R) (idx : list nat) : R := match idx with [0] => a | [1] => b | _ => c end.
Definition w011 : conv_params := mkP (fun j _ _ => match j with [0] => C0 | _ => C1 end) (fun _ => C0).
Lemma cpx_value x : cpx_cnn [3] [1] [1] [Rbm_Model.square] true false true [w011] [3] x
  = (let p := (2 * x [0%nat] - 1)%R in let q := (2 * x [1%nat] - 1)%R in let r := (2 * x [2%nat] - 1)%R in
     Cdiv (RtoC (2 * ((p + q) * (p + q)) + (q + r) * (q + r) + (r + p) * (r + p) + q * q)) (RtoC (sqrt (INR 5)))).
Proof.
  unfold cpx_cnn, layers, activations, biases. cbn [length repeat combine last app Nat.sub fold_left cpx_cnn_layer].
  unfold output, act, conv_same, conv_valid, pad_zero, pad_wrap, input. cbn [t_shape t_chan t_at].
  unfold map2. cbn [combine map fst snd]. change (same_pad (3 + (3 - 1)) 3 1) with (1, 1). cbn [map fst snd].
  change ((1 + (3 + (3 - 1)) + 1 - 3) / 1 + 1) with 5. cbn [fold_right Nat.mul Nat.add]. cbv zeta.
  apply (f_equal (fun z => Cdiv z (RtoC (sqrt (INR 5))))).
  cbn [indices flat_map seq map app]. rewrite !csum_cons, !csum_nil.
  cbn [combine map fst snd forallb Nat.leb Nat.ltb Nat.add Nat.mul Nat.sub andb w011 p_kernel]. unfold Nat.modulo. cbn [Nat.divmod snd Nat.sub].
  unfold Rbm_Model.square. generalize (2 * x [0%nat] - 1)%R (2 * x [1%nat] - 1)%R (2 * x [2%nat] - 1)%R. intros p q r.
  rewrite !RtoC_add, !RtoC_mul. replace (RtoC 2) with (C1 + C1)%C by (rewrite <- RtoC_1, <- RtoC_add; f_equal; lra). rewrite !RtoC_add. ring.
Qed.
Theorem C47_cpx_refuted : exists F channels actFun ps sh t x,
  length F = length sh /\ length t = length sh /\ Forall (fun n => 1 <= n) F /\ Forall (fun n => 1 <= n) sh
  /\ (forall idx, x idx = 0%R \/ x idx = 1%R)
  /\ cpx_cnn F channels (repeat 1 (length sh)) actFun true false true ps sh (translated sh t x)
     <> cpx_cnn F channels (repeat 1 (length sh)) actFun true false true ps sh x.
Proof.
  exists [3], [1], [Rbm_Model.square], [w011], [3], [1], (ring3 0 0 1). do 2 (split; [reflexivity|]). do 2 (split; [repeat constructor|]).
  split; [intros idx; destruct idx as [|[|[|?]] [|? ?]]; cbn; auto|]. cbn [length repeat]. rewrite !cpx_value. unfold translated. cbn [moved].
  unfold Nat.modulo. cbn [Nat.add Nat.divmod snd Nat.sub ring3]. cbv zeta. unfold ring3. intros E.
  assert (P : (0 < sqrt (INR 5))%R) by (apply sqrt_lt_R0; cbn; lra). set (s5 := sqrt (INR 5)) in *.
  assert (NZ : RtoC s5 <> C0) by (intros Z; unfold RtoC, C0 in Z; inversion Z; lra).
  apply (f_equal (fun z => Cmul z (RtoC s5))) in E. unfold Cdiv in E.
  assert (K : forall u, (u * Cinv (RtoC s5) * RtoC s5)%C = u) by (intros u; field; exact NZ).
  rewrite !K in E. apply RtoC_inj in E. lra.
Qed.
Print Assumptions C47_cpx_refuted.

(** ** C67: averages over an orbit *)
(** The matrices act on the occupation numbers: the symmetries are those one asks for as long as
    the orbit contains no spin flips.  Missing: orbits with spin flips, see C67_spinflip_refuted *)
Lemma mat_vec_unsigned n A s : signed_permutation n A -> length s = n -> (forall i j, entry A i j <> (-1)%Z) ->
  mat_vec A (map Z.of_nat s) = map Z.of_nat (sym_act A s).
Proof.
  intros H Hs HU. destruct (signed_smat n A H) as (sg & f & H1 & H2 & H3 & ->). rewrite (sym_act_smat n) by assumption.
  unfold mat_vec. unfold smat. rewrite !map_map. apply map_ext_in. intros i Hi. apply in_seq in Hi.
  assert (E : map Z.of_nat s = map (fun j => Z.of_nat (nth j s O)) (seq 0 n)).
  { rewrite <- (map_nth_seq s 0) at 1. rewrite map_map, Hs. reflexivity. }
  rewrite E, map2_map_l, map2_map_r, map2_same. rewrite (zsum_single n (f i) sg (fun j => Z.of_nat (nth j s O))) by (apply H2; lia).
  destruct H1 as [-> | ->]; [cbn [Z.eqb]; apply Z.mul_1_l|].
  exfalso. apply (HU i (f i)). assert (i < n) by lia. rewrite smat_entry, Nat.eqb_refl by auto. reflexivity.
Qed.
Theorem C67_invariant_partial n lDim (orbit : list mat) net B s t : is_group n orbit -> Forall (fun A => forall i j, entry A i j <> (-1)%Z) orbit ->
  In s (all_configs lDim n) -> In B orbit -> acts B s t -> cnn_sym orbit net t = cnn_sym orbit net s.
Proof.
  intros HG HU Hs HB HA. pose proof Hs as Hs'. apply in_all_configs in Hs' as [Hl _].
  pose proof (group_signed n orbit B HG HB) as SB. rewrite (acts_unique n B s t SB Hl HA).
  unfold cnn_sym. f_equal. rewrite Forall_forall in HU.
  assert (K : forall u, length u = n -> csum (map (fun o => net (map IZR (mat_vec o (map Z.of_nat u)))) orbit) = csum (map (fun o => net (map IZR (map Z.of_nat (sym_act o u)))) orbit)).
  { intros u Hu. apply csum_ext. intros A HA'. rewrite (mat_vec_unsigned n); [reflexivity|now apply (group_signed n orbit)|exact Hu|now apply HU]. }
  rewrite !K by (assumption || now apply sym_act_length).
  rewrite <- (group_csum n orbit B (fun A => net (map IZR (map Z.of_nat (sym_act A s)))) HG HB). apply csum_ext. intros A HA'. do 3 f_equal.
  pose proof (group_signed n orbit A HG HA') as SA.
  apply (sym_act_product n lDim); try assumption; try (right; now apply HU). now apply mul_product.
Qed.
Print Assumptions C67_invariant_partial.
Example C67_example : Forall (fun A => forall i j, entry A i j <> (-1)%Z) (map fst (get_orbit_1D 3 true false false C1 C1 C1))
  /\ length (get_orbit_1D 3 true false false C1 C1 C1) = 3 /\ In [0; 1; 1] (all_configs 2 3)
  /\ acts [[0; 0; 1]; [1; 0; 0]; [0; 1; 0]]%Z [0; 1; 1] [1; 0; 1].
Proof.
  assert (E : map fst (get_orbit_1D 3 true false false C1 C1 C1) = [[[0; 0; 1]; [1; 0; 0]; [0; 1; 0]]; [[0; 1; 0]; [0; 0; 1]; [1; 0; 0]]; [[1; 0; 0]; [0; 1; 0]; [0; 0; 1]]]%Z) by reflexivity.
  rewrite E. split; [|split; [reflexivity|split; [apply in_all_configs; split; [reflexivity|repeat constructor]|]]].
  - apply Forall_forall. intros A [<-|[<-|[<-|[]]]] i j; unfold entry; destruct i as [|[|[|i]]], j as [|[|[|j]]]; cbn [nth]; try discriminate; repeat match goal with |- context [match ?k with _ => _ end] => destruct k end; discriminate.
  - split; [reflexivity|]. cbn [length]. intros i j Hi Hj. destruct i as [|[|[|i]]], j as [|[|[|j]]]; try lia; cbn; split; intros; (reflexivity || discriminate).
Qed.

(** a single site, the orbit of the spin flip, the network (2 x - 1)^2: the two states have different amplitudes *)
Definition net1 : list R -> C := fun v => cpx_cnn [1] [1] [1] [Rbm_Model.square] true false true [mkP (fun _ _ _ => C1) (fun _ => C0)] [1] (reshape [1] v).
Lemma net1_value x : net1 [x] = RtoC ((2 * x - 1) * (2 * x - 1)).
Proof.
  unfold net1, cpx_cnn, layers, activations, biases. cbn [length repeat combine last app Nat.sub fold_left cpx_cnn_layer].
  unfold output, act, conv_same, conv_valid, pad_zero, pad_wrap, input. cbn [t_shape t_chan t_at].
  unfold map2. cbn [combine map fst snd]. change (same_pad (1 + (1 - 1)) 1 1) with (0, 0). cbn [map fst snd].
  change ((0 + (1 + (1 - 1)) + 0 - 1) / 1 + 1) with 1. cbn [fold_right Nat.mul Nat.add]. cbv zeta.
  cbn [indices flat_map seq map app]. rewrite !csum_cons, !csum_nil.
  cbn [combine map fst snd forallb Nat.leb Nat.ltb Nat.add Nat.mul Nat.sub andb p_kernel]. unfold Nat.modulo. cbn [Nat.divmod snd Nat.sub].
  unfold reshape. cbn [ravel fold_right Nat.mul Nat.add nth]. unfold Rbm_Model.square.
  replace (sqrt (INR 1)) with 1%R by (cbn; now rewrite sqrt_1). rewrite RtoC_1, RtoC_mul. generalize (RtoC (2 * x - 1)). intros z. field. apply C1_neq_C0.
Qed.
Theorem C67_spinflip_refuted : exists n orbit net B s t, orbit = map fst (get_orbit_1D n false false true C1 C1 C1)
  /\ is_group n orbit /\ In s (all_configs 2 n) /\ In B orbit /\ acts B s t /\ cnn_sym orbit net t <> cnn_sym orbit net s.
Proof.
  exists 1, (map fst (get_orbit_1D 1 false false true C1 C1 C1)), net1, [[-1]]%Z, [0], [1]. split; [reflexivity|].
  split; [apply orbit_1D_group; lia|]. split; [now left|].
  assert (E : map fst (get_orbit_1D 1 false false true C1 C1 C1) = [[[-1]]; [[1]]]%Z) by reflexivity. rewrite E.
  split; [now left|]. split.
  - split; [reflexivity|]. cbn [length]. intros i j Hi Hj. assert (i = 0) as -> by lia. assert (j = 0) as -> by lia. cbn. split; [discriminate|reflexivity].
  - unfold cnn_sym. cbn [map length]. unfold mat_vec. cbn [map]. unfold map2. cbn [combine map fst snd Z.of_nat]. unfold zsum, big. cbn [fold_right Z.mul Z.add Pos.mul Pos.of_succ_nat map].
    rewrite !net1_value, !csum_cons, !csum_nil. intros H.
    assert (N2 : RtoC (INR 2) <> C0) by (intros Z; unfold RtoC, C0 in Z; inversion Z as [Z1]; cbn in Z1; lra).
    apply (f_equal (fun z => Cmul z (RtoC (INR 2)))) in H. unfold Cdiv in H.
    assert (K : forall u, (u * Cinv (RtoC (INR 2)) * RtoC (INR 2))%C = u) by (intros u; field; exact N2).
    rewrite !K in H. apply (f_equal Re) in H. unfold Re, Cadd, RtoC, C0 in H. cbn in H. lra.
Qed.
Print Assumptions C67_spinflip_refuted.

(** the arrays given to the inner network have the input's shape again and the entries in their order *)
Lemma ravel_indices sh : map (ravel sh) (indices sh) = seq 0 (fold_right Nat.mul 1 sh).
Proof.
  induction sh as [|n r IH]; [reflexivity|]. cbn [indices fold_right]. set (m := fold_right Nat.mul 1 r) in *.
  assert (K : forall a k, map (ravel (n :: r)) (flat_map (fun i => map (cons i) (indices r)) (seq a k)) = seq (a * m) (k * m)).
  { intros a k. revert a. induction k as [|k IK]; intros a; [reflexivity|]. cbn [seq flat_map]. rewrite map_app, IK, map_map.
    change (S k * m) with (m + k * m). rewrite seq_app. f_equal; [|f_equal; lia].
    transitivity (map (fun j => a * m + j) (map (ravel r) (indices r))); [rewrite map_map; reflexivity|].
    rewrite IH. clear. generalize (a * m) as b. intros b. generalize m as j. intros j.
    transitivity (map (fun i => b + i) (seq 0 j)); [reflexivity|].
    revert b. induction j as [|j IJ]; intros b; [reflexivity|]. cbn [seq map]. rewrite Nat.add_0_r. f_equal.
    rewrite <- seq_shift, map_map. rewrite <- (IJ (S b)). apply map_ext. intros i. lia. }
  exact (K 0 n).
Qed.
Theorem C67_reshape sh (v : list R) : length v = fold_right Nat.mul 1 sh -> map (reshape sh v) (indices sh) = v.
Proof.
  intros H. unfold reshape. rewrite <- (map_map (ravel sh) (fun k => nth k v 0%R)), ravel_indices, <- H. apply map_nth_seq.
Qed.
Print Assumptions C67_reshape.
Example C67_reshape_example : reshape [2; 3] [0; 1; 1; 0; 0; 1]%R [1; 2] = 1%R /\ reshape [2; 3] [0; 1; 1; 0; 0; 1]%R [1; 0] = 0%R
  /\ length [0; 1; 1; 0; 0; 1]%R = fold_right Nat.mul 1 [2; 3].
Proof. repeat split. Qed.
