(** MinSR updates of samples and the exact one. *)
From Coq Require Import ZArith List Reals Lia Lra Arith.
From Verif Require Import Base Cplx Povm_Spec Povm_Proofs Mpi_Model Mpi_Spec Stats_Model Stats_Spec Stats_Proofs BranchFree_Model Dist Ergo_Spec Ergo_Proofs Direct_Spec
  Tdvp_Model Tdvp_Spec Tdvp_Proofs Tdvp_Props Conv_Model Conv_Spec Conv_Proofs MinConv_Model MinConv_Spec MinConv_Proofs.
Import ListNotations.
Local Open Scope R_scope.

Lemma pairs_lmap {A} (f : config -> A) q : wpairs (snd q) (lmap f (fst q)) = map (fun px => (fst px, f (snd px))) (ens_of q).
Proof.
  unfold wpairs, ens_of, pairs. rewrite flat_lmap. change (concat (concat (fst q))) with (flat (fst q)). change (concat (concat (snd q))) with (flat (snd q)). generalize (flat (fst q)) (flat (snd q)). intros l m. revert l.
  induction m as [|w m IH]; intros [|s l]; try reflexivity. cbn. f_equal. apply IH.
Qed.

Section Updates.
  Variables (n : nat) (pinv : nat -> mat -> mat) (Eloc : config -> C) (G : config -> nat -> C).
  Hypothesis HP : inverts_kernels n pinv.
  Lemma equation_eq q z : normal_equations n (snd q) (lmap G (fst q)) (lmap (fun s (_ : unit) => Eloc s) (fst q)) z <-> sr_equation n (ens_of q) Eloc G z.
  Proof.
    unfold normal_equations, sr_equation. rewrite pairs_lmap, triples. split; intros H k Hk; specialize (H k Hk).
    - rewrite (cov_map (fun s => (G s, fun _ : unit => Eloc s))) in H. etransitivity; [|exact H]. apply csumn_ext. intros l _. f_equal. now rewrite (cov_map G).
    - rewrite (cov_map (fun s => (G s, fun _ : unit => Eloc s))). etransitivity; [|exact H]. apply csumn_ext. intros l _. f_equal. now rewrite (cov_map G).
  Qed.
  Lemma sampled_update space q : good_sample space q -> sr_update n (ens_of q) Eloc G (sampled_minsr n pinv Eloc G q).
  Proof.
    intros (S & W & _). destruct (C55_minsr n pinv (snd q) (lmap G (fst q)) (lmap (fun s (_ : unit) => Eloc s) (fst q))) as [H1 H2].
    - intros N A HA. apply (HP N A). exact HA.
    - now apply shape_lmap.
    - now apply shape_lmap.
    - exact W.
    - split; [now apply equation_eq|]. intros z Hz. apply H2. now apply equation_eq.
  Qed.

  Variables (space : list config) (P : config -> R).
  Hypotheses (H1 : rsum (map P space) = 1) (Hpos : forall s, In s space -> 0 < P s).
  Lemma full_good : good_sample space ([[space]], [[map P space]]).
  Proof.
    split; [|split; [split|]]; cbn [fst snd].
    - unfold shape_eq. repeat constructor. now rewrite map_length.
    - unfold flat. cbn [concat app]. rewrite !app_nil_r. intros p Hp. apply in_map_iff in Hp as (s & <- & Hs). apply Rlt_le, Hpos, Hs.
    - unfold flat. cbn [concat app]. now rewrite !app_nil_r.
    - unfold flat. cbn [concat app]. rewrite !app_nil_r. apply Forall_forall. auto.
  Qed.
  Lemma full_ens : ens_of ([[space]], [[map P space]]) = ensemble space P.
  Proof. unfold ens_of, pairs, ensemble. cbn [fst snd concat app]. rewrite !app_nil_r. clear. induction space; [reflexivity|]. cbn. now f_equal. Qed.
  Lemma exact_update_exists : exists u, sr_update n (ensemble space P) Eloc G u.
  Proof. rewrite <- full_ens. eexists. apply (sampled_update space). exact full_good. Qed.

  (** what the entries of S and F of a sample differ by from the exact ones *)
  Definition misfit (q : sample) : R :=
    sq2 n (fun i j => (fisher_of G (ens_of q) i j - fisher_of G (ensemble space P) i j)%C) + sq n (fun k => (rhs_of G Eloc (ens_of q) k - rhs_of G Eloc (ensemble space P) k)%C).
  Lemma misfit_ge q : 0 <= misfit q. Proof. unfold misfit. pose proof (sq2_ge n (fun i j => (fisher_of G (ens_of q) i j - fisher_of G (ensemble space P) i j)%C)). pose proof (sq_ge n (fun k => (rhs_of G Eloc (ens_of q) k - rhs_of G Eloc (ensemble space P) k)%C)). lra. Qed.
  Lemma update_close u e : sr_update n (ensemble space P) Eloc G u -> 0 < e ->
    exists eta, 0 < eta /\ forall q, good_sample space q -> misfit q <= eta -> distance n (sampled_minsr n pinv Eloc G q) u <= e.
  Proof.
    intros [Hu Hmin] He. set (M := fisher_of G (ensemble space P)).
    destruct (fisher_gram G space P H1 (fun s Hs => Rlt_le _ _ (Hpos s Hs))) as (m & O & HO). 
    set (T := fun i j => csumn n (fun k => (O i k * Cconj (O j k))%C)). assert (PI : pseudo_inverse m T (pinv m T)) by (apply HP; exists O; reflexivity).
    set (X := gen_inverse m n O (pinv m T)).
    set (M' := fun k l => csumn m (fun i => (Cconj (O i k) * O i l)%C)). assert (EM : forall k l, M k l = M' k l) by (intros; apply HO).
    assert (P1 : same n (mul n (mul n M X) M) M).
    { intros k l Hk Hl. rewrite EM. etransitivity; [|exact (M_gen_M m n O (pinv m T) PI k l Hk Hl)]. unfold mul. apply csumn_ext. intros a _. f_equal; [|apply EM]. apply csumn_ext. intros b _. f_equal. apply EM. }
    assert (P4 : hermitian n (mul n X M)).
    { intros k l Hk Hl. assert (E0 : forall a b, mul n X M a b = mul n X M' a b) by (intros; unfold mul; apply csumn_ext; intros; f_equal; apply EM). unfold dagger. rewrite !E0. exact (gen_herm m n O (pinv m T) PI k l Hk Hl). }
    set (x := 8 * sq2 n X). assert (Hx : 0 <= x) by (pose proof (sq2_ge n X); unfold x; lra). pose proof (sq_ge n u) as HU.
    set (y := x * (sq n u + 1)). assert (Hy : 0 <= y) by (apply Rmult_le_pos; lra).
    exists (/ (x + 1) * (e * e / (e * e + y + 1))). set (eta := / (x + 1) * (e * e / (e * e + y + 1))).
    assert (Ee : 0 < e * e) by now apply Rmult_lt_0_compat.
    assert (Ix : 0 < / (x + 1) <= 1). { split; [apply Rinv_0_lt_compat; lra|]. rewrite <- Rinv_1. apply Rinv_le_contravar; lra. }
    assert (Iy : 0 < e * e / (e * e + y + 1) <= 1). { split; [apply Rdiv_lt_0_compat; lra|]. apply Rmult_le_reg_r with (e * e + y + 1); [lra|]. unfold Rdiv. rewrite Rmult_assoc, Rinv_l by lra. lra. }
    assert (Heta : 0 < eta) by (apply Rmult_lt_0_compat; tauto).
    assert (E1 : x * eta <= 1).
    { unfold eta. rewrite <- Rmult_assoc. assert (Q : x * / (x + 1) <= 1) by (apply Rmult_le_reg_r with (x + 1); [lra|]; rewrite Rmult_assoc, Rinv_l by lra; lra).
      assert (Q0 : 0 <= x * / (x + 1)) by (apply Rmult_le_pos; lra). apply Rle_trans with (1 * 1); [|lra]. apply Rmult_le_compat; tauto || lra. }
    assert (E2 : y * eta <= e * e).
    { unfold eta. apply Rle_trans with (y * (e * e / (e * e + y + 1))).
      - apply Rmult_le_compat_l; [exact Hy|]. rewrite <- (Rmult_1_l (e * e / (e * e + y + 1))) at 2. apply Rmult_le_compat_r; lra.
      - apply Rmult_le_reg_r with (e * e + y + 1); [lra|]. unfold Rdiv. rewrite !Rmult_assoc, Rinv_l, Rmult_1_r by lra. nra. }
    split; [exact Heta|]. intros q Hq Hm. set (v := sampled_minsr n pinv Eloc G q). destruct (sampled_update space q Hq) as [Hv Vmin].
    assert (Fu : forall k, (k < n)%nat -> apply n X (apply n M u) k = u k) by (apply (least_fixed n M X P1 P4 M (rhs_of G Eloc (ensemble space P)) u); [auto|exact Hu|exact Hmin]).
    assert (Fv : forall k, (k < n)%nat -> apply n X (apply n M v) k = v k).
    { apply (least_fixed n M X P1 P4 (fisher_of G (ens_of q)) (rhs_of G Eloc (ens_of q)) v); [|exact Hv|exact Vmin]. apply (kernel n G space P q H1 Hpos Hq). }
    pose proof (perturbed n M X (fisher_of G (ens_of q)) (rhs_of G Eloc (ensemble space P)) (rhs_of G Eloc (ens_of q)) u v Hu Hv Fu Fv eta (Rlt_le _ _ Heta) E1 Hm) as B.
    fold x in B. apply Rsqr_incr_0_var; [|lra]. unfold Rsqr, distance. rewrite len_sq. change (rsumn n (fun k => Cnorm2 (minus v u k))) with (sq n (minus v u)). eapply Rle_trans; [exact B|].
    replace (x * eta * (sq n u + 1)) with (y * eta) by (unfold y; ring). exact E2.
  Qed.

  (** mean of the misfit *)
  Lemma E_rsumn (Q : dist sample) m f : E Q (fun q => rsumn m (f q)) = rsumn m (fun k => E Q (fun q => f q k)).
  Proof. unfold rsumn. apply E_rsum. Qed.
  Definition controlled (X : sample -> R) : Prop :=
    exists B us, 0 <= B /\ forall Q e, nonneg Q -> (forall q, outcome Q q -> good_sample space q) -> 0 <= e -> Forall (fun u => mse space P Q u <= e) us -> E Q X <= B * e.
  Lemma controlled_cov f g : controlled (fun q => Cnorm2 (cov (ens_of q) f g - cov (ensemble space P) f g)%C).
  Proof.
    destruct (cov_mse space P f g H1) as (B & HB & H). exists (4 + 4 * B). eexists [_; _; _; _]. split; [lra|]. intros Q e Hn Hg He F.
    inversion F as [|? ? F1 F']; subst. inversion F' as [|? ? F2 F'']; subst. inversion F'' as [|? ? F3 F3']; subst. inversion F3' as [|? ? F4 _]; subst.
    eapply Rle_trans; [exact (H Q Hn Hg)|]. eapply Rle_trans.
    - apply Rplus_le_compat; [apply Rmult_le_compat_l; [lra|]; apply Rplus_le_compat; [exact F1|exact F2]|apply Rmult_le_compat_l; [lra|]; apply Rplus_le_compat; [exact F3|exact F4]].
    - lra.
  Qed.
  Lemma controlled_ext X Y : (forall q, X q = Y q) -> controlled X -> controlled Y.
  Proof. intros H (B & us & HB & HC). exists B, us. split; [exact HB|]. intros Q e A1 A2 A3 A4. rewrite (E_ext Q Y X) by (intros; now rewrite H). auto. Qed.
  Lemma controlled_add X Y : controlled X -> controlled Y -> controlled (fun q => X q + Y q).
  Proof.
    intros (B & us & HB & HX) (D & vs & HD & HY). exists (B + D), (us ++ vs). split; [lra|]. intros Q e Hn Hg He F. apply Forall_app in F as [F1 F2]. rewrite E_add.
    specialize (HX Q e Hn Hg He F1). specialize (HY Q e Hn Hg He F2). lra.
  Qed.
  Lemma controlled_zero : controlled (fun _ => 0).
  Proof. exists 0, []. split; [lra|]. intros Q e _ _ _ _. rewrite E_const. lra. Qed.
  Lemma controlled_sum m X : (forall k, (k < m)%nat -> controlled (X k)) -> controlled (fun q => rsumn m (fun k => X k q)).
  Proof.
    induction m as [|m IH]; intros H; [exact controlled_zero|]. apply (controlled_ext (fun q => rsumn m (fun k => X k q) + X m q)); [intros q; now rewrite rsumn_S_|].
    apply controlled_add; [apply IH; intros; apply H; lia|apply H; lia].
  Qed.
  Lemma controlled_misfit : controlled misfit.
  Proof.
    unfold misfit. apply controlled_add.
    - unfold sq2, sq. apply controlled_sum. intros k _. apply controlled_sum. intros l _. apply controlled_cov.
    - unfold sq. apply controlled_sum. intros k _. unfold rhs_of. eapply controlled_ext; [|apply (controlled_cov (fun s => G s k) Eloc)]. intros q. cbv beta. rewrite <- Cnorm2_opp. f_equal. ring.
  Qed.
  (** Markov inequality *)
  Lemma far_below u e : sr_update n (ensemble space P) Eloc G u -> 0 < e ->
    exists B us, 0 <= B /\ forall Q d, nonneg Q -> (forall q, outcome Q q -> good_sample space q) -> 0 <= d -> Forall (fun u => mse space P Q u <= d) us ->
      prob_above Q (fun q => distance n (sampled_minsr n pinv Eloc G q) u) e <= B * d.
  Proof.
    intros Hu He. destruct (update_close u e Hu He) as (eta & Heta & HC). destruct controlled_misfit as (B & us & HB & HM). assert (Ie : 0 < / eta) by now apply Rinv_0_lt_compat.
    exists (B / eta), us. split; [unfold Rdiv; apply Rmult_le_pos; lra|]. intros Q d Hn Hg Hd F. specialize (HM Q d Hn Hg Hd F).
    apply Rle_trans with (E Q (fun q => / eta * misfit q)).
    - apply E_le; [exact Hn|]. intros q Hq. pose proof (misfit_ge q) as Mq. destruct (Rle_dec _ e) as [L|L]; [apply Rmult_le_pos; lra|].
      destruct (Rle_dec (misfit q) eta) as [L2|L2]; [exfalso; apply L; apply HC; auto|]. apply Rmult_le_reg_l with eta; [exact Heta|]. rewrite <- Rmult_assoc, Rinv_r by lra. lra.
    - rewrite E_scal. unfold Rdiv. replace (B * / eta * d) with (/ eta * (B * d)) by ring. apply Rmult_le_compat_l; lra.
  Qed.
End Updates.
