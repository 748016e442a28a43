(** Mean square deviations of the TDVP equation. *)
From Coq Require Import ZArith List Reals Lia Lra Arith.
From Verif Require Import Base Cplx Mpi_Model Mpi_Spec Stats_Model Stats_Spec BranchFree_Model Tdvp_Model Dist Sampler_Model Sampler_Spec Sampler_Proofs
  Ergo_Model Ergo_Spec Ergo_Proofs Ergo2_Proofs Direct_Model Direct_Spec Conv_Model Conv_Spec Conv_Proofs Conv2_Proofs.
Import ListNotations.
Local Open Scope R_scope.

Lemma mean_square_le {A} (m : dist A) X Y x y r : nonneg m -> (forall a, outcome m a -> Cnorm2 (X a - x)%C <= r * Cnorm2 (Y a - y)%C) -> mean_square m X x <= r * mean_square m Y y.
Proof. intros Hn H. unfold mean_square. rewrite <- E_scal. apply E_le; [exact Hn|exact H]. Qed.
Lemma mean_square_ext {A} (m : dist A) X Y x : (forall a, outcome m a -> X a = Y a) -> mean_square m X x = mean_square m Y x.
Proof. intros H. unfold mean_square. apply E_ext. intros a Ha. now rewrite (H a Ha). Qed.

Section Deviations.
  Variables (space : list config) (P : config -> R) (c : settings) (Eloc : config -> C) (G : config -> nat -> C).
  Hypothesis HP : rsum (map P space) = 1.
  (** the mean square deviations are bounded by those of finitely many estimates *)
  Lemma deviations_bounded i j : exists B us, 0 <= B /\ forall o Q e, nonneg Q -> (forall q, outcome Q q -> good_sample space q) -> 0 <= e ->
    Forall (fun u => mse space P Q u <= e) us -> deviations_below c o Eloc G space P Q i j (B * e).
  Proof.
    destruct (cov_mse space P (fun s => G s i) (fun s => G s j) HP) as (B1 & P1 & H1).
    destruct (cov_mse space P (fun s => G s i) Eloc HP) as (B2 & P2 & H2).
    destruct (cov_mse space P Eloc Eloc HP) as (B3 & P3 & H3).
    match type of H1 with forall Q, _ -> _ -> _ <= 2 * (mse _ _ Q ?a + mse _ _ Q ?b) + 2 * B1 * (mse _ _ Q ?x + mse _ _ Q ?y) => set (u1 := a) in *; set (u2 := b) in *; set (u3 := x) in *; set (u4 := y) in * end.
    match type of H2 with forall Q, _ -> _ -> _ <= 2 * (mse _ _ Q ?a + mse _ _ Q ?b) + 2 * B2 * (mse _ _ Q ?x + mse _ _ Q ?y) => set (v1 := a) in *; set (v2 := b) in *; set (v3 := x) in *; set (v4 := y) in * end.
    match type of H3 with forall Q, _ -> _ -> _ <= 2 * (mse _ _ Q ?a + mse _ _ Q ?b) + 2 * B3 * (mse _ _ Q ?x + mse _ _ Q ?y) => set (w1 := a) in *; set (w2 := b) in *; set (w3 := x) in *; set (w4 := y) in * end.
    set (r1 := diagonal_factor (c_shift c) i j ^ 2). set (r2 := Cnorm2 (c_prefactor c)).
    assert (R1p : 0 <= r1) by apply pow2_ge_0. assert (R2p : 0 <= r2) by apply Cnorm2_ge.
    pose proof (Rmult_le_pos _ _ R1p P1) as RB1. pose proof (Rmult_le_pos _ _ R2p P2) as RB2.
    exists (r1 * (4 + 4 * B1) + r2 * (4 + 4 * B2) + (4 + 4 * B3) + 2), [u1; u2; u3; u4; v1; v2; v3; v4; w1; w2; w3; w4; (fun s => Re (Eloc s)); (fun s => Im (Eloc s))].
    split; [nra|]. intros o Q e Hn Hg He F. 
    repeat (apply Forall_cons_iff in F as [? F]). clear F.
    specialize (H1 Q Hn Hg). specialize (H2 Q Hn Hg). specialize (H3 Q Hn Hg).
    assert (K : forall B a b x y, 0 <= B -> a <= e -> b <= e -> x <= e -> y <= e -> 2 * (a + b) + 2 * B * (x + y) <= (4 + 4 * B) * e) by (intros; nra).
    assert (D1 := Rle_trans _ _ ((4 + 4 * B1) * e) H1 ltac:(apply K; assumption)).
    assert (D2 := Rle_trans _ _ ((4 + 4 * B2) * e) H2 ltac:(apply K; assumption)).
    assert (D3 := Rle_trans _ _ ((4 + 4 * B3) * e) H3 ltac:(apply K; assumption)).
    clear H1 H2 H3 K. 
    assert (Z1 : 0 <= r1 * ((4 + 4 * B1) * e)) by (apply Rmult_le_pos; [assumption|apply Rmult_le_pos; lra]).
    assert (Z2 : 0 <= r2 * ((4 + 4 * B2) * e)) by (apply Rmult_le_pos; [assumption|apply Rmult_le_pos; lra]).
    assert (Z3 : 0 <= (4 + 4 * B3) * e) by (apply Rmult_le_pos; lra).
    replace ((r1 * (4 + 4 * B1) + r2 * (4 + 4 * B2) + (4 + 4 * B3) + 2) * e) with (r1 * ((4 + 4 * B1) * e) + r2 * ((4 + 4 * B2) * e) + (4 + 4 * B3) * e + 2 * e) by ring.
    unfold deviations_below. split; [|split; [|split]].
    - apply Rle_trans with (r1 * ((4 + 4 * B1) * e)); [|lra]. eapply Rle_trans; [|apply Rmult_le_compat_l; [exact R1p|exact D1]]. apply mean_square_le; [exact Hn|]. intros q Hq. rewrite (S_sample c o Eloc G space q (Hg q Hq)). apply exact_S_dev.
    - apply Rle_trans with (r2 * ((4 + 4 * B2) * e)); [|lra]. eapply Rle_trans; [|apply Rmult_le_compat_l; [exact R2p|exact D2]]. apply mean_square_le; [exact Hn|]. intros q Hq. rewrite (F_sample c o Eloc G space q (Hg q Hq)). apply exact_F_dev.
    - rewrite (mean_square_ext _ _ (fun q => expect (ens_of q) Eloc)); [|intros q Hq; now apply (energy_sample c o Eloc G space q (Hg q Hq))]. rewrite mean_mse. lra.
    - rewrite (mean_square_ext _ _ (fun q => cov (ens_of q) Eloc Eloc)); [lra|]. intros q Hq; now apply (energy_sample c o Eloc G space q (Hg q Hq)).
  Qed.
End Deviations.
