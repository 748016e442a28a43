(** Generated groups, characters, action on configurations, sums over groups. *)
From Coq Require Import ZArith List Reals Lra Lia Bool Arith Permutation.
From Verif Require Import Base Cplx Stats_Model BranchFree_Model Dist Sampler_Model Sampler_Spec Sampler2_Proofs Exact_Proofs Sym_Model Sym_Spec Sym_Proofs Sym2_Proofs Sym3_Proofs.
Import ListNotations.

(** ** action *)
Lemma sym_act_smat n sg f s : length s = n -> (sg = 1 \/ sg = -1)%Z -> (forall i, i < n -> f i < n) ->
  sym_act (smat n sg f) s = map (fun i => if (sg =? 1)%Z then nth (f i) s 0 else 1 - nth (f i) s 0) (seq 0 n).
Proof.
  intros Hs Hsg Hf. unfold sym_act, mat_vec. unfold smat. rewrite !map_map. apply map_ext_in. intros i Hi. apply in_seq in Hi.
  assert (E : map (fun x => (2 * Z.of_nat x - 1)%Z) s = map (fun j => (2 * Z.of_nat (nth j s O) - 1)%Z) (seq 0 n)).
  { rewrite <- (map_nth_seq s 0) at 1. rewrite map_map, Hs. reflexivity. }
  rewrite E, map2_map_l, map2_map_r, map2_same. rewrite (zsum_single n (f i) sg) by (apply Hf; lia).
  destruct Hsg as [-> | ->]; cbn [Z.eqb].
  - replace (1 * (2 * Z.of_nat (nth (f i) s O) - 1) + 1)%Z with (Z.of_nat (nth (f i) s O) * 2)%Z by ring. rewrite Z.div_mul by lia. apply Nat2Z.id.
  - replace (-1 * (2 * Z.of_nat (nth (f i) s O) - 1) + 1)%Z with ((1 - Z.of_nat (nth (f i) s O)) * 2)%Z by ring. rewrite Z.div_mul by lia. cbn [Pos.eqb]. lia.
Qed.
Lemma sym_act_length n A s : signed_permutation n A -> length s = n -> length (sym_act A s) = n.
Proof. intros H Hs. destruct (signed_smat n A H) as (sg & f & H1 & H2 & H3 & ->). rewrite (sym_act_smat n) by assumption. now rewrite map_length, seq_length. Qed.
Lemma sym_act_acts n A s : signed_permutation n A -> length s = n -> acts A s (sym_act A s).
Proof.
  intros H Hs. split; [now rewrite (sym_act_length n)|]. rewrite Hs. intros i j Hi Hj. destruct (signed_smat n A H) as (sg & f & H1 & H2 & H3 & ->).
  rewrite smat_entry, (sym_act_smat n), nth_map_seq by assumption. destruct (Nat.eqb_spec j (f i)) as [->|]; [|split; discriminate]. destruct H1 as [-> | ->]; cbn; split; try discriminate; reflexivity.
Qed.
Lemma acts_unique n A s t : signed_permutation n A -> length s = n -> acts A s t -> t = sym_act A s.
Proof.
  intros H Hs [HL HA]. apply nth_ext with 0 0; [rewrite (sym_act_length n); congruence|]. intros i Hi. rewrite HL, Hs in Hi. rewrite Hs in HA.
  destruct (signed_smat n A H) as (sg & f & H1 & H2 & H3 & ->). rewrite (sym_act_smat n), nth_map_seq by assumption. destruct (HA i (f i) Hi (H2 i Hi)) as [P Q]. rewrite smat_entry, Nat.eqb_refl in P, Q by auto.
  destruct H1 as [-> | ->]; cbn; auto.
Qed.

Lemma fits_smat n lDim sg f : 0 < n -> (forall i, i < n -> f i < n) -> fits lDim (smat n sg f) -> lDim = 2 \/ sg <> (-1)%Z.
Proof. intros Hn Hf [H|H]; [auto|]. right. intros ->. apply (H 0 (f 0)). rewrite smat_entry, Nat.eqb_refl by auto. reflexivity. Qed.
Lemma sym_act_range n lDim A s : signed_permutation n A -> fits lDim A -> In s (all_configs lDim n) -> In (sym_act A s) (all_configs lDim n).
Proof.
  intros H HF Hs. apply in_all_configs in Hs as [Hs HR]. apply in_all_configs. split; [now apply sym_act_length|].
  destruct n as [|m]; [destruct (sym_act A s) eqn:E; [constructor|]; pose proof (sym_act_length 0 A s H Hs); rewrite E in *; discriminate|].
  destruct (signed_smat _ A H) as (sg & f & H1 & H2 & H3 & ->). apply fits_smat in HF; [|lia|assumption]. rewrite (sym_act_smat (S m)) by assumption. apply Forall_map, Forall_forall. intros i Hi. apply in_seq in Hi.
  assert (X : nth (f i) s 0 < lDim). { rewrite Forall_forall in HR. apply HR, nth_In. rewrite Hs. apply H2. lia. }
  destruct H1 as [-> | ->]; cbn [Z.eqb Pos.eqb]; [assumption|]. destruct HF as [HF|HF]; [|congruence]. lia.
Qed.
Lemma sym_act_product n lDim A B D s : signed_permutation n A -> signed_permutation n B -> fits lDim A -> fits lDim B -> is_product n A B D -> In s (all_configs lDim n) -> sym_act A (sym_act B s) = sym_act D s.
Proof.
  intros HA HB FA FB HD Hs. pose proof Hs as Hs0. apply in_all_configs in Hs as [Hs HR].
  pose proof (sym_act_length n B s HB Hs) as LB.
  destruct n as [|m].
  - assert (LA : length (sym_act A (sym_act B s)) = 0) by now apply sym_act_length. destruct HD as [[LD _] _]. destruct D; [|discriminate]. destruct (sym_act A (sym_act B s)); [reflexivity|discriminate].
  - destruct (signed_smat _ A HA) as (sg & f & H1 & H2 & H3 & ->). destruct (signed_smat _ B HB) as (tu & g & G1 & G2 & G3 & ->).
    assert (D = smat (S m) (sg * tu) (fun i => g (f i))) as -> by (eapply is_product_unique; [exact HD|now apply smat_product]).
    apply fits_smat in FA; [|lia|assumption]. apply fits_smat in FB; [|lia|assumption].
    rewrite (sym_act_smat (S m) sg) by assumption. rewrite (sym_act_smat (S m) (sg * tu)); [|assumption|destruct H1 as [-> | ->], G1 as [-> | ->]; cbn; auto|intros; auto].
    rewrite (sym_act_smat (S m) tu) by assumption. apply map_ext_in. intros i Hi. apply in_seq in Hi. rewrite nth_map_seq by (apply H2; lia).
    assert (X : nth (g (f i)) s 0 < lDim). { rewrite Forall_forall in HR. apply HR, nth_In. rewrite Hs. apply G2, H2. lia. }
    destruct H1 as [-> | ->], G1 as [-> | ->]; cbn [Z.eqb Pos.eqb Z.mul Pos.mul]; try reflexivity. destruct FA as [FA|FA]; [|congruence]. lia.
Qed.
Lemma sym_act_id n lDim I s : identity n I -> In s (all_configs lDim n) -> sym_act I s = s.
Proof.
  intros [HS HI] Hs. apply in_all_configs in Hs as [Hs _].
  assert (I = smat n 1 (fun i => i)) as -> by (apply (square_ext n); [assumption|apply smat_square|]; intros i j Hi Hj; rewrite smat_entry by assumption; auto).
  rewrite (sym_act_smat n) by (auto; lia). cbn. rewrite <- Hs. apply map_nth_seq.
Qed.

(** ** sums over groups *)
Lemma product_mul n A B D : signed_permutation n A -> signed_permutation n B -> is_product n A B D -> D = mat_mul A B.
Proof.
  intros HA HB HD. destruct (signed_smat _ A HA) as (sg & f & H1 & H2 & H3 & ->). destruct (signed_smat _ B HB) as (tu & g & G1 & G2 & G3 & ->).
  rewrite smat_mul by assumption. eapply is_product_unique; [exact HD|now apply smat_product].
Qed.
Lemma mul_product n A B : signed_permutation n A -> signed_permutation n B -> is_product n A B (mat_mul A B).
Proof.
  intros HA HB. destruct (signed_smat _ A HA) as (sg & f & H1 & H2 & H3 & ->). destruct (signed_smat _ B HB) as (tu & g & G1 & G2 & G3 & ->). rewrite smat_mul by assumption. now apply smat_product.
Qed.
Lemma group_signed n G A : is_group n G -> In A G -> signed_permutation n A.
Proof. intros [H _] HA. rewrite Forall_forall in H. auto. Qed.
Lemma group_mul n G A B : is_group n G -> In A G -> In B G -> In (mat_mul A B) G.
Proof.
  intros HG HA HB. pose proof HG as (_ & _ & _ & HC & _). destruct (HC A B HA HB) as (D & HD & HP). now rewrite <- (product_mul n A B D) by (auto; now apply (group_signed n G)).
Qed.
Lemma mul_inj n A A' B : signed_permutation n A -> signed_permutation n A' -> signed_permutation n B -> mat_mul A B = mat_mul A' B -> A = A'.
Proof.
  intros HA HA' HB E. destruct n as [|m].
  - destruct HA as [[LA _] _], HA' as [[LA' _] _]. destruct A, A'; try discriminate. reflexivity.
  - destruct (signed_smat _ A HA) as (sg & f & H1 & H2 & H3 & ->). destruct (signed_smat _ B HB) as (tu & g & G1 & G2 & G3 & ->). destruct (signed_smat _ A' HA') as (sg' & f' & H1' & H2' & H3' & ->).
    rewrite !smat_mul in E by assumption. apply smat_inj in E; [|lia|destruct H1 as [-> | ->], G1 as [-> | ->]; discriminate|intros; auto]. destruct E as [Es Ef].
    assert (sg = sg') by (destruct H1 as [-> | ->], G1 as [-> | ->], H1' as [-> | ->]; try reflexivity; discriminate). subst sg'. apply smat_ext. intros i Hi. apply G3; auto.
Qed.
Lemma group_translate n G B : is_group n G -> In B G -> Permutation (map (fun A => mat_mul A B) G) G.
Proof.
  intros HG HB. pose proof HG as (_ & HN & _). apply NoDup_Permutation_bis.
  - apply NoDup_map_on; [|assumption]. intros x y Hx Hy E. apply (mul_inj n x y B); auto; now apply (group_signed n G).
  - now rewrite map_length.
  - intros A HA. apply in_map_iff in HA as (A' & <- & HA). now apply (group_mul n).
Qed.
Lemma group_rsum n G B (F : mat -> R) : is_group n G -> In B G -> rsum (map (fun A => F (mat_mul A B)) G) = rsum (map F G).
Proof. intros HG HB. rewrite <- (map_map (fun A => mat_mul A B) F). apply rsum_perm, Permutation_map. now apply (group_translate n). Qed.
Lemma group_csum n G B (F : mat -> C) : is_group n G -> In B G -> csum (map (fun A => F (mat_mul A B)) G) = csum (map F G).
Proof. intros HG HB. rewrite <- (map_map (fun A => mat_mul A B) F). apply csum_perm, Permutation_map. now apply (group_translate n). Qed.
(** each element has an inverse acting as such *)
Lemma group_inverse n lDim G A : is_group n G -> Forall (fits lDim) G -> In A G -> exists B, In B G /\ forall s, In s (all_configs lDim n) -> sym_act A (sym_act B s) = s /\ sym_act B (sym_act A s) = s.
Proof.
  intros HG HF HA. pose proof HG as (_ & _ & _ & _ & HI). destruct (HI A HA) as (B & I & HB & Id & P1' & P2'). exists B. split; [assumption|]. intros s Hs. rewrite Forall_forall in HF.
  split; (rewrite (sym_act_product n lDim _ _ I); [|now apply (group_signed n G)|now apply (group_signed n G)|now apply HF|now apply HF|assumption|assumption]); now apply (sym_act_id n lDim).
Qed.
