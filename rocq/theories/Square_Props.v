(** Property C66. *)
From Coq Require Import ZArith List Reals Lra Lia Bool Arith.
From Verif Require Import Base Cplx Stats_Model BranchFree_Model Dist Sampler_Model Sampler_Spec
  Sym_Model Sym_Spec Sym_Props Square_Spec Square_Proofs Square2_Proofs Square3_Proofs.
Import ListNotations.

(** ** C66: factors and order of the groups of square lattices *)
(** the returned factors are multiplicative and those of the generators are the requested ones exactly
    if the requested factors fit together *)
Theorem C66_character L translation reflection rotation spinflip fT fR fRot fS : 0 < L ->
  is_character (L * L) (get_orbit_2D_square L translation reflection rotation spinflip fT fR fRot fS)
  /\ requested L translation reflection rotation spinflip fT fR fRot fS (get_orbit_2D_square L translation reflection rotation spinflip fT fR fRot fS)
  <-> consistent_square L translation reflection rotation spinflip fT fR fRot fS.
Proof.
  intros HL. split.
  - intros [HX HQ]. now apply necessary.
  - intros HC. split; [now apply orbit_2D_character|now apply orbit_requested].
Qed.
Print Assumptions C66_character.
Theorem C66_count L translation reflection rotation spinflip fT fR fRot fS : 0 < L ->
  length (get_orbit_2D_square L translation reflection rotation spinflip fT fR fRot fS)
  = (if spinflip then 2 else 1) * square_order L translation reflection rotation.
Proof. apply orbit_2D_count. Qed.
Print Assumptions C66_count.
(** the symmetrised wave function transforms with the requested factors *)
Theorem C66_symnet L translation reflection rotation spinflip fT fR fRot fS net B b s t : 0 < L ->
  let orbit := get_orbit_2D_square L translation reflection rotation spinflip fT fR fRot fS in
  consistent_square L translation reflection rotation spinflip fT fR fRot fS ->
  In s (all_configs 2 (L * L)) -> In (B, b) orbit -> acts B s t ->
  csum (map (fun Ac => Cmul (snd Ac) (Cexp (net (sym_act (fst Ac) s)))) orbit) <> C0 ->
  Cmul b (Cexp (sym_net avgFun_Coefficients_Exp orbit net t)) = Cexp (sym_net avgFun_Coefficients_Exp orbit net s).
Proof.
  intros HL orbit HC Hs HB HA HN. apply (C44_exp (L * L) 2 orbit net B b s t); auto; [now apply C43_group|now apply C66_character|]. apply Forall_forall. intros. now left.
Qed.
Print Assumptions C66_symnet.
(** momentum pi in both directions, odd under reflections, quarter turns and spin flips *)
Example C66_example : consistent_square 4 true true true true (Copp C1) (Copp C1) (Copp C1) (Copp C1)
  /\ length (get_orbit_2D_square 4 true true true true (Copp C1) (Copp C1) (Copp C1) (Copp C1)) = 256.
Proof.
  split; [|now rewrite C66_count by lia]. unfold consistent_square, times, big. cbn [repeat fold_right]. repeat split; intros; try lia; try ring.
Qed.
(** factors that are possible for each symmetry alone are accepted together although they do not fit:
    a momentum of pi/2 together with quarter turns *)
Theorem C66_unchecked_refuted : exists L fT fRot, 0 < L /\ times L fT = C1 /\ times 4 fRot = C1 /\
  let orbit := get_orbit_2D_square L true false true false fT C1 fRot C1 in
  length orbit = square_order L true false true /\ ~ (is_character (L * L) orbit /\ requested L true false true false fT C1 fRot C1 orbit).
Proof.
  exists 4, Ci, C1. split; [lia|]. split; [unfold times, big; cbn [repeat fold_right]; apply C_eq; cbn; ring|]. split; [unfold times, big; cbn [repeat fold_right]; ring|]. intros orbit. split.
  - unfold orbit. rewrite C66_count by lia. reflexivity.
  - intros H. apply C66_character in H; [|lia]. destruct H as (_ & _ & _ & _ & H & _). specialize (H eq_refl (or_intror eq_refl)). unfold times, big in H. cbn [repeat fold_right] in H.
    apply (f_equal fst) in H. cbn in H. lra.
Qed.
Print Assumptions C66_unchecked_refuted.
