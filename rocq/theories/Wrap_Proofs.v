(** Proofs for C73, C74. *)
From Coq Require Import ZArith List Reals Lra Lia Bool Arith.
From Verif Require Import Base Cplx Stats_Model BranchFree_Model Dist Sampler_Model Sampler_Spec Sampler_Proofs Sampler2_Proofs Sym_Model Wrap_Model Wrap_Spec.
Import ListNotations.

Lemma has_sample_spec : forall n, has_sample n = true <-> exists d, net_sample n = Ok d.
Proof.
  fix IH 1. intros [f [d|]|[|a nets]|o g i]; cbn [has_sample net_sample].
  - split; eauto.
  - split; [discriminate|]. intros (d & H). discriminate H.
  - split; [discriminate|]. intros (d & H). discriminate H.
  - apply IH.
  - apply IH.
Qed.

Lemma modulus_exp mu z : modulus_power mu z = exp (mu * Re z).
Proof.
  unfold modulus_power, Rpower. f_equal. f_equal.
  assert (E : Cnorm2 (Cexp z) = (exp (Re z) * exp (Re z))%R).
  { unfold Cnorm2, Cexp. cbn [Re Im fst snd]. pose proof (sin2_cos2 (snd z)) as H. unfold Rsqr in H.
    change (fst z) with (Re z). transitivity (exp (Re z) * exp (Re z) * (sin (snd z) * sin (snd z) + cos (snd z) * cos (snd z)))%R; [ring|]. rewrite H. ring. }
  rewrite E, sqrt_square by (left; apply exp_pos). apply ln_exp.
Qed.

Lemma real_phase (x : C) r : Re (Cadd x (Cmul Ci (RtoC r))) = Re x.
Proof. destruct x. cbn. ring. Qed.

(** the outermost network of a state made of networks [l] without orbit *)
Lemma init_inv arg orbit g v : nqs_init arg orbit g = Ok v -> v_isGenerator v = has_sample (v_net v)
  /\ exists n, (arg = One n \/ exists l, l <> [] /\ arg = Many l /\ n = TwoNets l) /\ v_net v = match orbit with Some o => SymNet o g n | None => n end.
Proof.
  unfold nqs_init. destruct arg as [n|[|a l]]; cbn [bind]; intros H; inversion H; subst; cbn [v_isGenerator v_net]; (split; [reflexivity|]).
  - exists n. auto.
  - exists (TwoNets (a :: l)). split; [|reflexivity]. right. exists (a :: l). repeat split. discriminate.
Qed.

(** a state with a real-valued phase network: the function used by the sampler is Re log psi *)
Lemma sampler_net_real v s z : nqs_call v s = Ok z ->
  (forall a b l, v_net v = TwoNets (a :: b :: l) -> exists x, net_eval b s = Ok (RtoC x)) -> sampler_net v s = Ok (Re z).
Proof.
  unfold nqs_call, sampler_net. destruct v as [n g]. cbn [v_net]. destruct n as [f d|nets|o avg i]; cbn [net_eval]; intros H HP.
  - inversion H. reflexivity.
  - destruct nets as [|a [|b l]]; try discriminate H. destruct (HP a b l eq_refl) as (x & Hx). destruct (net_eval a s) as [y|]; [|discriminate H].
    cbn [bind] in *. rewrite Hx in H. cbn [bind] in H. inversion H. now rewrite real_phase.
  - rewrite H. reflexivity.
Qed.

Lemma collect_ok {A B} (f : A -> result B) g l : (forall x, In x l -> f x = Ok (g x)) -> collect_results (map f l) = Ok (map g l).
Proof.
  induction l as [|x l IH]; intros H; [reflexivity|]. cbn [map collect_results]. rewrite (H x) by now left. cbn [bind]. rewrite IH by (intros; apply H; now right). reflexivity.
Qed.
