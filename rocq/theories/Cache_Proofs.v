(** Lemmas about the life of a sampler. *)
From Coq Require Import ZArith List Reals Bool Arith Lia Lra.
From Verif Require Import Base Cplx BranchFree_Model Stats_Model Dist Sampler_Model Cache_Model Cache_Spec.
Import ListNotations.

Lemma find_app_one {A} (f : A -> bool) l x : find f (l ++ [x]) = match find f l with Some y => Some y | None => if f x then Some x else None end.
Proof. induction l as [|a l IH]; cbn [app find]; [reflexivity|]. destruct (f a); [reflexivity|exact IH]. Qed.
Lemma tkey_eqb_eq a b : tkey_eqb a b = true <-> a = b.
Proof.
  destruct a, b. unfold tkey_eqb. cbn. rewrite !andb_true_iff, !Nat.eqb_eq. split; [intros ((((((-> & ->) & ->) & ->) & ->) & ->) & ->); reflexivity|].
  intros [= -> -> -> -> -> -> ->]. repeat split.
Qed.
Lemma tkey_eqb_refl a : tkey_eqb a a = true. Proof. now apply tkey_eqb_eq. Qed.

Section Life.
Context {Par Arg : Type}.
Variables (logPsi : nat -> Par -> config -> C) (proposer : nat -> Arg -> config -> dist config) (shape : Par -> nat) (argShape : Arg -> nat).
Notation sample := (sample logPsi proposer shape argShape).
Notation history := (history logPsi proposer shape argShape).
Notation key_of := (key_of shape argShape).

(** what the first call with a number of samples, with a combination of settings had *)
Definition first_net (log : list (tkey * R * nat)) (n : nat) : option nat :=
  match find (fun e => k_n (fst (fst e)) =? n) log with Some e => Some (snd e) | None => None end.
Definition first_mu (log : list (tkey * R * nat)) (k : tkey) : option R :=
  match find (fun e => tkey_eqb (fst (fst e)) k) log with Some e => Some (snd (fst e)) | None => None end.

Definition or_else {A} (o : option A) (a : A) : A := match o with Some x => x | None => a end.
(** the object after a call *)
Definition after (s : sampler Arg) (key : tkey) (glob : Z) (c : carry) : sampler Arg :=
  mk_sampler (s_net s) (s_mu s) (s_lpf s) (s_numSamples s) (s_therm s) (s_sweep s) (s_prop s) (s_arg s) (s_numChains s) (c_states c) (Some glob)
    (match jit_net (k_n key) s with Some _ => s_jitd s | None => s_jitd s ++ [(k_n key, s_net s)] end)
    (match traced_mu key s with Some _ => s_traces s | None => s_traces s ++ [(key, s_mu s)] end).
Lemma sample_unfold ps P num k s :
  let Pu := params_used ps P s in let n := per_chain s num k in let key := key_of s Pu n in
  sample ps P num k s =
  (r <~ get_samples (fun x => Re (logPsi (or_else (jit_net n s) (s_net s)) Pu x)) (or_else (traced_mu key s) (s_mu s)) (proposer (s_prop s) (s_arg s))
          n (s_therm s) (s_sweep s) (mc_init (fun x => Re (logPsi (s_net s) Pu x)) (s_mu s) (s_states s));;
   ret (after s key (snd (counts s num k)) (fst r), (snd r, map (logPsi (s_net s) Pu) (snd r), map (current_weight logPsi s Pu (snd r)) (snd r)))).
Proof.
  intros Pu n key. unfold Cache_Model.sample. fold (params_used ps P s). fold Pu. unfold key, n, per_chain.
  destruct (counts s num k) as [n0 glob]. cbn [fst snd]. unfold after. cbn [k_n Cache_Model.key_of].
  assert (W : forall l, List.concat (List.concat (mcmc_weights (s_lpf s) (s_mu s) [[map (logPsi (s_net s) Pu) l]])) = map (current_weight logPsi s Pu l) l).
  { intros l. unfold mcmc_weights. cbn [map List.concat]. rewrite !map_map. cbn [app List.concat]. rewrite !app_nil_r. apply map_ext. intros x. reflexivity. }
  destruct (jit_net (Z.to_nat n0) s) as [q|]; destruct (traced_mu _ s) as [m|]; cbn [or_else];
    (unfold dbind; apply flat_map_ext; intros r; f_equal; unfold ret; rewrite W; reflexivity).
Qed.

Lemma history_inv w os log w' : history w os log w' -> s_jitd (fst w) = [] -> s_traces (fst w) = [] ->
  (forall n, jit_net n (fst w') = first_net log n) /\ (forall k, traced_mu k (fst w') = first_mu log k).
Proof.
  intros H J T. induction H as [w|w os log w1 o w2 H IH Ho St|w os log w1 P n k w2 H IH St].
  - unfold jit_net, traced_mu. rewrite J, T. split; reflexivity.
  - destruct (IH J T) as [I1 I2]. destruct w1 as [s1 p1], w2 as [s2 p2]. cbn [fst snd] in *. assert (E : s_jitd s2 = s_jitd s1 /\ s_traces s2 = s_traces s1).
    { destruct o; cbn in St; try (injection St as -> _; split; reflexivity). contradiction. }
    destruct E as [E1 E2]. split; [intros n; rewrite <- I1; unfold jit_net; now rewrite E1|intros k; rewrite <- I2; unfold traced_mu; now rewrite E2].
  - destruct (IH J T) as [I1 I2]. destruct w1 as [s p1], w2 as [s2 p2]. cbn [fst snd] in *. destruct St as (r & St & _). cbn [fst snd] in St. rewrite sample_unfold in St. apply outcome_bind in St as (x & _ & St). apply outcome_ret in St.
    injection St as -> _. set (key := key_of s (params_used p1 P s) (per_chain s n k)) in *.
    split.
    + intros m. specialize (I1 m). pose proof (proj1 (IH J T) (k_n key)) as I0. unfold jit_net at 1, first_net, after. cbn [s_jitd]. rewrite find_app_one. cbn [fst snd].
      unfold jit_net, first_net in I1, I0.
      unfold jit_net. destruct (find (fun e => fst e =? k_n key) (s_jitd s)) as [e0|] eqn:F0.
      * destruct (find (fun e => fst e =? m) (s_jitd s)) as [e|] eqn:F1; destruct (find (fun e => k_n (fst (fst e)) =? m) log) as [e'|] eqn:F2; try discriminate; [exact I1|].
        destruct (k_n key =? m) eqn:Em; [|reflexivity]. apply Nat.eqb_eq in Em. subst m. rewrite F0 in F1. discriminate.
      * rewrite find_app_one. cbn [fst snd]. destruct (find (fun e => fst e =? m) (s_jitd s)) as [e|] eqn:F1; destruct (find (fun e => k_n (fst (fst e)) =? m) log) as [e'|] eqn:F2; try discriminate; [exact I1|].
        destruct (k_n key =? m); reflexivity.
    + intros m. specialize (I2 m). pose proof (proj2 (IH J T) key) as I0. unfold traced_mu at 1, first_mu, after. cbn [s_traces]. rewrite find_app_one. cbn [fst snd].
      unfold traced_mu, first_mu in I2, I0.
      unfold traced_mu. destruct (find (fun e => tkey_eqb (fst e) key) (s_traces s)) as [e0|] eqn:F0.
      * destruct (find (fun e => tkey_eqb (fst e) m) (s_traces s)) as [e|] eqn:F1; destruct (find (fun e => tkey_eqb (fst (fst e)) m) log) as [e'|] eqn:F2; try discriminate; [exact I2|].
        destruct (tkey_eqb key m) eqn:Em; [|reflexivity]. apply tkey_eqb_eq in Em. subst m. rewrite F0 in F1. discriminate.
      * rewrite find_app_one. cbn [fst snd]. destruct (find (fun e => tkey_eqb (fst e) m) (s_traces s)) as [e|] eqn:F1; destruct (find (fun e => tkey_eqb (fst (fst e)) m) log) as [e'|] eqn:F2; try discriminate; [exact I2|].
        destruct (tkey_eqb key m); reflexivity.
Qed.
(** without assignments to mu and net all calls had the present ones *)
Definition keeps (o : op Par Arg) : Prop := match o with SetMu _ | SetNet _ => False | _ => True end.
Lemma history_keeps w os log w' : history w os log w' -> Forall keeps os ->
  s_mu (fst w') = s_mu (fst w) /\ s_net (fst w') = s_net (fst w) /\ Forall (fun e => snd (fst e) = s_mu (fst w) /\ snd e = s_net (fst w)) log.
Proof.
  intros H K. induction H as [w|w os log w1 o w2 H IH Ho St|w os log w1 P n k w2 H IH St].
  - repeat split. constructor.
  - apply Forall_app in K as [K1 K2]. inversion K2 as [|? ? Ko _]; subst. destruct (IH K1) as (I1 & I2 & I3).
    destruct o; cbn in St, Ko; try contradiction; subst w2; cbn [fst assign s_mu s_net set_number_of_samples]; repeat split; assumption.
  - apply Forall_app in K as [K1 _]. destruct (IH K1) as (I1 & I2 & I3). destruct w1 as [s p1], w2 as [s2 p2]. destruct St as (r & St & _). cbn [fst snd] in *. rewrite sample_unfold in St.
    apply outcome_bind in St as (x & _ & St). apply outcome_ret in St. injection St as -> _. unfold after. cbn [s_mu s_net].
    repeat split; [exact I1|exact I2|]. apply Forall_app. split; [exact I3|]. constructor; [cbn; split; assumption|constructor].
Qed.
End Life.

(** ** numbers of configurations *)
Section Lengths.
Variables (net : config -> R) (mu : R) (prop : config -> dist config).
Definition paired (n : nat) (c : carry) : Prop := length (c_states c) = n /\ length (c_logAcc c) = n.
Lemma mapD_length {A B} (f : A -> dist B) l r : outcome (mapD f l) r -> length r = length l.
Proof. intros H. apply outcome_mapD in H. induction H; cbn [length]; congruence. Qed.
Lemma update_length n c c' : paired n c -> outcome (perform_mc_update net mu prop c) c' -> paired n c'.
Proof.
  intros [H1 H2] H. unfold perform_mc_update in H. apply outcome_bind in H as (ns & Hn & H). apply outcome_bind in H as (ac & Ha & H). apply outcome_ret in H. subst c'.
  apply mapD_length in Hn. apply mapD_length in Ha. unfold map2 in Ha. rewrite map_length, combine_length, map_length in Ha.
  unfold paired. cbn [c_states c_logAcc]. unfold map2. rewrite !map_length, !combine_length, map_length. lia.
Qed.
Lemma sweep_length n k c c' : paired n c -> outcome (sweep net mu prop k c) c' -> paired n c'.
Proof.
  unfold sweep. revert c. induction k as [|k IH]; intros c P H; cbn [iterD] in H; [apply outcome_ret in H; now subst|].
  apply outcome_bind in H as (c1 & H1 & H). exact (IH c1 (update_length n c c1 P H1) H).
Qed.
Lemma collect_length n m steps c r : paired n c -> outcome (collect net mu prop m steps c) r -> length (concat (snd r)) = m * n.
Proof.
  revert c r. induction m as [|m IH]; intros c r P H; cbn [collect] in H; [apply outcome_ret in H; now subst|].
  apply outcome_bind in H as (c1 & H1 & H). apply outcome_bind in H as (r1 & H2 & H). apply outcome_ret in H. subst r. cbn [fst snd concat].
  pose proof (sweep_length n steps c c1 P H1) as P1. rewrite app_length, (IH c1 r1 P1 H2), (proj1 P1). reflexivity.
Qed.
Lemma get_samples_length n m therm steps c r : paired n c -> outcome (get_samples net mu prop m therm steps c) r -> length (snd r) = m * n.
Proof.
  intros P H. unfold get_samples in H. apply outcome_bind in H as (c1 & H1 & H). apply outcome_bind in H as (r1 & H2 & H). apply outcome_ret in H. subst r. cbn [snd].
  exact (collect_length n m steps c1 r1 (sweep_length n _ c c1 P H1) H2).
Qed.
End Lengths.
