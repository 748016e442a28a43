From Coq Require Import String List Bool Lia.
From Verif Require Import Base Init_Model Init_Spec.
Import ListNotations.
Local Open Scope string_scope.
Local Open Scope list_scope.

Lemma lookup_In {A} k (d : list (string * A)) v : lookup k d = Some v -> In (k, v) d.
Proof.
  induction d as [|[k' v'] d IH]; cbn; [discriminate|].
  destruct (String.eqb_spec k k') as [<-|]; [intros E; injection E as <-; now left|]. intros H. right. now apply IH.
Qed.
Lemma lookup_unique {A} k (d : list (string * A)) v : NoDup (map fst d) -> In (k, v) d -> lookup k d = Some v.
Proof.
  induction d as [|[k' v'] d IH]; cbn; intros Hn Hi; [contradiction|].
  inversion Hn as [|? ? Hk Hn']; subst.
  destruct (String.eqb_spec k k') as [<-|Hne].
  - destruct Hi as [E|Hi]; [now injection E as <-|].
    exfalso. apply Hk. change k with (fst (k, v)). now apply in_map.
  - destruct Hi as [E|Hi]; [injection E as E _; congruence|]. now apply IH.
Qed.
Lemma lookup_None {A} k (d : list (string * A)) : lookup k d = None <-> ~ In k (map fst d).
Proof.
  induction d as [|[k' v'] d IH]; cbn; [tauto|].
  destruct (String.eqb_spec k k') as [<-|Hne]; [split; [discriminate|tauto]|]. rewrite IH. intuition congruence.
Qed.

Lemma names_fun_lookup s f : names_fun s f <-> lookup s activationFunctions = Some f.
Proof.
  split; [now destruct 1|]. intros H. apply lookup_In in H. cbn in H.
  repeat destruct H as [H|H]; try contradiction; injection H as <- <-; constructor.
Qed.
Lemma act_list_ok ss fs : Forall2 names_fun ss fs -> act_list ss = Ok fs.
Proof.
  induction 1 as [|s f ss fs H _ IH]; [reflexivity|]. cbn [act_list].
  apply names_fun_lookup in H. rewrite H, IH. reflexivity.
Qed.
Lemma get_act_ok v f : names_value v f -> get_activation_functions v = Ok f.
Proof.
  destruct 1 as [s f H|ss fs H]; cbn [get_activation_functions].
  - apply names_fun_lookup in H. now rewrite H.
  - now rewrite (act_list_ok _ _ H).
Qed.
(** what has been looked up once is not found a second time *)
Lemma act_twice v f : get_activation_functions v = Ok f -> get_activation_functions f = Err KeyError.
Proof.
  destruct v as [s|l|g|l|n]; cbn [get_activation_functions]; try discriminate.
  - destruct (lookup s activationFunctions); [|discriminate]. intros E. now injection E as <-.
  - destruct (act_list l); [|discriminate]. intros E. now injection E as <-.
Qed.

Lemma lookup_update {A} k v v0 (d : list (string * A)) : lookup k d = Some v0 -> lookup k (update k v d) = Some v.
Proof.
  induction d as [|[k' v'] d IH]; cbn; [discriminate|].
  destruct (String.eqb k k') eqn:E; cbn; rewrite E; [reflexivity|]. apply IH.
Qed.

(** with distinct keys, the assignment of line 50 gives the keyword arguments that are meant *)
Lemma meant_no_act given meant : ~ In "actFun" (map fst given) -> meant_params given meant -> meant = given.
Proof.
  intros Hn. induction 1 as [|[k v] [k' v'] given meant (E & _ & H2) _ IH]; [reflexivity|].
  cbn in *. subst k'. rewrite IH by tauto. rewrite (H2 ltac:(intros ->; apply Hn; now left)). reflexivity.
Qed.
Lemma meant_update given meant : NoDup (map fst given) -> meant_params given meant ->
  match lookup "actFun" given with
  | None => meant = given
  | Some v => exists f, names_value v f /\ meant = update "actFun" f given
  end.
Proof.
  intros Hn H. induction H as [|[k v] [k' v'] given meant (E & H1 & H2) HF IH]; [reflexivity|].
  cbn [fst snd] in *. subst k'. inversion Hn as [|? ? Hk Hn']; subst. cbn [lookup update].
  destruct (String.eqb_spec "actFun" k) as [<-|Hne].
  - exists v'. split; [now apply H1|]. rewrite (meant_no_act _ _ Hk HF). reflexivity.
  - specialize (IH Hn'). rewrite (H2 ltac:(congruence)). destruct (lookup "actFun" given) as [x|].
    + destruct IH as (f & Hf & ->). now exists f.
    + now rewrite IH.
Qed.

Lemma replace_ok n meant : NoDup (map fst (nd_params n)) -> meant_params (nd_params n) meant ->
  replace_actFun n = (mk_nd (nd_type n) meant, Ok tt).
Proof.
  intros Hn Hm. pose proof (meant_update _ _ Hn Hm) as H. unfold replace_actFun.
  destruct n as [t ps]. cbn [nd_params nd_type] in *.
  destruct (lookup "actFun" ps) as [v|].
  - destruct H as (f & Hf & ->). now rewrite (get_act_ok _ _ Hf).
  - now rewrite H.
Qed.

Lemma existsb_eqb s l : existsb (String.eqb s) l = true <-> In s l.
Proof.
  rewrite existsb_exists. split.
  - intros (x & Hx & E). apply String.eqb_eq in E. congruence.
  - intros H. exists s. now rewrite String.eqb_refl.
Qed.

Lemma get_symms_In d s : In s (get_symms d) <->
  In s ["translation"; "rotation"; "reflection"; "spinflip"] /\ In s (map fst (d_entries d)).
Proof.
  unfold get_symms. rewrite filter_In. apply and_iff_compat_l.
  pose proof (lookup_None s (d_entries d)) as [H1 H2].
  destruct (lookup s (d_entries d)) as [v|] eqn:E.
  - split; [|reflexivity]. intros _. apply lookup_In in E. change s with (fst (s, v)). now apply in_map.
  - split; [discriminate|]. intros H. exfalso. now apply H1.
Qed.

Definition the_orbit (d : descr) (dims : list nat) : orbit :=
  mk_orbit (length dims) (hd 0 dims) (get_symms d) (get_factors d (get_symms d)).

Lemma the_orbit_meant d dims : NoDup (map fst (d_entries d)) -> dims <> [] -> meant_orbit d dims (the_orbit d dims).
Proof.
  intros Hn Hd. unfold meant_orbit, the_orbit. cbn [o_dim o_L o_symms o_factors].
  split; [reflexivity|]. split; [now destruct dims|]. split; [apply get_symms_In|].
  split. { apply NoDup_filter. repeat constructor; cbn; intuition discriminate. }
  split. { intros s Hs v Hv. unfold get_factors. apply in_map_iff. exists s. split; [|assumption].
    now rewrite (lookup_unique _ _ _ Hn Hv). }
  split. { intros s Hs Hv. unfold get_factors. apply in_map_iff. exists s. split; [|assumption].
    now rewrite (proj2 (lookup_None _ _) Hv). }
  unfold get_factors. now rewrite map_map.
Qed.

Lemma get_orbit_ok d dims : (length dims = 1 \/ length dims = 2) ->
  (length dims = 1 -> ~ In "rotation" (map fst (d_entries d))) ->
  get_orbit dims (get_symms d) (get_factors d (get_symms d)) = Ok (the_orbit d dims).
Proof.
  intros HL Hr. unfold get_orbit, the_orbit. destruct dims as [|L [|L2 [|L3 dims]]]; cbn in HL; try (destruct HL; discriminate).
  - destruct (existsb _ _) eqn:E; [|reflexivity]. exfalso. apply (Hr eq_refl).
    apply existsb_exists in E as ([k v] & Hin & E). unfold get_factors in Hin.
    apply in_map_iff in Hin as (s & Es & Hs). apply get_symms_In in Hs as [Hs Hs'].
    cbn in E. apply String.eqb_eq in E. subst k. injection Es as Es _.
    cbn in Hs. repeat destruct Hs as [<-|Hs]; try discriminate; [assumption|contradiction].
  - reflexivity.
Qed.

Section P.
Variable construct : net -> result unit.
Variable evaluate : psi -> list nat -> result unit.
Notation init := (init_net construct evaluate).

Lemma first_call d n1 meant dims seed b :
  d_net1 d = Some n1 -> d_net2 d = None -> d_batch d = Some b ->
  NoDup (map fst (nd_params n1)) -> NoDup (map fst (d_entries d)) ->
  meant_params (nd_params n1) meant -> In (nd_type n1) netTypes ->
  (length dims = 1 \/ length dims = 2) -> (length dims = 1 -> ~ In "rotation" (map fst (d_entries d))) ->
  construct (mk_net (nd_type n1) meant) = Ok tt ->
  (forall p, evaluate p dims = Ok tt) ->
  exists p, snd (init d dims seed) = Ok p
    /\ p_net p = mk_net (nd_type n1) meant /\ meant_orbit d dims (p_orbit p)
    /\ (p_avg p = Avg_Sep <-> generates (nd_type n1)) /\ p_batch p = b /\ p_seed p = seed.
Proof.
  intros H1 H2 Hb Hn He Hm Ht HL Hr Hc Hev. unfold init_net. rewrite H1, (replace_ok _ _ Hn Hm).
  set (d1 := mk_descr _ _ _ _).
  rewrite (get_orbit_ok d1 dims HL Hr : get_orbit dims (get_symms d1) _ = _). cbn [deferred].
  change (d_net2 d1) with (d_net2 d). rewrite H2. cbn [snd].
  unfold get_net. cbn [nd_type nd_params]. rewrite (proj2 (existsb_eqb _ _) Ht), Hc. cbn [bind].
  unfold finish. cbn [bind]. change (d_batch d1) with (d_batch d). rewrite Hb, Hev. cbn [bind].
  eexists. split; [reflexivity|]. cbn [p_net p_orbit p_avg p_batch p_seed].
  split; [reflexivity|]. split. { apply (the_orbit_meant d1); [assumption|]. intros ->. cbn in HL. lia. }
  split; [|split; reflexivity].
  unfold has_sample. cbn [n_type]. unfold generates.
  destruct (existsb _ _) eqn:E.
  - apply existsb_eqb in E. cbn in E. split; [|reflexivity]. intros _. intuition congruence.
  - split; [discriminate|]. intros HH. exfalso. enough (existsb (String.eqb (nd_type n1)) ["RNN"; "RNN2D"] = true) by congruence.
    apply existsb_eqb. cbn. intuition congruence.
Qed.

Lemma unchanged d dims seed :
  (forall n, d_net1 d = Some n -> ~ In "actFun" (map fst (nd_params n))) ->
  (forall n, d_net2 d = Some n -> ~ In "actFun" (map fst (nd_params n))) ->
  fst (init d dims seed) = d.
Proof.
  intros H1 H2. destruct d as [n1 n2 es b]. cbn in *. unfold init_net. cbn [d_net1 d_net2 d_entries d_batch].
  destruct n1 as [n1|]; [|reflexivity].
  unfold replace_actFun at 1. rewrite (proj2 (lookup_None _ _) (H1 _ eq_refl)).
  destruct (deferred _); [|reflexivity]. destruct n2 as [n2|]; [|reflexivity].
  unfold replace_actFun. rewrite (proj2 (lookup_None _ _) (H2 _ eq_refl)). reflexivity.
Qed.

Lemma calls_same d calls :
  (forall dims seed, fst (init d dims seed) = d) ->
  init_calls construct evaluate d calls = (d, map (fun c => snd (init d (fst c) (snd c))) calls).
Proof.
  intros H. induction calls as [|[dims seed] calls IH]; [reflexivity|]. cbn.
  specialize (H dims seed). destruct (init d dims seed) as [d1 r]. cbn in *. subst d1. now rewrite IH.
Qed.

Lemma net1_after d n1 dims seed : d_net1 d = Some n1 -> d_net1 (fst (init d dims seed)) = Some (fst (replace_actFun n1)).
Proof.
  intros H1. unfold init_net. rewrite H1. destruct (replace_actFun n1) as [n1' [|e]]; [|reflexivity].
  destruct (deferred _) as [orb|e]; [|reflexivity]. cbn [d_net2].
  destruct (d_net2 d) as [n2|]; [|reflexivity]. destruct (replace_actFun n2); reflexivity.
Qed.
Lemma bad_act d n1 e dims seed : d_net1 d = Some n1 -> snd (replace_actFun n1) = Err e -> snd (init d dims seed) = Err e.
Proof.
  intros H1 He. unfold init_net. rewrite H1. destruct (replace_actFun n1) as [n1' r]. cbn in He. now subst r.
Qed.
(** after a call that has got past line 50 every further call raises KeyError *)
Lemma second_call d n1 v dims seed dims' seed' p :
  d_net1 d = Some n1 -> lookup "actFun" (nd_params n1) = Some v ->
  snd (init d dims seed) = Ok p ->
  snd (init (fst (init d dims seed)) dims' seed') = Err KeyError.
Proof.
  intros H1 Hv Hp. apply (bad_act _ _ _ _ _ (net1_after _ _ dims seed H1)).
  unfold replace_actFun at 2. rewrite Hv. destruct (get_activation_functions v) as [f|e] eqn:Ef; cbn [fst].
  - unfold replace_actFun. cbn [nd_params]. rewrite (lookup_update _ f v) by assumption. now rewrite (act_twice _ _ Ef).
  - rewrite (bad_act d n1 e dims seed H1) in Hp; [discriminate|]. unfold replace_actFun. now rewrite Hv, Ef.
Qed.

Lemma two_never d n2 dims seed p : d_net2 d = Some n2 -> snd (init d dims seed) <> Ok p.
Proof.
  intros H2. unfold init_net. destruct (d_net1 d) as [n1|]; [|discriminate].
  destruct (replace_actFun n1) as [n1' [|e]]; [|discriminate].
  destruct (deferred _); [|discriminate]. cbn [d_net2]. rewrite H2.
  destruct (replace_actFun n2) as [n2' r2]. cbn [snd].
  destruct r2; [|discriminate]. cbn [bind]. destruct (get_net construct n1'); [|discriminate].
  cbn [bind]. destruct (get_net construct n2'); discriminate.
Qed.

Lemma ring_rotation d dims seed p : length dims = 1 -> In "rotation" (map fst (d_entries d)) -> snd (init d dims seed) <> Ok p.
Proof.
  intros HL Hr. unfold init_net. destruct (d_net1 d) as [n1|]; [|discriminate].
  destruct (replace_actFun n1) as [n1' [|e]]; [|discriminate].
  set (d1 := mk_descr _ _ _ _).
  destruct dims as [|L [|? ?]]; try discriminate. unfold get_orbit.
  replace (existsb _ _) with true; [discriminate|]. symmetry. apply existsb_exists.
  exists ("rotation_factor", lookup "rotation_factor" (d_entries d1)). split; [|reflexivity].
  unfold get_factors. apply in_map_iff. exists "rotation". split; [reflexivity|]. apply get_symms_In. cbn. tauto.
Qed.

Lemma three_dims d dims seed p : 3 <= length dims -> snd (init d dims seed) <> Ok p.
Proof.
  intros HL. unfold init_net. destruct (d_net1 d) as [n1|]; [|discriminate].
  destruct (replace_actFun n1) as [n1' [|e]]; [|discriminate].
  destruct dims as [|L [|L2 [|L3 dims]]]; cbn in HL; try lia. cbn [get_orbit deferred].
  cbn [d_net2]. destruct (d_net2 d) as [n2|].
  - destruct (replace_actFun n2) as [n2' r2]. cbn [snd].
    destruct r2; [|discriminate]. cbn [bind]. destruct (get_net construct n1'); [|discriminate].
    cbn [bind]. destruct (get_net construct n2'); discriminate.
  - cbn [snd]. destruct (get_net construct n1'); discriminate.
Qed.
End P.
