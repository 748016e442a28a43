(** Sequences of legal writes into a fresh group. *)
From Coq Require Import String Ascii ZArith List Reals Bool Lia Arith.
From Verif Require Import Base Mpi_Model Output_Model Output_Spec Output_Proofs.
Import ListNotations.
Local Open Scope list_scope.

Lemma simple_lit_times : simple "times". Proof. split; [discriminate|]. cbn. repeat split; discriminate. Qed.
Lemma simple_lit_obs : simple "observables". Proof. split; [discriminate|]. cbn. repeat split; discriminate. Qed.
Lemma simple_lit_net : simple "network_checkpoints". Proof. split; [discriminate|]. cbn. repeat split; discriminate. Qed.
Lemma simple_lit_check : simple "checkpoints". Proof. split; [discriminate|]. cbn. repeat split; discriminate. Qed.
Lemma parse_obs g : parse (g ++ "/observables")%string = parse g ++ ["observables"%string].
Proof. change "/observables"%string with ("/" ++ "observables")%string. rewrite parse_slash. reflexivity. Qed.
Lemma parse_net g : parse (g ++ "/network_checkpoints")%string = parse g ++ ["network_checkpoints"%string].
Proof. change "/network_checkpoints"%string with ("/" ++ "network_checkpoints")%string. rewrite parse_slash. reflexivity. Qed.
Lemma parse_meta g : parse (g ++ "/metadata")%string = parse g ++ ["metadata"%string].
Proof. change "/metadata"%string with ("/" ++ "metadata")%string. rewrite parse_slash. reflexivity. Qed.
Lemma parse_obs_key' g key : parse (g ++ "/observables/" ++ key)%string = (parse g ++ ["observables"%string]) ++ parse key.
Proof.
  change ("/observables/" ++ key)%string with ("/" ++ ("observables" ++ "/" ++ key))%string. rewrite !parse_slash.
  change (parse "observables") with ["observables"%string]. now rewrite app_assoc.
Qed.
Lemma parse_obs_key g key : simple key -> parse (g ++ "/observables/" ++ key)%string = (parse g ++ ["observables"%string]) ++ [key].
Proof. intros H. now rewrite parse_obs_key', (parse_simple key H). Qed.

Lemma snoc_neq {A} (p : list A) a : p ++ [a] <> p.
Proof. intros E. apply (f_equal (@length _)) in E. rewrite app_length in E. cbn in E. lia. Qed.

Section Obs.
  Variable G : path.
  Variable sh : string -> string -> list nat.
  Let O := G ++ ["observables"%string].
  Let T := O ++ ["times"%string].
  Let P key name := (O ++ [key]) ++ [name].

  Definition good (f : file) : Prop :=
    well_formed f /\ f G = Some Group /\ (f O = None \/ f O = Some Group) /\ shaped [] f T
    /\ forall key, key <> "times"%string -> (f (O ++ [key]) = None \/ f (O ++ [key]) = Some Group) /\ forall name, shaped (sh key name) f (P key name).

  Lemma lenO : length O = S (length G). Proof. unfold O. rewrite app_length. cbn. lia. Qed.
  Lemma lenK k : length (O ++ [k]) = S (S (length G)). Proof. rewrite app_length, lenO. cbn. lia. Qed.
  Lemma lenP k n : length (P k n) = S (S (S (length G))). Proof. unfold P. rewrite app_length, lenK. cbn. lia. Qed.
  Lemma neq_len (p q : path) : length p <> length q -> p <> q. Proof. congruence. Qed.
  Ltac lens := apply neq_len; unfold T; rewrite ?lenO, ?lenK, ?lenP; lia.
  Lemma neqT k : k <> "times"%string -> O ++ [k] <> T.
  Proof. unfold T. intros H E. apply app_inv_head in E. congruence. Qed.
  Lemma P_inj k n k' n' : P k n = P k' n' -> k = k' /\ n = n'.
  Proof. unfold P. intros E. apply app_inj_tail in E as [E ->]. apply app_inv_head in E. split; congruence. Qed.

  Lemma only_rows p f f' q : only p f f' -> q <> p -> rows f' q = rows f q.
  Proof. intros H N. unfold rows. now rewrite H. Qed.
  Lemma rows_group f p : f p = Some Group \/ f p = None -> rows f p = [].
  Proof. unfold rows. now intros [-> | ->]. Qed.
  (** rows change at one place only *)
  Definition adds (f f' : file) (p : path) (l : list (list nat -> R)) : Prop :=
    rows f' p = rows f p ++ l /\ forall q, q <> p -> rows f' q = rows f q.

  Definition here (key name : string) (c : obs_call) : list (list nat -> R) :=
    flat_map (fun kd => if String.eqb (fst kd) key then flat_map (fun nv => if String.eqb (fst nv) name then [entries_of (snd nv)] else []) (snd kd) else []) (snd c).

  Definition item_body (g : string) (key : string) (nv : string * value) : io unit :=
    exec _ <- ensure_group (g ++ "/observables") key; append_value (g ++ "/observables/" ++ key) (fst nv) (snd nv).

  Lemma item_ok s g key name e : parse g = G -> simple key -> key <> "times"%string -> simple name -> good (st_file s) -> st_file s O = Some Group ->
    exists f', item_body g key (name, Arr (sh key name) e) s = (set_file s f', Ok tt) /\ good f' /\ f' O = Some Group /\ adds (st_file s) f' (P key name) [e].
  Proof.
    intros HG HK HT HN (W & G1 & G2 & G3 & G4) HO. unfold item_body, bind_io.
    destruct (ensure_group_ok s (g ++ "/observables") key W HK) as (f1 & E1 & A1 & B1 & W1).
    { rewrite parse_obs, HG. exact HO. }
    { rewrite parse_obs, HG. apply G4, HT. }
    rewrite parse_obs, HG in A1, B1. fold O in A1, B1. rewrite E1. cbn [fst snd].
    assert (PK : parse (g ++ "/observables/" ++ key)%string = O ++ [key]) by (rewrite parse_obs_key by exact HK; rewrite HG; reflexivity).
    assert (S1 : forall k n, shaped (sh k n) (st_file s) (P k n) -> shaped (sh k n) f1 (P k n)).
    { intros k n. unfold shaped. rewrite (B1 (P k n)) by lens. auto. }
    destruct (append_value_ok (set_file s f1) (g ++ "/observables/" ++ key) name (sh key name) e W1 HN) as (f2 & E2 & A2 & B2 & W2).
    { rewrite PK. exact A1. }
    { rewrite PK. apply (S1 key name). now apply G4. }
    rewrite PK in A2, B2. cbn [st_file set_file] in A2, B2. fold (P key name) in A2, B2. rewrite E2. exists f2. split; [reflexivity|]. split; [|split].
    - split; [exact W2|]. split; [rewrite B2, B1; [exact G1| |]; apply neq_len; rewrite ?lenK, ?lenP; lia|].
      split; [rewrite B2, B1; [exact G2| |]; lens|]. split.
      + unfold shaped. rewrite B2 by lens. rewrite B1 by (apply not_eq_sym, neqT, HT). exact G3.
      + intros k Hk. split.
        * rewrite B2 by lens. destruct (path_eqb_spec (O ++ [k]) (O ++ [key])) as [E|N]; [rewrite E; now right|]. rewrite B1 by exact N. now apply G4.
        * intros n. destruct (path_eqb_spec (P k n) (P key name)) as [E|N].
          -- rewrite E. apply P_inj in E as [-> ->]. right. eauto.
          -- unfold shaped. rewrite B2 by exact N. apply S1. now apply G4.
    - rewrite B2, B1; [exact HO| |]; lens.
    - split.
      + unfold rows at 1. rewrite A2. cbn [d_rows]. f_equal. apply (only_rows (O ++ [key])); [exact B1|lens].
      + intros q Hq. rewrite (only_rows _ _ _ _ B2 Hq). destruct (path_eqb_spec q (O ++ [key])) as [->|N]; [|now apply (only_rows (O ++ [key]))].
        rewrite !rows_group; [reflexivity| |]; [|now left]. destruct (proj1 (G4 key HT)); [now right|now left].
  Qed.

  (** the values of one dictionary *)
  Lemma inner_ok g key d : parse g = G -> simple key -> key <> "times"%string ->
    (forall name v, In (name, v) d -> simple name /\ exists e, v = Arr (sh key name) e) -> forall s, good (st_file s) -> st_file s O = Some Group ->
    exists f', for_each d (item_body g key) s = (set_file s f', Ok tt) /\ good f' /\ f' O = Some Group
      /\ (forall name, rows f' (P key name) = rows (st_file s) (P key name) ++ flat_map (fun nv => if String.eqb (fst nv) name then [entries_of (snd nv)] else []) d)
      /\ forall q, (forall name, q <> P key name) -> rows f' q = rows (st_file s) q.
  Proof.
    intros HG HK HT. induction d as [|[n v] d IH]; intros HD s HF HO.
    - exists (st_file s). cbn [for_each flat_map]. split; [destruct s; reflexivity|]. split; [exact HF|]. split; [exact HO|]. split; [intros; now rewrite app_nil_r|reflexivity].
    - cbn [for_each]. unfold bind_io at 1. destruct (HD n v (or_introl eq_refl)) as [HN [e ->]].
      destruct (item_ok s g key n e HG HK HT HN HF HO) as (f1 & E1 & F1 & O1 & A1 & B1). rewrite E1.
      destruct (IH (fun n' v' H => HD n' v' (or_intror H)) (set_file s f1) F1 O1) as (f2 & E2 & F2 & O2 & A2 & B2). rewrite E2. cbn [st_file set_file] in A2, B2.
      exists f2. split; [reflexivity|]. split; [exact F2|]. split; [exact O2|]. split.
      + intros name. rewrite A2. cbn [flat_map fst snd entries_of]. destruct (String.eqb_spec n name) as [->|N].
        * rewrite A1, <- app_assoc. reflexivity.
        * rewrite B1 by (intros E; apply P_inj in E as [_ E]; congruence). reflexivity.
      + intros q Hq. rewrite B2 by exact Hq. apply B1, Hq.
  Qed.

  Definition call_ok (c : obs_call) := forall key d, In (key, d) (snd c) -> simple key /\ key <> "times"%string
     /\ forall name v, In (name, v) d -> simple name /\ exists e, v = Arr (sh key name) e.
  Lemma outer_ok g kw : parse g = G ->
    (forall key d, In (key, d) kw -> simple key /\ key <> "times"%string /\ forall name v, In (name, v) d -> simple name /\ exists e, v = Arr (sh key name) e) ->
    forall s, good (st_file s) -> st_file s O = Some Group ->
    exists f', for_each kw (fun ko => for_each (snd ko) (item_body g (fst ko))) s = (set_file s f', Ok tt) /\ good f' /\ f' O = Some Group
      /\ (forall key name, rows f' (P key name) = rows (st_file s) (P key name) ++ here key name (0%R, kw))
      /\ rows f' T = rows (st_file s) T.
  Proof.
    intros HG. induction kw as [|[k d] kw IH]; intros HD s HF HO.
    - exists (st_file s). cbn [for_each]. split; [destruct s; reflexivity|]. split; [exact HF|]. split; [exact HO|]. split; [intros; cbn; now rewrite app_nil_r|reflexivity].
    - cbn [for_each]. unfold bind_io at 1. cbn [fst snd]. destruct (HD k d (or_introl eq_refl)) as (HK & HT & HV).
      destruct (inner_ok g k d HG HK HT HV s HF HO) as (f1 & E1 & F1 & O1 & A1 & B1). rewrite E1.
      destruct (IH (fun n' v' H => HD n' v' (or_intror H)) (set_file s f1) F1 O1) as (f2 & E2 & F2 & O2 & A2 & B2). rewrite E2. cbn [st_file set_file] in A2, B2.
      exists f2. split; [reflexivity|]. split; [exact F2|]. split; [exact O2|]. split.
      + intros key name. rewrite A2. unfold here. cbn [flat_map fst snd]. destruct (String.eqb_spec k key) as [->|N].
        * rewrite A1, <- app_assoc. reflexivity.
        * rewrite B1; [reflexivity|]. intros n E. apply P_inj in E as [E _]. congruence.
      + rewrite B2. apply B1. intros n. lens.
  Qed.

  Lemma call_rows s c : parse (st_group s) = G -> call_ok c -> good (st_file s) ->
    exists f', write_observables 0 (fst c) (snd c) s = (set_file s f', Ok tt) /\ good f'
      /\ (forall key name, rows f' (P key name) = rows (st_file s) (P key name) ++ here key name c)
      /\ rows f' T = rows (st_file s) T ++ [fun _ => fst c].
  Proof.
    intros HG HC (W & G1 & G2 & G3 & G4). unfold write_observables, on_root. cbn [Nat.eqb]. unfold bind_io at 1.
    destruct (ensure_group_ok s (st_group s) "observables" W simple_lit_obs) as (f1 & E1 & A1 & B1 & W1); [now rewrite HG|rewrite HG; exact G2|].
    rewrite HG in A1, B1. fold O in A1, B1. rewrite E1. unfold bind_io at 1.
    destruct (append_value_ok (set_file s f1) (st_group s ++ "/observables") "times" [] (fun _ => fst c) W1 simple_lit_times) as (f2 & E2 & A2 & B2 & W2).
    { rewrite parse_obs, HG. exact A1. }
    { rewrite parse_obs, HG. fold O T. unfold shaped. cbn [st_file set_file]. rewrite B1 by lens. exact G3. }
    rewrite parse_obs, HG in A2, B2. fold O in A2, B2. fold T in A2, B2. cbn [st_file set_file] in A2, B2. unfold number. rewrite E2.
    assert (F2 : good f2).
    { split; [exact W2|]. split; [rewrite B2, B1; [exact G1| |]; apply neq_len; unfold T; rewrite ?lenO, ?lenK; lia|].
      split; [rewrite B2 by lens; now right|]. split; [right; eauto|]. intros k Hk. split.
      - rewrite B2 by (apply neqT, Hk). rewrite B1 by lens. now apply G4.
      - intros n. unfold shaped. rewrite B2, B1; [now apply G4| |]; lens. }
    assert (O2 : f2 O = Some Group) by (rewrite B2 by lens; exact A1).
    destruct (outer_ok (st_group s) (snd c) HG HC (set_file (set_file s f1) f2) F2 O2) as (f3 & E3 & F3 & _ & A3 & B3).
    unfold item_body in E3. rewrite E3. exists f3. split; [reflexivity|]. split; [exact F3|]. cbn [st_file set_file] in A3, B3. split.
    - intros key name. rewrite A3. unfold here. cbn [snd]. f_equal. etransitivity; [apply (only_rows _ _ _ _ B2); lens|apply (only_rows _ _ _ _ B1); lens].
    - rewrite B3. unfold rows at 1. rewrite A2. cbn [d_rows]. f_equal. apply (only_rows _ _ _ _ B1). lens.
  Qed.

  Lemma all_rows cs : Forall call_ok cs -> forall s, parse (st_group s) = G -> good (st_file s) ->
    exists f', write_all cs s = (set_file s f', Ok tt) /\ good f'
      /\ (forall key name, rows f' (P key name) = rows (st_file s) (P key name) ++ flat_map (here key name) cs)
      /\ rows f' T = rows (st_file s) T ++ map (fun c _ => fst c) cs.
  Proof.
    induction 1 as [|c cs HC _ IH]; intros s HG HF.
    - exists (st_file s). cbn [write_all flat_map map]. split; [destruct s; reflexivity|]. split; [exact HF|]. split; intros; now rewrite app_nil_r.
    - cbn [write_all]. destruct (call_rows s c HG HC HF) as (f1 & E1 & F1 & A1 & B1). rewrite E1.
      destruct (IH (set_file s f1) HG F1) as (f2 & E2 & F2 & A2 & B2). rewrite E2. cbn [st_file set_file] in A2, B2. exists f2. split; [reflexivity|]. split; [exact F2|]. split.
      + intros key name. rewrite A2, A1, <- app_assoc. reflexivity.
      + rewrite B2, B1, <- app_assoc. reflexivity.
  Qed.

  Lemma good_fresh f : well_formed f -> f G = Some Group -> f O = None -> good f.
  Proof.
    intros W H1 H2. split; [exact W|]. split; [exact H1|]. split; [now left|]. split; [left; now apply wf_none|]. intros k _. split; [left; now apply wf_none|].
    intros n. left. unfold P. rewrite <- app_assoc. now apply wf_none.
  Qed.
  Lemma good_rows f key name k r : good f -> key <> "times"%string -> nth_error (rows f (P key name)) k = Some r -> row_is f (P key name) k (sh key name) r.
  Proof.
    intros (_ & _ & _ & _ & H) HT E. destruct (proj2 (H key HT) name) as [Q|[l Q]]; unfold rows in E; rewrite Q in E; [destruct k; discriminate|].
    exists (mk_data (sh key name) (sh key name) l), r. split; [exact Q|]. split; [reflexivity|]. split; [exact E|reflexivity].
  Qed.
  Lemma good_times f k r : good f -> nth_error (rows f T) k = Some r -> row_is f T k [] r.
  Proof.
    intros (_ & _ & _ & H & _) E. destruct H as [Q|[l Q]]; unfold rows in E; rewrite Q in E; [destruct k; discriminate|].
    exists (mk_data [] [] l), r. split; [exact Q|]. split; [reflexivity|]. split; [exact E|reflexivity].
  Qed.
  Lemma rows_count f p : rows f p <> [] -> row_count f p (length (rows f p)).
  Proof. unfold rows, row_count. destruct (f p) as [[|d|]|]; try congruence. intros _. exists d. auto. Qed.

  (** no name twice: at most one value *)
  Lemma flat_map_absent {A} (d : list (string * A)) {B} (h : string * A -> list B) name : ~ In name (map fst d) ->
    flat_map (fun nv => if String.eqb (fst nv) name then h nv else []) d = [].
  Proof.
    induction d as [|[n v] d IH]; cbn; [reflexivity|]. intros H. destruct (String.eqb_spec n name) as [->|N]; [exfalso; apply H; now left|]. apply IH. tauto.
  Qed.
  Lemma flat_map_single {A} (d : list (string * A)) {B} (h : string * A -> list B) name v : NoDup (map fst d) -> In (name, v) d ->
    flat_map (fun nv => if String.eqb (fst nv) name then h nv else []) d = h (name, v).
  Proof.
    induction d as [|[n w] d IH]; cbn; [tauto|]. intros ND H. apply NoDup_cons_iff in ND as [N1 N2]. destruct H as [H|H].
    - injection H as -> ->. rewrite String.eqb_refl, (flat_map_absent d h name) by exact N1. apply app_nil_r.
    - destruct (String.eqb_spec n name) as [->|N]; [exfalso; apply N1; apply in_map_iff; exists (name, v); auto|]. now apply IH.
  Qed.
  Lemma here_contains c key name e : legal sh c -> contains c key name (Arr (sh key name) e) -> here key name c = [e].
  Proof.
    intros [ND HL] (d & H1 & H2). unfold here. rewrite (flat_map_single (snd c) _ key d ND H1). cbn [snd].
    destruct (HL key d H1) as (_ & _ & ND' & _). now rewrite (flat_map_single d _ name _ ND' H2).
  Qed.
  Lemma mentions_spec c key name : mentions key name c = true <-> exists v, contains c key name v.
  Proof.
    unfold mentions, contains. rewrite existsb_exists. split.
    - intros ([k d] & H1 & H2). apply andb_prop in H2 as [H2 H3]. cbn [fst snd] in *. apply String.eqb_eq in H2. subst k. apply existsb_exists in H3 as ([n v] & H3 & H4).
      cbn [fst] in H4. apply String.eqb_eq in H4. subst n. eauto.
    - intros (v & d & H1 & H2). exists (key, d). split; [exact H1|]. cbn [fst snd]. rewrite String.eqb_refl. cbn. apply existsb_exists. exists (name, v). cbn. now rewrite String.eqb_refl.
  Qed.
  Lemma here_length c key name : legal sh c -> length (here key name c) = if mentions key name c then 1 else 0.
  Proof.
    intros HL. destruct (mentions key name c) eqn:E.
    - apply mentions_spec in E as (v & d & H1 & H2). destruct (proj2 HL key d H1) as (_ & _ & _ & HV). destruct (HV name v H2) as [_ [e ->]].
      rewrite (here_contains c key name e HL); [reflexivity|]. exists d. auto.
    - assert (N : here key name c = []); [|now rewrite N]. unfold here. destruct (flat_map _ _) as [|x l] eqn:F; [reflexivity|]. exfalso.
      assert (I : In x (x :: l)) by now left. rewrite <- F in I. apply in_flat_map in I as ([k d] & H1 & H2). cbn [fst snd] in H2. destruct (String.eqb_spec k key) as [->|]; [|easy].
      apply in_flat_map in H2 as ([n v] & H2 & H3). cbn [fst snd] in H3. destruct (String.eqb_spec n name) as [->|]; [|easy].
      rewrite (proj2 (mentions_spec c key name)) in E; [discriminate|]. exists v, d. auto.
  Qed.
  Lemma here_nth cs key name k c e : Forall (legal sh) cs -> nth_error cs k = Some c -> contains c key name (Arr (sh key name) e) ->
    nth_error (flat_map (here key name) cs) (length (filter (mentions key name) (firstn k cs))) = Some e.
  Proof.
    revert k. induction cs as [|c0 cs IH]; intros k HL HN HC; [destruct k; discriminate|]. pose proof (Forall_inv HL) as L0. apply Forall_inv_tail in HL. destruct k as [|k].
    - cbn in HN. injection HN as ->. cbn [firstn filter length flat_map]. now rewrite (here_contains c key name e).
    - cbn [nth_error] in HN. cbn [firstn filter flat_map]. pose proof (here_length c0 key name L0) as LEN. specialize (IH k HL HN HC).
      destruct (mentions key name c0); cbn [length]; (rewrite nth_error_app2; [|lia]); rewrite LEN; [replace (S _ - 1) with (length (filter (mentions key name) (firstn k cs))) by lia|rewrite Nat.sub_0_r]; exact IH.
  Qed.
  Lemma flat_here_length cs key name : Forall (legal sh) cs -> length (flat_map (here key name) cs) = length (filter (mentions key name) cs).
  Proof.
    induction 1 as [|c cs HL _ IH]; [reflexivity|]. cbn [flat_map filter]. rewrite app_length, IH, here_length by exact HL. destruct (mentions key name c); reflexivity.
  Qed.
End Obs.

(** all writes into a fresh group *)
Lemma order_all sh cs s :
  well_formed (st_file s) -> st_file s (parse (st_group s)) = Some Group -> st_file s (parse (st_group s) ++ ["observables"%string]) = None ->
  Forall (legal sh) cs ->
  exists f', write_all cs s = (set_file s f', Ok tt)
    /\ (cs <> [] -> row_count f' (parse (st_group s) ++ ["observables"; "times"]%string) (length cs))
    /\ (forall k c, nth_error cs k = Some c -> row_is f' (parse (st_group s) ++ ["observables"; "times"]%string) k [] (fun _ => fst c))
    /\ (forall key name, (exists c, In c cs /\ mentions key name c = true) ->
          row_count f' (parse (st_group s) ++ ["observables"%string; key; name]) (length (filter (mentions key name) cs)))
    /\ (forall k c key name e, nth_error cs k = Some c -> contains c key name (Arr (sh key name) e) ->
          row_is f' (parse (st_group s) ++ ["observables"%string; key; name]) (length (filter (mentions key name) (firstn k cs))) (sh key name) e).
Proof.
  intros W H1 H2 HL. set (G := parse (st_group s)) in *. pose proof (good_fresh G sh _ W H1 H2) as HF.
  assert (HC : Forall (call_ok sh) cs). { eapply Forall_impl; [|exact HL]. intros c [_ H] key d I. destruct (H key d I) as (A & B & _ & D). auto. }
  destruct (all_rows G sh cs HC s eq_refl HF) as (f' & E & F & A & B). exists f'. split; [exact E|].
  assert (PT : G ++ ["observables"; "times"]%string = (G ++ ["observables"%string]) ++ ["times"%string]) by (rewrite <- app_assoc; reflexivity).
  assert (PP : forall key name, G ++ ["observables"%string; key; name] = ((G ++ ["observables"%string]) ++ [key]) ++ [name]) by (intros; rewrite <- !app_assoc; reflexivity).
  assert (T0 : rows (st_file s) ((G ++ ["observables"%string]) ++ ["times"%string]) = []) by (apply rows_group; right; now apply wf_none).
  assert (P0 : forall key name, rows (st_file s) (((G ++ ["observables"%string]) ++ [key]) ++ [name]) = []) by (intros; apply rows_group; right; rewrite <- app_assoc; now apply wf_none).
  rewrite T0 in B. cbn [app] in B. split; [|split; [|split]].
  - intros NE. rewrite PT. replace (length cs) with (length (rows f' ((G ++ ["observables"%string]) ++ ["times"%string]))) by (rewrite B; apply map_length). apply rows_count. rewrite B. destruct cs; [congruence|discriminate].
  - intros k c Hk. rewrite PT. apply (good_times G sh f' k _ F). rewrite B. exact (map_nth_error (fun (c : obs_call) (_ : list nat) => fst c) k cs Hk).
  - intros key name (c & I & M). rewrite PP. rewrite <- (flat_here_length G sh cs key name HL). pose proof (A key name) as A'. rewrite P0 in A'. cbn [app] in A'. rewrite <- A'. apply rows_count. rewrite A'.
    intros N. apply (f_equal (@length _)) in N. rewrite (flat_here_length G sh cs key name HL) in N. cbn in N. apply length_zero_iff_nil in N.
    assert (I' : In c (filter (mentions key name) cs)) by (apply filter_In; auto). rewrite N in I'. exact I'.
  - intros k c key name e Hk Hc. rewrite PP. apply (good_rows G sh); [exact F| |].
    + destruct Hc as (d & I & _). pose proof (proj1 (Forall_forall _ _) HL c (nth_error_In _ _ Hk)) as [_ L]. now destruct (L key d I) as (_ & X & _).
    + rewrite A, P0. cbn [app]. eapply here_nth; eassumption.
Qed.

(** checkpoints *)
Definition weights_of (c : R * list R) : list nat -> R := fun idx => nth (hd 0 idx) (snd c) 0%R.
Lemma checkpoints_rows n cs : Forall (fun c => length (snd c) = n) cs -> forall s lt lw, well_formed (st_file s) -> st_file s (parse (st_group s)) = Some Group ->
  let N := parse (st_group s) ++ ["network_checkpoints"%string] in
  (st_file s N = None \/ st_file s N = Some Group) ->
  shaped [] (st_file s) (N ++ ["times"%string]) -> shaped [n] (st_file s) (N ++ ["checkpoints"%string]) ->
  rows (st_file s) (N ++ ["times"%string]) = lt -> rows (st_file s) (N ++ ["checkpoints"%string]) = lw ->
  cs <> [] ->
  exists f', write_checkpoints cs s = (set_file s f', Ok tt)
    /\ f' (N ++ ["times"%string]) = Some (Data (mk_data [] [] (lt ++ map (fun c _ => fst c) cs)))
    /\ f' (N ++ ["checkpoints"%string]) = Some (Data (mk_data [n] [n] (lw ++ map weights_of cs))).
Proof.
  induction cs as [|c cs IH]; [congruence|]. intros HL s lt lw W H1 N H2 HT HW RT RW _. pose proof (Forall_inv HL) as L0. apply Forall_inv_tail in HL.
  assert (DN : forall x, N ++ [x] <> N) by (intros; apply snoc_neq). assert (TC : N ++ ["times"%string] <> N ++ ["checkpoints"%string]) by (intros E; apply app_inv_head in E; discriminate).
  assert (NG : forall r, N ++ r <> parse (st_group s)). { intros r E. apply (f_equal (@length _)) in E. unfold N in E. rewrite !app_length in E. cbn in E. lia. }
  assert (NG0 : N <> parse (st_group s)) by (pose proof (NG []) as X; now rewrite app_nil_r in X).
  cbn [write_checkpoints]. unfold write_network_checkpoint, on_root. cbn [Nat.eqb]. unfold bind_io at 1.
  destruct (ensure_group_ok s (st_group s) "network_checkpoints" W simple_lit_net H1 H2) as (f1 & E1 & A1 & B1 & W1). fold N in A1, B1. rewrite E1. unfold bind_io at 1.
  destruct (append_value_ok (set_file s f1) (st_group s ++ "/network_checkpoints") "times" [] (fun _ => fst c) W1 simple_lit_times) as (f2 & E2 & A2 & B2 & W2).
  { rewrite parse_net. exact A1. }
  { rewrite parse_net. fold N. unfold shaped. cbn [st_file set_file]. rewrite B1 by apply DN. exact HT. }
  rewrite parse_net in A2, B2. fold N in A2, B2. cbn [st_file set_file] in A2, B2. unfold number. rewrite E2.
  destruct (append_value_ok (set_file (set_file s f1) f2) (st_group s ++ "/network_checkpoints") "checkpoints" [n] (weights_of c) W2 simple_lit_check) as (f3 & E3 & A3 & B3 & W3).
  { rewrite parse_net. fold N. cbn [st_file set_file]. rewrite B2 by (apply not_eq_sym, DN). exact A1. }
  { rewrite parse_net. fold N. unfold shaped. cbn [st_file set_file]. rewrite B2 by (apply not_eq_sym, TC). rewrite B1 by apply DN. exact HW. }
  rewrite parse_net in A3, B3. fold N in A3, B3. cbn [st_file set_file] in A3, B3. rewrite L0. unfold weights_of in E3 at 1. rewrite E3.
  assert (R2 : rows f1 (N ++ ["times"%string]) = lt) by (rewrite <- RT; unfold rows; now rewrite B1 by apply DN).
  assert (R3 : rows f2 (N ++ ["checkpoints"%string]) = lw) by (rewrite <- RW; unfold rows; now rewrite B2, B1 by first [apply DN|apply not_eq_sym, TC]).
  rewrite R2 in A2. rewrite R3 in A3. assert (T3 : f3 (N ++ ["times"%string]) = Some (Data (mk_data [] [] (lt ++ [fun _ => fst c])))) by (rewrite B3 by exact TC; exact A2).
  destruct cs as [|c' cs].
  - exists f3. cbn [write_checkpoints map]. split; [reflexivity|]. split; [exact T3|exact A3].
  - destruct (IH HL (set_file s f3) (lt ++ [fun _ => fst c]) (lw ++ [weights_of c]) W3) as (f' & E & A & B).
    + cbn [st_file st_group set_file]. rewrite B3, B2, B1 by (apply not_eq_sym; first [exact NG0|apply NG]). exact H1.
    + cbn [st_file st_group set_file]. fold N. right. rewrite B3, B2 by (apply not_eq_sym, DN). exact A1.
    + cbn [st_file st_group set_file]. fold N. right. eauto.
    + cbn [st_file st_group set_file]. fold N. right. eauto.
    + cbn [st_file st_group set_file]. fold N. unfold rows. now rewrite T3.
    + cbn [st_file st_group set_file]. fold N. unfold rows. now rewrite A3.
    + discriminate.
    + cbn [st_file st_group set_file] in A, B. fold N in A, B. exists f'. unfold set_file in E |- *. cbn [st_group st_append] in E |- *. rewrite E. split; [reflexivity|].
      rewrite <- app_assoc in A, B. split; [exact A|exact B].
Qed.
