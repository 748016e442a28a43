(** Sequences of metadata in a fresh group. *)
From Coq Require Import String Ascii ZArith List Reals Bool Lia Arith.
From Verif Require Import Base Mpi_Model Output_Model Output_Spec Output_Proofs Output2_Proofs.
Import ListNotations.
Local Open Scope list_scope.

Lemma simple_lit_meta : simple "metadata". Proof. split; [discriminate|]. cbn. repeat split; discriminate. Qed.
Section Meta.
  Variable G : path.
  Variable sh : string -> list nat.
  Let M := G ++ ["metadata"%string].
  Let T := M ++ ["times"%string].
  Definition good_m (f : file) : Prop :=
    well_formed f /\ f G = Some Group /\ (f M = None \/ f M = Some Group) /\ shaped [] f T
    /\ forall name, name <> "times"%string -> shaped (sh name) f (M ++ [name]).
  Definition here_m (name : string) (c : R * list (string * value)) : list (list nat -> R) :=
    flat_map (fun nv => if String.eqb (fst nv) name then [entries_of (snd nv)] else []) (snd c).
  Lemma neqM (a b : string) : a <> b -> M ++ [a] <> M ++ [b].
  Proof. intros H E. apply app_inv_head in E. congruence. Qed.
  Lemma M_G : M <> G. Proof. apply snoc_neq. Qed.
  Lemma Mx_G x : M ++ [x] <> G.
  Proof. intros E. apply (f_equal (@length _)) in E. unfold M in E. rewrite !app_length in E. cbn in E. lia. Qed.

  Lemma m_items g kw : parse g = G ->
    (forall name v, In (name, v) kw -> simple name /\ name <> "times"%string /\ exists e, v = Arr (sh name) e) ->
    forall s, good_m (st_file s) -> st_file s M = Some Group ->
    exists f', for_each kw (fun nv => append_value (g ++ "/metadata") (fst nv) (snd nv)) s = (set_file s f', Ok tt) /\ good_m f' /\ f' M = Some Group
      /\ (forall name, name <> "times"%string -> rows f' (M ++ [name]) = rows (st_file s) (M ++ [name]) ++ here_m name (0%R, kw)) /\ rows f' T = rows (st_file s) T.
  Proof.
    intros HG. induction kw as [|[n v] kw IH]; intros HD s HF HM.
    - exists (st_file s). cbn [for_each]. split; [destruct s; reflexivity|]. split; [exact HF|]. split; [exact HM|]. split; [intros; cbn; now rewrite app_nil_r|reflexivity].
    - cbn [for_each]. unfold bind_io at 1. cbn [fst snd]. destruct (HD n v (or_introl eq_refl)) as (HN & HT & e & ->). pose proof HF as (W & G1 & G2 & G3 & G4).
      destruct (append_value_ok s (g ++ "/metadata") n (sh n) e W HN) as (f1 & E1 & A1 & B1 & W1).
      { rewrite parse_meta, HG. exact HM. }
      { rewrite parse_meta, HG. now apply G4. }
      rewrite parse_meta, HG in A1, B1. fold M in A1, B1. rewrite E1.
      assert (M1 : f1 M = Some Group) by (rewrite B1 by (apply not_eq_sym, snoc_neq); exact HM).
      assert (F1 : good_m f1).
      { split; [exact W1|]. split; [rewrite B1 by (apply not_eq_sym, Mx_G); exact G1|]. split; [now right|]. split; [unfold shaped, T; rewrite B1 by (apply neqM; congruence); exact G3|].
        intros name Hn. destruct (string_dec name n) as [->|N]; [right; eauto|]. unfold shaped. rewrite B1 by now apply neqM. now apply G4. }
      destruct (IH (fun n' v' H => HD n' v' (or_intror H)) (set_file s f1) F1 M1) as (f2 & E2 & F2 & M2 & A2 & B2). rewrite E2. cbn [st_file set_file] in A2, B2.
      exists f2. split; [reflexivity|]. split; [exact F2|]. split; [exact M2|]. split.
      + intros name Hn. rewrite A2 by exact Hn. unfold here_m. cbn [snd flat_map fst entries_of]. destruct (String.eqb_spec n name) as [->|N].
        * unfold rows at 1. rewrite A1. cbn [d_rows]. rewrite <- app_assoc. reflexivity.
        * unfold rows at 1. rewrite B1 by (apply neqM; congruence). reflexivity.
      + rewrite B2. unfold rows, T. rewrite B1 by (apply neqM; congruence). reflexivity.
  Qed.
  Definition ok_m (c : R * list (string * value)) := forall name v, In (name, v) (snd c) -> simple name /\ name <> "times"%string /\ exists e, v = Arr (sh name) e.
  Lemma m_call s c : parse (st_group s) = G -> ok_m c -> good_m (st_file s) ->
    exists f', write_metadata 0 (fst c) (snd c) s = (set_file s f', Ok tt) /\ good_m f'
      /\ (forall name, name <> "times"%string -> rows f' (M ++ [name]) = rows (st_file s) (M ++ [name]) ++ here_m name c)
      /\ rows f' T = rows (st_file s) T ++ [fun _ => fst c].
  Proof.
    intros HG HC (W & G1 & G2 & G3 & G4). unfold write_metadata, on_root. cbn [Nat.eqb]. unfold bind_io at 1.
    destruct (ensure_group_ok s (st_group s) "metadata" W simple_lit_meta) as (f1 & E1 & A1 & B1 & W1); [now rewrite HG|rewrite HG; exact G2|].
    rewrite HG in A1, B1. fold M in A1, B1. rewrite E1. unfold bind_io at 1.
    destruct (append_value_ok (set_file s f1) (st_group s ++ "/metadata") "times" [] (fun _ => fst c) W1 simple_lit_times) as (f2 & E2 & A2 & B2 & W2).
    { rewrite parse_meta, HG. exact A1. }
    { rewrite parse_meta, HG. fold M. unfold shaped. cbn [st_file set_file]. rewrite B1 by apply snoc_neq. exact G3. }
    rewrite parse_meta, HG in A2, B2. fold M in A2, B2. fold T in A2, B2. cbn [st_file set_file] in A2, B2. unfold number. rewrite E2.
    assert (M2 : f2 M = Some Group) by (rewrite B2 by (apply not_eq_sym, snoc_neq); exact A1).
    assert (F2 : good_m f2).
    { split; [exact W2|]. split; [rewrite B2 by (apply not_eq_sym, Mx_G); rewrite B1 by (apply not_eq_sym, M_G); exact G1|]. split; [now right|]. split; [right; eauto|].
      intros name Hn. unfold shaped. rewrite B2 by now apply neqM. rewrite B1 by apply snoc_neq. now apply G4. }
    destruct (m_items (st_group s) (snd c) HG HC (set_file (set_file s f1) f2) F2 M2) as (f3 & E3 & F3 & _ & A3 & B3). rewrite E3. cbn [st_file set_file] in A3, B3.
    exists f3. split; [reflexivity|]. split; [exact F3|]. split.
    - intros name Hn. rewrite A3 by exact Hn. unfold here_m. cbn [snd]. f_equal. unfold rows. rewrite B2 by now apply neqM. now rewrite B1 by apply snoc_neq.
    - rewrite B3. unfold rows at 1. rewrite A2. cbn [d_rows]. f_equal. unfold rows, T. now rewrite B1 by apply snoc_neq.
  Qed.
  Lemma m_all cs : Forall ok_m cs -> forall s, parse (st_group s) = G -> good_m (st_file s) ->
    exists f', write_all_metadata cs s = (set_file s f', Ok tt) /\ good_m f'
      /\ (forall name, name <> "times"%string -> rows f' (M ++ [name]) = rows (st_file s) (M ++ [name]) ++ flat_map (here_m name) cs)
      /\ rows f' T = rows (st_file s) T ++ map (fun c _ => fst c) cs.
  Proof.
    induction 1 as [|c cs HC _ IH]; intros s HG HF.
    - exists (st_file s). cbn [write_all_metadata flat_map map]. split; [destruct s; reflexivity|]. split; [exact HF|]. split; intros; now rewrite app_nil_r.
    - cbn [write_all_metadata]. destruct (m_call s c HG HC HF) as (f1 & E1 & F1 & A1 & B1). rewrite E1.
      destruct (IH (set_file s f1) HG F1) as (f2 & E2 & F2 & A2 & B2). rewrite E2. cbn [st_file set_file] in A2, B2. exists f2. split; [reflexivity|]. split; [exact F2|]. split.
      + intros name Hn. rewrite A2, A1 by exact Hn. rewrite <- app_assoc. reflexivity.
      + rewrite B2, B1, <- app_assoc. reflexivity.
  Qed.
End Meta.

Lemma metadata_all sh cs s :
  well_formed (st_file s) -> st_file s (parse (st_group s)) = Some Group -> st_file s (parse (st_group s) ++ ["metadata"%string]) = None ->
  Forall (legal_metadata sh) cs ->
  exists f', write_all_metadata cs s = (set_file s f', Ok tt)
    /\ (forall k c, nth_error cs k = Some c -> row_is f' (parse (st_group s) ++ ["metadata"; "times"]%string) k [] (fun _ => fst c))
    /\ forall name, (forall c, In c cs -> exists v, In (name, v) (snd c)) -> forall k c e, nth_error cs k = Some c -> In (name, Arr (sh name) e) (snd c) ->
         row_is f' (parse (st_group s) ++ ["metadata"%string; name]) k (sh name) e.
Proof.
  intros W H1 H2 HL. set (G := parse (st_group s)) in *.
  assert (HF : good_m G sh (st_file s)). { split; [exact W|]. split; [exact H1|]. split; [now left|]. split; [left; now apply wf_none|]. intros n _. left. now apply wf_none. }
  assert (HC : Forall (ok_m sh) cs). { eapply Forall_impl; [|exact HL]. intros c [_ H] name v I. exact (H name v I). }
  destruct (m_all G sh cs HC s eq_refl HF) as (f' & E & (_ & _ & _ & F1 & F2) & A & B). exists f'. split; [exact E|].
  assert (PT : forall x, G ++ ["metadata"%string; x] = (G ++ ["metadata"%string]) ++ [x]) by (intros; rewrite <- app_assoc; reflexivity).
  assert (R0 : forall x, rows (st_file s) ((G ++ ["metadata"%string]) ++ [x]) = []) by (intros; apply rows_group; right; now apply wf_none).
  assert (ROW : forall p shp k e, shaped shp f' p -> nth_error (rows f' p) k = Some e -> row_is f' p k shp e).
  { intros p shp k e HS HN. destruct HS as [Q|[l Q]]; unfold rows in HN; rewrite Q in HN; [destruct k; discriminate|]. exists (mk_data shp shp l), e. split; [exact Q|]. split; [reflexivity|]. split; [exact HN|reflexivity]. }
  split.
  - intros k c Hk. rewrite PT. apply ROW; [exact F1|]. rewrite B, R0. exact (map_nth_error (fun (c : R * list (string * value)) (_ : list nat) => fst c) k cs Hk).
  - intros name HA k c e Hk Hc. pose proof (proj1 (Forall_forall _ _) HL) as HL'. destruct (HL' c (nth_error_In _ _ Hk)) as [ND HI]. destruct (HI name _ Hc) as (_ & HT & _).
    rewrite PT. apply ROW; [now apply F2|]. rewrite A, R0 by exact HT. cbn [app]. clear A B E F1 F2 HC HL HF.
    assert (ONE : forall c e, In c cs -> In (name, Arr (sh name) e) (snd c) -> here_m name c = [e]).
    { intros c' e' Hc1 Hc2. unfold here_m. now rewrite (flat_map_single G (fun _ _ => []) (snd c') _ name _ (proj1 (HL' c' Hc1)) Hc2). }
    revert k Hk. clear ND HI. induction cs as [|c0 cs IH]; intros k Hk; [destruct k; discriminate|]. cbn [flat_map]. destruct k as [|k].
    + cbn in Hk. injection Hk as ->. rewrite (ONE c e); [reflexivity|now left|exact Hc].
    + destruct (HA c0 (or_introl eq_refl)) as [v Hv]. destruct (proj2 (HL' c0 (or_introl eq_refl)) name v Hv) as (_ & _ & e0 & ->). rewrite (ONE c0 e0); [|now left|exact Hv]. cbn [app nth_error].
      apply IH; [intros; apply HA; now right|intros; apply HL'; now right|intros; apply ONE; [now right|assumption]|exact Hk].
Qed.
