(** Paths and single writes. *)
From Coq Require Import String Ascii ZArith List Reals Bool Lia Arith.
From Verif Require Import Base Mpi_Model Output_Model Output_Spec.
Import ListNotations.
Local Open Scope list_scope.

(** ** paths *)
Lemma components_slash a b : components (a ++ "/" ++ b)%string
  = (fst (components a), match components b with (h, t) => snd (components a) ++ push h t end)
  \/ components (a ++ "/" ++ b)%string = (fst (components a), snd (components a) ++ parse b).
Proof.
  right. induction a as [|c a IH].
  - cbn [append components fst snd]. unfold parse. destruct (components b) as [h t]. reflexivity.
  - cbn [append components] in *. rewrite IH. destruct (components a) as [h t]. cbn [fst snd]. destruct (Ascii.eqb c "/"); cbn [fst snd]; [|reflexivity].
    unfold push. destruct (String.eqb h ""); reflexivity.
Qed.
Lemma parse_slash a b : parse (a ++ "/" ++ b)%string = parse a ++ parse b.
Proof.
  unfold parse at 1 2. destruct (components_slash a b) as [E|E]; rewrite E; destruct (components a) as [h t]; cbn [fst snd].
  - unfold parse. destruct (components b) as [h' t']. unfold push. destruct (String.eqb h ""); reflexivity.
  - unfold push. destruct (String.eqb h ""); reflexivity.
Qed.
Lemma components_simple s : no_slash s -> components s = (s, []).
Proof.
  induction s as [|c s IH]; [reflexivity|]. cbn [no_slash components]. intros [H1 H2]. rewrite IH by exact H2.
  destruct (Ascii.eqb_spec c "/"); [contradiction|reflexivity].
Qed.
Lemma parse_simple s : simple s -> parse s = [s].
Proof. intros [H1 H2]. unfold parse. rewrite components_simple by exact H2. unfold push. destruct (String.eqb_spec s ""); [contradiction|reflexivity]. Qed.
Lemma append_assoc a b c : ((a ++ b) ++ c)%string = (a ++ (b ++ c))%string.
Proof. induction a as [|x a IH]; cbn; [reflexivity|now rewrite IH]. Qed.
Lemma path_eqb_spec p q : reflect (p = q) (path_eqb p q).
Proof.
  revert q. induction p as [|a p IH]; intros [|b q]; cbn; try (constructor; congruence).
  destruct (String.eqb_spec a b) as [->|N]; cbn; [|constructor; congruence]. destruct (IH q) as [->|N]; constructor; congruence.
Qed.
Lemma prefixb_spec p q : prefixb p q = true <-> below p q.
Proof.
  unfold below. revert q. induction p as [|a p IH]; intros q; cbn; [split; eauto|]. destruct q as [|b q]; [split; [discriminate|intros [r H]; discriminate]|].
  destruct (String.eqb_spec a b) as [->|N]; cbn.
  - rewrite IH. split; intros [r H]; exists r; [now rewrite H|now injection H].
  - split; [discriminate|]. intros [r H]. injection H as H _. congruence.
Qed.

(** ** shapes *)
Lemma fits_refl s : fits s s = true.
Proof. induction s as [|n s IH]; cbn; [reflexivity|]. now rewrite Nat.leb_refl, IH. Qed.
Lemma fits_length a b : fits a b = true -> length a = length b.
Proof. revert b. induction a as [|n a IH]; intros [|m b]; cbn; try discriminate; [reflexivity|]. intros H. apply andb_prop in H as [_ H]. f_equal. now apply IH. Qed.
Lemma shape_eqb_refl s : shape_eqb s s = true.
Proof. unfold shape_eqb. now rewrite fits_refl. Qed.
Lemma map_cut_same s rows : map (cut s s) rows = rows.
Proof. unfold cut. rewrite shape_eqb_refl. now rewrite map_id. Qed.
Lemma grow_same d s : d_max d = s -> d_shape d = s -> grow d s = Ok (mk_data s s (d_rows d ++ [fun _ => 0%R])).
Proof. intros H1 H2. unfold grow. rewrite H1, H2, Nat.eqb_refl, fits_refl, map_cut_same. reflexivity. Qed.
Lemma removelast_snoc {A} (l : list A) a : removelast (l ++ [a]) = l.
Proof. rewrite removelast_app by discriminate. cbn. apply app_nil_r. Qed.

(** ** single operations *)
Definition only (p : path) (f f' : file) : Prop := forall q, q <> p -> f' q = f q.
Lemma wf_prefix f p k : well_formed f -> f p = Some Group -> f (firstn k p) = Some Group.
Proof.
  intros [H0 H] HP. destruct (le_lt_dec (length p) k) as [L|L]; [now rewrite firstn_all2|].
  apply (H (firstn k p) (skipn k p)); [|rewrite firstn_skipn; congruence]. intros E. apply (f_equal (@length _)) in E. rewrite skipn_length in E. cbn in E. lia.
Qed.
Lemma wf_none f p r : well_formed f -> f p = None -> f (p ++ r) = None.
Proof. intros H HP. destruct r as [|x r]; [now rewrite app_nil_r|]. destruct (f (p ++ x :: r)) eqn:E; [|reflexivity]. destruct H as [_ H]. rewrite (H p (x :: r)) in HP; [discriminate|discriminate|congruence]. Qed.
Lemma create_below s dir x n : well_formed (st_file s) -> st_file s dir = Some Group -> st_file s (dir ++ [x]) = None ->
  exists f', create (dir ++ [x]) n s = (set_file s f', Ok tt) /\ f' (dir ++ [x]) = Some n /\ only (dir ++ [x]) (st_file s) f' /\ well_formed f'.
Proof.
  intros HW HD HN. unfold create. rewrite HN.
  assert (EX : existsb (fun k => is_leaf (st_file s (firstn k (dir ++ [x])))) (seq 0 (length (dir ++ [x]))) = false).
  { destruct (existsb _ _) eqn:E; [|reflexivity]. apply existsb_exists in E as (k & Hk & E). apply in_seq in Hk. rewrite app_length in Hk. cbn in Hk.
    rewrite firstn_app in E. replace (k - length dir) with 0 in E by lia. cbn [firstn] in E. rewrite app_nil_r in E. now rewrite wf_prefix in E. }
  rewrite EX. eexists. split; [reflexivity|]. cbv beta. split; [|split].
  - destruct (path_eqb_spec (dir ++ [x]) (dir ++ [x])); [reflexivity|contradiction].
  - intros q Hq. cbv beta. destruct (path_eqb_spec q (dir ++ [x])); [contradiction|]. destruct (prefixb q (dir ++ [x])) eqn:P; [|reflexivity].
    apply prefixb_spec in P as [r Hr]. destruct r as [|y r] using rev_ind; [rewrite app_nil_r in Hr; congruence|]. clear IHr.
    rewrite app_assoc in Hr. apply app_inj_tail in Hr as [Hr _]. destruct r as [|z r]; [rewrite app_nil_r in Hr; subst q; now rewrite HD|].
    rewrite (proj2 HW q (z :: r)); [reflexivity|discriminate|]. rewrite <- Hr. congruence.
  - assert (O : forall q, q <> dir ++ [x] -> (if path_eqb q (dir ++ [x]) then Some n else if prefixb q (dir ++ [x]) then match st_file s q with None => Some Group | x => x end else st_file s q) = st_file s q).
    { intros q Hq. destruct (path_eqb_spec q (dir ++ [x])); [contradiction|]. destruct (prefixb q (dir ++ [x])) eqn:P; [|reflexivity].
      apply prefixb_spec in P as [r Hr]. destruct r as [|y r] using rev_ind; [rewrite app_nil_r in Hr; congruence|]. clear IHr.
      rewrite app_assoc in Hr. apply app_inj_tail in Hr as [Hr _]. destruct r as [|z r]; [rewrite app_nil_r in Hr; subst q; now rewrite HD|].
      rewrite (proj2 HW q (z :: r)); [reflexivity|discriminate|]. rewrite <- Hr. congruence. }
    split.
    + rewrite O; [apply HW|]. destruct dir; discriminate.
    + intros p r Hr. destruct (path_eqb_spec (p ++ r) (dir ++ [x])) as [E|NE].
      * intros _. destruct r as [|y r] using rev_ind; [congruence|]. clear IHr. pose proof E as E'. rewrite app_assoc in E'. apply app_inj_tail in E' as [E' ->].
        rewrite O; [|rewrite <- E; intros X; rewrite <- (app_nil_r p) in X at 1; apply app_inv_head in X; symmetry in X; apply app_eq_nil in X as [_ X]; discriminate].
        destruct r as [|z r]; [rewrite app_nil_r in E'; now subst p|]. apply (proj2 HW p (z :: r)); [discriminate|]. rewrite E'. congruence.
      * fold (path_eqb (p ++ r) (dir ++ [x])). intros Hn. pose proof (O (p ++ r) NE) as O1. destruct (path_eqb_spec (p ++ r) (dir ++ [x])) as [E|_]; [contradiction|].
        rewrite O1 in Hn. assert (HP := proj2 HW p r Hr Hn). rewrite O; [exact HP|]. intros ->. congruence.
Qed.
Lemma ensure_group_ok s dirs name : well_formed (st_file s) -> simple name -> st_file s (parse dirs) = Some Group ->
  (st_file s (parse dirs ++ [name]) = None \/ st_file s (parse dirs ++ [name]) = Some Group) ->
  exists f', ensure_group dirs name s = (set_file s f', Ok tt) /\ f' (parse dirs ++ [name]) = Some Group /\ only (parse dirs ++ [name]) (st_file s) f' /\ well_formed f'.
Proof.
  intros HW HS HD HN. unfold ensure_group, bind_io, member. rewrite HD, (parse_simple name HS).
  destruct HN as [HN|HN].
  - rewrite HN. cbn [bind_io]. rewrite parse_slash, (parse_simple name HS). now apply create_below.
  - rewrite HN. exists (st_file s). unfold ret. split; [destruct s; reflexivity|]. split; [exact HN|]. split; [intros q _; reflexivity|exact HW].
Qed.
(** rows of a data set, none if it does not exist *)
Definition rows (f : file) (p : path) : list (list nat -> R) := match f p with Some (Data d) => d_rows d | _ => [] end.
Definition shaped (sh : list nat) (f : file) (p : path) : Prop := f p = None \/ exists l, f p = Some (Data (mk_data sh sh l)).
Lemma append_value_ok s dirs name sh e : well_formed (st_file s) -> simple name -> st_file s (parse dirs) = Some Group ->
  shaped sh (st_file s) (parse dirs ++ [name]) ->
  exists f', append_value dirs name (Arr sh e) s = (set_file s f', Ok tt)
    /\ f' (parse dirs ++ [name]) = Some (Data (mk_data sh sh (rows (st_file s) (parse dirs ++ [name]) ++ [e])))
    /\ only (parse dirs ++ [name]) (st_file s) f' /\ well_formed f'.
Proof.
  intros HW HS HD HN. unfold append_value. rewrite parse_slash, (parse_simple name HS). set (p := parse dirs ++ [name]) in *.
  (* after the data set exists *)
  assert (REST : forall s1 l, well_formed (st_file s1) -> st_file s1 p = Some (Data (mk_data sh sh l)) ->
    exists f', (exec d <- get_data p; exec sh0 <- shape_of (Arr sh e); exec d' <- lift (grow d sh0); exec _ <- put_data p d'; put_data p (set_last d' (entries_of (Arr sh e)))) s1
      = (set_file s1 f', Ok tt) /\ f' p = Some (Data (mk_data sh sh (l ++ [e]))) /\ only p (st_file s1) f' /\ well_formed f').
  { intros s1 l HW1 H1. unfold bind_io, get_data. rewrite H1. unfold shape_of, ret, lift. rewrite (grow_same (mk_data sh sh l) sh) by reflexivity.
    cbn [d_rows put_data]. unfold put_data, set_last. cbn [d_rows d_max d_shape entries_of]. rewrite removelast_snoc. eexists. split; [unfold set_file; cbn [st_file st_group st_append]; reflexivity|]. cbv beta.
    split; [destruct (path_eqb_spec p p); [reflexivity|contradiction]|].
    assert (O : only p (st_file s1) (fun q => if path_eqb q p then Some (Data (mk_data sh sh (l ++ [e]))) else if path_eqb q p then Some (Data (mk_data sh sh (l ++ [fun _ => 0%R]))) else st_file s1 q)).
    { intros q Hq. destruct (path_eqb_spec q p); [contradiction|reflexivity]. }
    split; [exact O|]. split.
    - destruct (path_eqb_spec [] p) as [E|_]; [unfold p in E; destruct (parse dirs); discriminate|apply HW1].
    - intros a r Hr Hn. assert (NP : a <> p).
      { intros ->. destruct (path_eqb_spec (p ++ r) p) as [E|_]; [rewrite <- (app_nil_r p) in E at 2; apply app_inv_head in E; contradiction|].
        apply (proj2 HW1) in Hn; [congruence|exact Hr]. }
      destruct (path_eqb_spec a p); [contradiction|]. destruct (path_eqb_spec (a ++ r) p) as [E|_].
      + apply (proj2 HW1 a r Hr). rewrite E. congruence.
      + now apply (proj2 HW1 a r Hr). }
  unfold bind_io at 1. unfold member. rewrite HD, (parse_simple name HS). fold p.
  destruct HN as [HN|[l HN]]; rewrite HN.
  - unfold bind_io at 1. unfold bind_io at 1. unfold shape_of at 1, ret at 1.
    destruct (create_below s (parse dirs) name (Data (mk_data sh sh [])) HW HD HN) as (f1 & E1 & E2 & E3 & E4). fold p in E1, E2, E3. rewrite E1.
    destruct (REST (set_file s f1) [] E4 E2) as (f' & E5 & E6 & E7 & E8). exists f'. rewrite E5. split; [reflexivity|]. split; [unfold rows; rewrite HN; exact E6|]. split; [|exact E8].
    intros q Hq. rewrite E7 by exact Hq. now apply E3.
  - unfold bind_io at 1. unfold ret at 1. destruct (REST s l HW HN) as (f' & E5 & E6 & E7 & E8). exists f'. rewrite E5. split; [reflexivity|]. split; [unfold rows; rewrite HN; exact E6|]. split; assumption.
Qed.
