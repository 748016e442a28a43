(** Reading checkpoints; what writes leave alone; timings. *)
From Coq Require Import String Ascii ZArith List Reals Bool Lia Lra Arith.
From Verif Require Import Base Mpi_Model Mpi_Proofs Output_Model Output_Spec Output_Proofs Output2_Proofs.
Import ListNotations.
Local Open Scope list_scope.

(** ** all ranks *)
Definition res_map {A B} (g : A -> B) (r : result A) : result B := do a <- r; Ok (g a).
Lemma run_map {A B} (g : A -> B) fuel : forall ps : list (prog (F := R) A), run fuel (map (prog_map g) ps) = map (res_map g) (run fuel ps).
Proof.
  assert (FIN : forall ps : list (prog (F := R) A), map finish (map (prog_map g) ps) = map (res_map g) (map finish ps)).
  { intros ps. rewrite !map_map. apply map_ext. intros [r|c m k]; reflexivity. }
  induction fuel as [|fuel IH]; intros ps; [apply FIN|]. destruct ps as [|[r|c m k] ps]; [reflexivity|apply FIN|].
  assert (AT : forall l : list (prog (F := R) A), forallb (at_coll c) (map (prog_map g) l) = forallb (at_coll c) l).
  { intros l. induction l as [|[r|c' m' k'] l IHl]; [reflexivity|reflexivity|]. cbn [map forallb prog_map at_coll]. now rewrite IHl. }
  change (run (S fuel) (map (prog_map g) (Call c m k :: ps))) with
    (if forallb (at_coll c) (map (prog_map g) (Call c m k :: ps)) then run fuel (map (resume (reply c (map payload (map (prog_map g) (Call c m k :: ps))))) (map (prog_map g) (Call c m k :: ps))) else map finish (map (prog_map g) (Call c m k :: ps))).
  change (run (S fuel) (Call c m k :: ps)) with
    (if forallb (at_coll c) (Call c m k :: ps) then run fuel (map (resume (reply c (map payload (Call c m k :: ps)))) (Call c m k :: ps)) else map finish (Call c m k :: ps)).
  rewrite AT. destruct (forallb (at_coll c) (Call c m k :: ps)); [|apply FIN]. rewrite <- IH. f_equal. rewrite !map_map.
  assert (PL : map (fun x : prog (F := R) A => payload (prog_map g x)) (Call c m k :: ps) = map payload (Call c m k :: ps)) by (apply map_ext; intros [r|c' m' k']; reflexivity).
  rewrite PL. apply map_ext. intros [r|c' m' k']; reflexivity.
Qed.
Lemma run_checkpoint_ok n s time idx t w : read_checkpoint s time idx = Ok (t, w) -> run_checkpoint (S n) s time idx = repeat (Ok (t, w)) (S n).
Proof.
  intros H. unfold run_checkpoint.
  set (arg := fun r : nat => if Nat.eqb r 0 then Some (mk_array Float64 w) else None).
  change (seq 0 (S n)) with (0 :: seq 1 n). cbn [map]. unfold get_network_checkpoint at 1. cbn [Nat.eqb]. rewrite H.
  match goal with |- run 4 (?p :: ?ps) = _ => change (run 4 (p :: ps)) with (if forallb (at_coll (CBcast 0)) (p :: ps) then run 3 (map (resume [MBuf [t]]) (p :: ps)) else map finish (p :: ps)) end.
  assert (AT : forallb (at_coll (F := R) (CBcast 0)) (map (get_network_checkpoint s time idx) (seq 1 n)) = true).
  { rewrite forallb_map'. apply forallb_forall. intros r Hr. apply in_seq in Hr. unfold get_network_checkpoint. destruct r; [lia|]. reflexivity. }
  cbn [forallb at_coll coll_eqb Nat.eqb andb]. rewrite AT.
  assert (PS : forall p0, map (resume [MBuf [t]]) (Call (CBcast 0) (MBuf [t]) (fun _ => prog_map (fun w' => (t, w')) p0) :: map (get_network_checkpoint s time idx) (seq 1 n))
    = map (prog_map (fun w' => (t, w'))) (p0 :: map (fun r => bcast_unknown_size r 0 (arg r)) (seq 1 n))).
  { intros p0. cbn [map resume]. f_equal. rewrite !map_map. apply map_ext_in. intros r Hr. apply in_seq in Hr. destruct r; [lia|]. reflexivity. }
  rewrite PS. change (bcast_unknown_size 0 0 (Some (mk_array Float64 w)) :: map (fun r => bcast_unknown_size r 0 (arg r)) (seq 1 n)) with (map (fun r => bcast_unknown_size r 0 (arg r)) (seq 0 (S n))).
  rewrite run_map.
  assert (RB : run 3 (map (fun r => bcast_unknown_size r 0 (arg r)) (seq 0 (S n))) = run_bcast 0 (map arg (seq 0 (S n)))).
  { unfold run_bcast. rewrite map_length, seq_length. f_equal. generalize (seq 0 (S n)) as l. induction l as [|x l IH]; [reflexivity|]. cbn [map combine fst snd]. now rewrite IH. }
  rewrite RB, (run_bcast_ok 0 _ (mk_array Float64 w)) by reflexivity. rewrite !map_map. cbn [a_data].
  assert (CONST : forall (l : list nat) (x : result (R * list R)), map (fun _ => x) l = repeat x (length l)) by (intros l x; induction l as [|y l IH]; [reflexivity|]; cbn; now rewrite IH).
  etransitivity; [apply CONST|]. now rewrite seq_length.
Qed.

(** ** smallest entry *)
Lemma argmin_from_spec l : forall i best m pre, length pre = i -> nth_error pre best = Some m -> (forall x, In x pre -> (m <= x)%R) -> (forall j x, j < best -> nth_error pre j = Some x -> (m < x)%R) ->
  exists x, nth_error (pre ++ l) (argmin_from i best m l) = Some x /\ (forall y, In y (pre ++ l) -> (x <= y)%R) /\ forall j y, j < argmin_from i best m l -> nth_error (pre ++ l) j = Some y -> (x < y)%R.
Proof.
  induction l as [|a l IH]; intros i best m pre HL HB HM HF.
  - cbn [argmin_from]. rewrite app_nil_r. exists m. auto.
  - assert (BL : best < length pre) by (apply nth_error_Some; congruence). cbn [argmin_from]. replace (pre ++ a :: l) with ((pre ++ [a]) ++ l) by (rewrite <- app_assoc; reflexivity). destruct (Rlt_dec a m) as [L|L].
    + apply IH; [rewrite app_length; cbn; lia|rewrite nth_error_app2, HL, Nat.sub_diag by lia; reflexivity| |].
      * intros x Hx. apply in_app_or in Hx as [Hx|[->|[]]]; [specialize (HM x Hx); lra|lra].
      * intros j x Hj Hx. rewrite nth_error_app1 in Hx by lia. apply nth_error_In in Hx. specialize (HM x Hx). lra.
    + apply IH; [rewrite app_length; cbn; lia|now rewrite nth_error_app1| |].
      * intros x Hx. apply in_app_or in Hx as [Hx|[->|[]]]; [now apply HM|lra].
      * intros j x Hj Hx. rewrite nth_error_app1 in Hx by lia. eauto.
Qed.
Lemma argmin_spec l : l <> [] -> exists k x, argmin l = Ok (Z.of_nat k) /\ nth_error l k = Some x /\ (forall y, In y l -> (x <= y)%R) /\ forall j y, j < k -> nth_error l j = Some y -> (x < y)%R.
Proof.
  destruct l as [|a l]; [congruence|]. intros _. cbn [argmin]. destruct (argmin_from_spec l 1 0 a [a] eq_refl eq_refl) as (x & H1 & H2 & H3).
  - intros x [->|[]]. lra.
  - intros j x Hj. lia.
  - exists (argmin_from 1 0 a l), x. auto.
Qed.
Lemma py_index_nat {A} (l : list A) i a : nth_error l i = Some a -> py_index l (Z.of_nat i) = Ok a.
Proof. intros H. unfold py_index. destruct (Z.ltb_spec (Z.of_nat i) 0); [lia|]. rewrite Nat2Z.id, H. destruct (Z.ltb_spec (Z.of_nat i) 0); [lia|reflexivity]. Qed.
Lemma py_index_back {A} (l : list A) i a : i < length l -> nth_error l i = Some a -> py_index l (Z.of_nat i - Z.of_nat (length l)) = Ok a.
Proof.
  intros L H. unfold py_index. destruct (Z.ltb_spec (Z.of_nat i - Z.of_nat (length l)) 0); [|lia]. replace (Z.of_nat i - Z.of_nat (length l) + Z.of_nat (length l))%Z with (Z.of_nat i) by lia.
  destruct (Z.ltb_spec (Z.of_nat i) 0); [lia|]. now rewrite Nat2Z.id, H.
Qed.
Lemma vector_weights c n : length (snd c) = n -> vector [n] (weights_of c) = snd c.
Proof.
  intros <-. unfold vector, weights_of. cbn [hd]. destruct c as [t w]. cbn [snd]. apply nth_ext with (d := 0%R) (d' := 0%R); [now rewrite map_length, seq_length|].
  intros i Hi. rewrite map_length, seq_length in Hi. rewrite (nth_indep _ 0%R (nth 0 w 0%R)) by now rewrite map_length, seq_length. rewrite (map_nth (fun i => nth i w 0%R)). now rewrite seq_nth.
Qed.
Lemma parse_net_x g x : simple x -> parse ((g ++ "/network_checkpoints") ++ "/" ++ x)%string = (parse g ++ ["network_checkpoints"%string]) ++ [x].
Proof. intros H. now rewrite parse_slash, parse_net, (parse_simple x H). Qed.

(** what is read from a file with the checkpoints cs *)
Lemma read_ok s n cs time idx k c :
  st_file s ((parse (st_group s) ++ ["network_checkpoints"%string]) ++ ["times"%string]) = Some (Data (mk_data [] [] (map (fun (c : R * list R) _ => fst c) cs))) ->
  st_file s ((parse (st_group s) ++ ["network_checkpoints"%string]) ++ ["checkpoints"%string]) = Some (Data (mk_data [n] [n] (map weights_of cs))) ->
  Forall (fun c => length (snd c) = n) cs -> nth_error cs k = Some c ->
  (if Rle_dec 0 time then argmin (map (fun x => Rabs (x - time)) (map fst cs)) else Ok idx) = Ok (Z.of_nat k)
  \/ (if Rle_dec 0 time then argmin (map (fun x => Rabs (x - time)) (map fst cs)) else Ok idx) = Ok (Z.of_nat k - Z.of_nat (length cs))%Z ->
  read_checkpoint s time idx = Ok c.
Proof.
  intros HT HW HL HN HI. unfold read_checkpoint.
  change (parse ((st_group s ++ "/network_checkpoints") ++ "/times")%string) with (parse ((st_group s ++ "/network_checkpoints") ++ "/" ++ "times")%string).
  change (parse ((st_group s ++ "/network_checkpoints") ++ "/checkpoints")%string) with (parse ((st_group s ++ "/network_checkpoints") ++ "/" ++ "checkpoints")%string).
  rewrite (parse_net_x _ "times" simple_lit_times), (parse_net_x _ "checkpoints" simple_lit_check). unfold get_data. rewrite HT, HW. cbn [snd d_rows d_shape bind].
  replace (map (fun r : list nat -> R => r []) (map (fun (c : R * list R) (_ : list nat) => fst c) cs)) with (map fst cs) by (rewrite map_map; reflexivity).
  pose proof (nth_error_In _ _ HN) as HIn. pose proof (proj1 (Forall_forall _ _) HL c HIn) as HLc. assert (KL : k < length cs) by (apply nth_error_Some; congruence).
  assert (NW : nth_error (map weights_of cs) k = Some (weights_of c)) by (apply map_nth_error, HN). assert (NT : nth_error (map fst cs) k = Some (fst c)) by (apply map_nth_error, HN).
  destruct HI as [-> | ->]; cbn [bind].
  - rewrite (py_index_nat _ _ _ NW). cbn [bind]. rewrite (py_index_nat _ _ _ NT). cbn [bind]. rewrite vector_weights by exact HLc. now destruct c.
  - replace (Z.of_nat k - Z.of_nat (length cs))%Z with (Z.of_nat k - Z.of_nat (length (map weights_of cs)))%Z by (now rewrite map_length). rewrite (py_index_back _ _ _ (eq_ind_r (fun m => k < m) KL (map_length weights_of cs)) NW). cbn [bind].
    rewrite map_length. replace (Z.of_nat k - Z.of_nat (length cs))%Z with (Z.of_nat k - Z.of_nat (length (map fst cs)))%Z by (now rewrite map_length). rewrite (py_index_back _ _ _ (eq_ind_r (fun m => k < m) KL (map_length fst cs)) NT). cbn [bind]. rewrite vector_weights by exact HLc. now destruct c.
Qed.

(** ** what operations leave alone *)
Definition safe (Q : file -> file -> Prop) {A} (x : io A) : Prop := forall s,
  st_group (fst (x s)) = st_group s /\ st_append (fst (x s)) = st_append s /\ Q (st_file s) (st_file (fst (x s))).
Section Safe.
  Variable Q : file -> file -> Prop.
  Hypothesis Qrefl : forall f, Q f f.
  Hypothesis Qtrans : forall f g h, Q f g -> Q g h -> Q f h.
  Lemma safe_read {A} (r : state -> result A) : safe Q (fun s => (s, r s)).
  Proof. intros s. cbn. auto. Qed.
  Lemma safe_bind {A B} (x : io A) (k : A -> io B) : safe Q x -> (forall a, safe Q (k a)) -> safe Q (bind_io x k).
  Proof.
    intros HX HK s. unfold bind_io. destruct (HX s) as (E1 & E2 & E3). destruct (x s) as [s1 [a|e]]; cbn [fst] in *; [|auto].
    destruct (HK a s1) as (E4 & E5 & E6). repeat split; [congruence|congruence|eauto].
  Qed.
  Lemma safe_for {A} (l : list A) body : (forall a, In a l -> safe Q (body a)) -> safe Q (for_each l body).
  Proof. induction l as [|a l IH]; intros H; [apply safe_read|]. cbn [for_each]. apply safe_bind; [apply H; now left|]. intros _. apply IH. intros b Hb. apply H. now right. Qed.
End Safe.

Lemma create_cases p n s :
  fst (create p n s) = s
  \/ st_file s p = None /\ (forall k, k < length p -> is_leaf (st_file s (firstn k p)) = false)
     /\ exists f', fst (create p n s) = set_file s f' /\ f' p = Some n
        /\ (forall q, q <> p -> f' q = st_file s q \/ (st_file s q = None /\ below q p /\ f' q = Some Group))
        /\ (forall q, q <> p -> below q p -> st_file s q = None -> f' q = Some Group).
Proof.
  unfold create. destruct (st_file s p) eqn:E; [now left|]. destruct (existsb _ _) eqn:X; [now left|]. right. split; [reflexivity|]. split.
  - intros k Hk. destruct (is_leaf _) eqn:L; [|reflexivity]. rewrite <- X. symmetry. apply existsb_exists. exists k. split; [apply in_seq; lia|exact L].
  - eexists. split; [reflexivity|]. cbv beta. split; [destruct (path_eqb_spec p p); [reflexivity|contradiction]|].
    split; intros q Hq.
    + destruct (path_eqb_spec q p); [contradiction|]. destruct (prefixb q p) eqn:P; [|now left]. apply prefixb_spec in P.
      destruct (st_file s q) eqn:Z; [now left|]. right. auto.
    + intros P Z. destruct (path_eqb_spec q p); [contradiction|]. apply prefixb_spec in P. now rewrite P, Z.
Qed.
Definition tail (p : path) (v : value) : io unit :=
  exec d <- get_data p; exec sh <- shape_of v; exec d' <- lift (grow d sh); exec _ <- put_data p d'; put_data p (set_last d' (entries_of v)).
Lemma tail_cases p v s :
  fst (tail p v s) = s
  \/ exists d sh e d' f', v = Arr sh e /\ st_file s p = Some (Data d) /\ grow d sh = Ok d' /\ fst (tail p v s) = set_file s f' /\ f' p = Some (Data (set_last d' e)) /\ only p (st_file s) f'.
Proof.
  unfold tail, bind_io, get_data. destruct (st_file s p) as [[|d|]|] eqn:E; try now left. unfold shape_of. destruct v as [sh e|]; [|now left]. unfold ret, lift.
  destruct (grow d sh) as [d'|x] eqn:GR; [|now left]. right. exists d, sh, e, d'. eexists. split; [reflexivity|]. split; [reflexivity|]. split; [exact GR|].
  cbn [fst entries_of put_data]. unfold put_data. cbn [fst]. split; [unfold set_file; cbn [st_group st_append st_file]; reflexivity|]. cbv beta. split.
  - destruct (path_eqb_spec p p); [reflexivity|contradiction].
  - intros q Hq. destruct (path_eqb_spec q p); [contradiction|reflexivity].
Qed.

Lemma member_safe (Q : file -> file -> Prop) (HR : forall f : file, Q f f) d n : safe Q (member d n).
Proof. apply (safe_read Q HR). Qed.

(** *** all writes, for a relation that the elementary operations respect *)
Section Generic.
  Variable Q : file -> file -> Prop.
  Variable ok : path -> value -> Prop.
  Hypothesis Qrefl : forall f, Q f f.
  Hypothesis Qtrans : forall f g h, Q f g -> Q g h -> Q f h.
  Hypothesis Qgroup : forall p, safe Q (create p Group).
  Hypothesis Qfixed : forall p s e, safe Q (create p (Fixed s e)).
  Hypothesis Qdata : forall p s e, ok p (Arr s e) -> safe Q (create p (Data (mk_data s s []))).
  Hypothesis Qtail : forall p v, ok p v -> safe Q (tail p v).
  Definition accepted (g : path) (o : op) : Prop :=
    match o with
    | Observables t kw => ok (g ++ ["observables"; "times"]%string) (number t) /\
        forall key d name v, In (key, d) kw -> In (name, v) d -> ok (g ++ ["observables"%string] ++ parse key ++ parse name) v
    | Metadata t kw => ok (g ++ ["metadata"; "times"]%string) (number t) /\ forall name v, In (name, v) kw -> ok (g ++ ["metadata"%string] ++ parse name) v
    | Checkpoint t w => ok (g ++ ["network_checkpoints"; "times"]%string) (number t) /\ ok (g ++ ["network_checkpoints"; "checkpoints"]%string) w
    | _ => True
    end.
  Fixpoint accepted_history (rank : nat) (l : list op) (s : state) : Prop :=
    match l with [] => True | o :: l => accepted (parse (st_group s)) o /\ accepted_history rank l (fst (execute rank o s)) end.
  Lemma g_ensure d n : safe Q (ensure_group d n).
  Proof. apply safe_bind; [exact Qtrans|apply member_safe, Qrefl|]. intros [|]; [apply (safe_read Q Qrefl)|apply Qgroup]. Qed.
  Lemma g_append dir n v : ok (parse dir ++ parse n) v -> safe Q (append_value dir n v).
  Proof.
    intros HV. unfold append_value. rewrite parse_slash. apply safe_bind; [exact Qtrans|apply member_safe, Qrefl|]. intros b. apply safe_bind; [exact Qtrans| |intros _; now apply Qtail].
    destruct b; [apply (safe_read Q Qrefl)|]. destruct v as [s e|]; [|intros st; cbn; (split; [reflexivity|]; split; [reflexivity|]; apply Qrefl)].
    exact (Qdata _ s e HV).
  Qed.
  Lemma g_write rank o g : to_group o -> accepted (parse g) o -> forall s, st_group s = g ->
    st_group (fst (execute rank o s)) = g /\ st_append (fst (execute rank o s)) = st_append s /\ Q (st_file s) (st_file (fst (execute rank o s))).
  Proof.
    intros HO HC s HG.
    destruct o as [h|t kw|t kw|t w| |]; try contradiction; cbn [execute]; unfold write_observables, write_metadata, write_network_checkpoint, on_root; (destruct (Nat.eqb rank 0); [|cbn; split; [exact HG|]; split; [reflexivity|apply Qrefl]]); cbv zeta; rewrite HG; cbn [accepted] in HC; destruct HC as [HT HV].
    all: match goal with H : st_group ?st = _ |- context [fst (?b ?st)] => assert (SF : safe Q b); [|destruct (SF st) as (S1 & S2 & S3); split; [congruence|]; split; assumption] end.
    - apply safe_bind; [exact Qtrans|apply g_ensure|]. intros _. apply safe_bind; [exact Qtrans| |].
      + apply g_append. rewrite parse_obs, <- app_assoc. exact HT.
      + intros _. apply (safe_for Q Qrefl Qtrans). intros [key d] H1. apply (safe_for Q Qrefl Qtrans). intros [name v] H2.
        apply safe_bind; [exact Qtrans|apply g_ensure|]. intros _. apply g_append. cbn [fst snd] in *. rewrite parse_obs_key', <- !app_assoc. eapply HV; eassumption.
    - apply safe_bind; [exact Qtrans|apply g_ensure|]. intros _. apply safe_bind; [exact Qtrans| |].
      + apply g_append. rewrite parse_meta, <- app_assoc. exact HT.
      + intros _. apply (safe_for Q Qrefl Qtrans). intros [name v] H2. apply g_append. cbn [fst snd] in *. rewrite parse_meta, <- !app_assoc. eapply HV; eassumption.
    - apply safe_bind; [exact Qtrans|apply g_ensure|]. intros _. apply safe_bind; [exact Qtrans| |].
      + apply g_append. rewrite parse_net, <- app_assoc. exact HT.
      + intros _. apply g_append. rewrite parse_net, <- !app_assoc. exact HV.
  Qed.
  Lemma g_fixed rank o : match o with ErrorData _ _ _ _ | Dataset _ _ _ _ _ => True | _ => False end -> safe Q (execute rank o).
  Proof.
    destruct o as [| | | |n s d r|n s d g r]; try contradiction; intros _; cbn [execute]; unfold write_error_data, write_dataset; (destruct (Nat.eqb rank r); [|apply (safe_read Q Qrefl)]); (apply safe_bind; [exact Qtrans| |intros _; apply Qfixed]).
    - apply g_ensure.
    - destruct (String.eqb g "/"); [apply (safe_read Q Qrefl)|apply g_ensure].
  Qed.
  Lemma g_set_group rank g s : st_append s = true -> st_append (fst (set_group rank g s)) = true /\ Q (st_file s) (st_file (fst (set_group rank g s))).
  Proof.
    intros HA. unfold set_group, on_root.
    set (s1 := if String.eqb g "/" then s else mk_state (st_file s) ("/" ++ g) (st_append s)).
    assert (F1 : st_file s1 = st_file s) by (unfold s1; destruct (String.eqb g "/"); reflexivity). assert (A1 : st_append s1 = true) by (unfold s1; destruct (String.eqb g "/"); exact HA).
    destruct (Nat.eqb rank 0); [|cbn; rewrite F1; split; [reflexivity|apply Qrefl]]. cbv beta zeta. rewrite A1.
    assert (SF : safe Q (exec b <- member "/" (st_group s1); if b : bool then ret tt else create (parse (st_group s1)) Group)).
    { apply safe_bind; [exact Qtrans|apply member_safe, Qrefl|]. intros [|]; [apply (safe_read Q Qrefl)|apply Qgroup]. }
    destruct (SF s1) as (B1 & B2 & B3). rewrite F1 in B3. match type of SF with safe _ ?b => destruct (b s1) as [s2 [[]|x]] end; cbn in *; [auto|]. split; [congruence|exact B3].
  Qed.
  Lemma g_history rank l : forall s, st_append s = true -> accepted_history rank l s -> Q (st_file s) (st_file (history rank l s)).
  Proof.
    induction l as [|o l IH]; intros s HA HC; [apply Qrefl|]. destruct HC as [HC HH]. cbn [history].
    assert (STEP : st_append (fst (execute rank o s)) = true /\ Q (st_file s) (st_file (fst (execute rank o s)))).
    { destruct o as [g|t kw|t kw|t w|n sp d r|n sp d g r].
      - now apply g_set_group.
      - destruct (g_write rank (Observables t kw) (st_group s) I HC s eq_refl) as (_ & E & K). split; [congruence|exact K].
      - destruct (g_write rank (Metadata t kw) (st_group s) I HC s eq_refl) as (_ & E & K). split; [congruence|exact K].
      - destruct (g_write rank (Checkpoint t w) (st_group s) I HC s eq_refl) as (_ & E & K). split; [congruence|exact K].
      - destruct (g_fixed rank (ErrorData n sp d r) I s) as (_ & E & K). split; [congruence|exact K].
      - destruct (g_fixed rank (Dataset n sp d g r) I s) as (_ & E & K). split; [congruence|exact K]. }
    destruct STEP as [A K]. eapply Qtrans; [exact K|]. now apply IH.
  Qed.
End Generic.

(** *** nothing is lost *)
Section Kept.
  Variable sh : path -> list nat.
  Definition kept (f f' : file) : Prop := uniform sh f -> uniform sh f' /\ preserved f f'.
  Lemma preserved_refl f : preserved f f.
  Proof. intros p [|d|]; auto. intros H. exists d, []. rewrite app_nil_r. auto. Qed.
  Lemma preserved_trans f g h : preserved f g -> preserved g h -> preserved f h.
  Proof.
    intros H1 H2 p n H. specialize (H1 p n H). destruct n as [|d|].
    - apply (H2 p Group H1).
    - destruct H1 as (d1 & m1 & A & B & C). destruct (H2 p (Data d1) A) as (d2 & m2 & A' & B' & C'). exists d2, (m1 ++ m2). split; [exact A'|]. split; [rewrite B', B, app_assoc; reflexivity|congruence].
    - apply (H2 p _ H1).
  Qed.
  Lemma kept_refl f : kept f f. Proof. intros H. split; [exact H|apply preserved_refl]. Qed.
  Lemma kept_trans f g h : kept f g -> kept g h -> kept f h.
  Proof. intros H1 H2 U. destruct (H1 U) as [U1 P1]. destruct (H2 U1) as [U2 P2]. split; [exact U2|eapply preserved_trans; eauto]. Qed.
  Lemma preserved_changes f f' : (forall q, f' q = f q \/ f q = None) -> preserved f f'.
  Proof. intros H p n E. destruct (H p) as [H'|H']; [|congruence]. rewrite H'. rewrite E. destruct n as [|d|]; auto. exists d, []. rewrite app_nil_r. auto. Qed.
  Lemma create_kept p n : (forall d, n = Data d -> d_max d = sh p /\ d_shape d = sh p) -> safe kept (create p n).
  Proof.
    intros HN s. destruct (create_cases p n s) as [-> | (E & _ & f' & -> & E1 & E2 & _)]; [split; [reflexivity|]; split; [reflexivity|]; apply kept_refl|]. cbn. split; [reflexivity|]. split; [reflexivity|]. intros U. split.
    - intros q d Hq. destruct (path_eqb_spec q p) as [->|N]; [apply HN; congruence|]. destruct (E2 q N) as [H|(_ & _ & H)]; [apply U; congruence|congruence].
    - apply preserved_changes. intros q. destruct (path_eqb_spec q p) as [->|N]; [now right|]. destruct (E2 q N) as [H|(H & _)]; auto.
  Qed.
  Lemma tail_kept p v : conforms (sh p) v -> safe kept (tail p v).
  Proof.
    intros HV s. destruct (tail_cases p v s) as [-> | (d & shp & e & d' & f' & -> & E & GR & -> & A & B)]; [split; [reflexivity|]; split; [reflexivity|]; apply kept_refl|]. cbn. split; [reflexivity|]. split; [reflexivity|]. intros U.
    cbn in HV. subst shp. destruct (U p d E) as [U1 U2]. rewrite (grow_same d (sh p) U1 U2) in GR. injection GR as <-. unfold set_last in A. cbn [d_max d_shape d_rows] in A. rewrite removelast_snoc in A. split.
    - intros q dd Hq. destruct (path_eqb_spec q p) as [->|N]; [rewrite A in Hq; injection Hq as <-; auto|]. apply U. now rewrite <- B.
    - intros q n Hq. destruct (path_eqb_spec q p) as [->|N].
      + rewrite E in Hq. injection Hq as <-. eexists _, [e]. split; [exact A|]. cbn. auto.
      + destruct n as [|dd|]; rewrite B by exact N; auto. exists dd, []. rewrite app_nil_r. auto.
  Qed.
  Lemma history_kept rank l s : st_append s = true -> conforming_history sh rank l s -> kept (st_file s) (st_file (history rank l s)).
  Proof.
    intros HA HC. apply (g_history kept (fun p v => conforms (sh p) v) kept_refl kept_trans); auto.
    - intros p. apply create_kept. discriminate.
    - intros p st e. apply create_kept. discriminate.
    - intros p st e H. cbn in H. subst st. apply create_kept. intros d [= <-]. auto.
    - exact tail_kept.
    - clear HA. revert s HC. induction l as [|o l IH]; intros s; [exact (fun _ => I)|]. intros [H1 H2]. split; [|now apply IH].
      destruct o; cbn [conforming accepted] in *; auto; destruct H1 as [H1 H3]; (split; [rewrite H1; reflexivity|exact H3]).
  Qed.
End Kept.

(** groups and fixed data sets stay *)
Definition solid (f f' : file) : Prop := forall p n, f p = Some n -> (forall d, n <> Data d) -> f' p = Some n.
Lemma solid_changes f f' : (forall q, f' q = f q \/ f q = None) -> solid f f'.
Proof. intros H p n E _. destruct (H p); congruence. Qed.
Lemma create_solid p n : safe solid (create p n).
Proof.
  intros s. destruct (create_cases p n s) as [-> | (E & _ & f' & -> & E1 & E2 & _)]; (split; [reflexivity|]; split; [reflexivity|]); [intros q m H _; exact H|].
  apply solid_changes. intros q. cbn. destruct (path_eqb_spec q p) as [->|N]; [now right|]. destruct (E2 q N) as [H|(H & _)]; auto.
Qed.
Lemma history_solid rank l s : st_append s = true -> solid (st_file s) (st_file (history rank l s)).
Proof.
  intros HA. apply (g_history solid (fun _ _ => True)); auto.
  - intros f p n H _. exact H.
  - intros f g h H1 H2 p n E N. apply H2; [now apply H1|exact N].
  - intros p. apply create_solid.
  - intros p st e. apply create_solid.
  - intros p st e _. apply create_solid.
  - intros p v _ st. destruct (tail_cases p v st) as [-> | (d & shp & e & d' & f' & -> & E & GR & -> & A & B)]; (split; [reflexivity|]; split; [reflexivity|]); [intros q m H _; exact H|].
    intros q m H N. cbn. rewrite B; [exact H|]. intros ->. rewrite E in H. injection H as H. now apply (N d).
  - clear HA. revert s. induction l as [|o l IH]; intros s; [exact I|]. split; [|apply IH]. destruct o; cbn; auto.
Qed.

(** *** writes stay in their group *)
Section Confined.
  Variable G : path.
  Definition confined (f f' : file) : Prop := well_formed f -> f G <> None -> well_formed f' /\ f' G <> None /\ forall q, ~ below G q -> f' q = f q.
  Lemma confined_refl f : confined f f. Proof. intros W H. auto. Qed.
  Lemma confined_trans f g h : confined f g -> confined g h -> confined f h.
  Proof. intros H1 H2 W H. destruct (H1 W H) as (W1 & N1 & E1). destruct (H2 W1 N1) as (W2 & N2 & E2). split; [exact W2|]. split; [exact N2|]. intros q Hq. rewrite E2, E1; auto. Qed.
End Confined.
Lemma below_compare a b p : below a p -> below b p -> below a b \/ exists r, r <> [] /\ a = b ++ r.
Proof.
  intros [ra ->] [rb H]. revert b H. induction a as [|x a IH]; intros b H; [left; exists b; reflexivity|]. destruct b as [|y b].
  - right. exists (x :: a). split; [discriminate|reflexivity].
  - cbn in H. injection H as -> H. destruct (IH b H) as [[r ->]|(r & Hr & ->)]; [left; exists r; reflexivity|right; exists r; split; [exact Hr|reflexivity]].
Qed.
Lemma below_refl p : below p p. Proof. exists []. now rewrite app_nil_r. Qed.
Lemma below_trans p q r : below p q -> below q r -> below p r.
Proof. intros [a ->] [b ->]. exists (a ++ b). now rewrite app_assoc. Qed.
Lemma create_wf p n s : well_formed (st_file s) -> well_formed (st_file (fst (create p n s))).
Proof.
  intros W. destruct (create_cases p n s) as [-> | (E & L & f' & -> & A & B & B')]; [exact W|]. cbn [st_file set_file]. split.
  - destruct p as [|x p]; [destruct W; congruence|]. destruct (B [] ltac:(discriminate)) as [H|(H & _)]; [rewrite H; apply W|destruct W; congruence].
  - intros q r Hr Hn.
    assert (PRE : below (q ++ r) p -> f' q = Some Group).
    { intros [t Ht]. assert (QP : q <> p). { intros ->. apply (f_equal (@length _)) in Ht. rewrite !app_length in Ht. destruct r; [congruence|cbn in Ht; lia]. }
      assert (LQ : is_leaf (st_file s q) = false). { specialize (L (length q)). rewrite Ht, <- app_assoc, firstn_app, Nat.sub_diag, firstn_all in L. cbn [firstn] in L. rewrite app_nil_r in L. apply L. rewrite !app_length. destruct r; [congruence|cbn; lia]. }
      destruct (B q QP) as [H|(_ & _ & H)]; [|exact H]. rewrite H. destruct (st_file s q) as [[| |]|] eqn:Q; try discriminate; [reflexivity|].
      rewrite <- H. apply B'; [exact QP| |exact Q]. exists (r ++ t). now rewrite app_assoc. }
    destruct (path_eqb_spec (q ++ r) p) as [EQ|NE]; [apply PRE; rewrite EQ; apply below_refl|].
    destruct (B (q ++ r) NE) as [H|(_ & H & _)]; [|now apply PRE]. rewrite H in Hn. pose proof (proj2 W q r Hr Hn) as HQ.
    destruct (B q) as [H'|(H' & _)]; [congruence|congruence|congruence].
Qed.
Lemma tail_wf p v s : p <> [] -> well_formed (st_file s) -> well_formed (st_file (fst (tail p v s))).
Proof.
  intros HP W. destruct (tail_cases p v s) as [-> | (d & shp & e & d' & f' & -> & E & GR & -> & A & B)]; [exact W|]. cbn [st_file set_file]. split.
  - rewrite B by congruence. apply W.
  - intros q r Hr Hn. assert (HQ : st_file s q = Some Group).
    { apply (proj2 W q r Hr). destruct (path_eqb_spec (q ++ r) p) as [->|N]; [congruence|]. now rewrite <- B. }
    rewrite B; [exact HQ|]. intros ->. congruence.
Qed.
Section Confined2.
  Variable G : path.
  Notation CF := (confined G).
  Lemma create_confined p n : below G p -> safe CF (create p n).
  Proof.
    intros HB s. pose proof (create_wf p n s) as WF. destruct (create_cases p n s) as [E | (E & L & f' & E' & A & B & B')].
    - rewrite E. split; [reflexivity|]. split; [reflexivity|]. apply confined_refl.
    - rewrite E' in *. cbn in *. split; [reflexivity|]. split; [reflexivity|]. intros W HN. split; [now apply WF|]. assert (GP : G <> p) by (intros ->; congruence). split.
      + destruct (B G GP) as [H|(H & _)]; congruence.
      + intros q Hq. destruct (path_eqb_spec q p) as [->|N]; [contradiction|]. destruct (B q N) as [H|(H & H' & _)]; [exact H|]. exfalso.
        destruct (below_compare q G p H' HB) as [[r ->]|(r & _ & ->)]; [|apply Hq; exists r; reflexivity].
        apply HN. now apply wf_none.
  Qed.
  Lemma tail_confined p v : p <> [] -> below G p -> safe CF (tail p v).
  Proof.
    intros HP HB s. pose proof (tail_wf p v s HP) as WF. destruct (tail_cases p v s) as [E0 | (d & shp & e & d' & f' & -> & E & GR & E0 & A & B)]; rewrite E0 in *.
    - split; [reflexivity|]. split; [reflexivity|]. apply confined_refl.
    - cbn in *. split; [reflexivity|]. split; [reflexivity|]. intros W HN. split; [now apply WF|]. split.
      + destruct (path_eqb_spec G p) as [->|N]; [congruence|]. now rewrite B.
      + intros q Hq. apply B. intros ->. contradiction.
  Qed.
  Lemma ensure_confined d n : below G (parse d) -> safe CF (ensure_group d n).
  Proof.
    intros H. apply safe_bind; [apply confined_trans|apply member_safe, confined_refl|]. intros [|]; [apply (safe_read CF (confined_refl G))|]. apply create_confined. rewrite parse_slash.
    eapply below_trans; [exact H|]. eexists. reflexivity.
  Qed.
  Lemma append_confined d n v : parse d <> [] -> below G (parse d) -> safe CF (append_value d n v).
  Proof.
    intros HD H. unfold append_value. rewrite parse_slash. assert (HP : below G (parse d ++ parse n)) by (eapply below_trans; [exact H|eexists; reflexivity]).
    apply safe_bind; [apply confined_trans|apply member_safe, confined_refl|]. intros b. apply safe_bind; [apply confined_trans| |intros _; apply tail_confined; [destruct (parse d); [congruence|discriminate]|exact HP]].
    destruct b; [apply (safe_read CF (confined_refl G))|]. apply safe_bind; [apply confined_trans| |intros; now apply create_confined].
    destruct v; apply (safe_read CF (confined_refl G)).
  Qed.
  Lemma write_confined rank o s : to_group o -> parse (st_group s) = G ->
    st_group (fst (execute rank o s)) = st_group s /\ CF (st_file s) (st_file (fst (execute rank o s))).
  Proof.
    intros HO HG.
    assert (BL : forall r, below G (parse (st_group s) ++ r)) by (intros r; rewrite HG; exists r; reflexivity).
    assert (NE : forall x : string, parse (st_group s) ++ [x] <> []) by (intros x; destruct (parse (st_group s)); discriminate).
    assert (NE2 : forall (x : string) l, (parse (st_group s) ++ [x]) ++ l <> []) by (intros x l; destruct (parse (st_group s)); discriminate).
    assert (BL2 : forall r l, below G ((parse (st_group s) ++ r) ++ l)) by (intros r l; rewrite <- app_assoc; apply BL).
    assert (BL0 : below G (parse (st_group s))) by (rewrite HG; apply below_refl).
    destruct o as [h|t kw|t kw|t w| |]; try contradiction; cbn [execute]; unfold write_observables, write_metadata, write_network_checkpoint, on_root; (destruct (Nat.eqb rank 0); [|cbn; split; [reflexivity|]; apply confined_refl]); cbv zeta.
    all: match goal with H : parse (st_group ?st) = _ |- context [fst (?b ?st)] => assert (SF : safe (confined G) b); [|now destruct (SF st) as (S1 & _ & S3)] end.
    - apply safe_bind; [apply confined_trans|apply ensure_confined, BL0|]. intros _. apply safe_bind; [apply confined_trans| |].
      + apply append_confined; rewrite parse_obs; auto.
      + intros _. apply (safe_for CF (confined_refl G) (confined_trans G)). intros [key d] _. apply (safe_for CF (confined_refl G) (confined_trans G)). intros [name v] _.
        apply safe_bind; [apply confined_trans|apply ensure_confined; rewrite parse_obs; auto|]. intros _. apply append_confined; cbn [fst snd]; rewrite parse_obs_key'; auto.
    - apply safe_bind; [apply confined_trans|apply ensure_confined, BL0|]. intros _. apply safe_bind; [apply confined_trans| |].
      + apply append_confined; rewrite parse_meta; auto.
      + intros _. apply (safe_for CF (confined_refl G) (confined_trans G)). intros [name v] _. apply append_confined; rewrite parse_meta; auto.
    - apply safe_bind; [apply confined_trans|apply ensure_confined, BL0|]. intros _. apply safe_bind; [apply confined_trans| |].
      + apply append_confined; rewrite parse_net; auto.
      + intros _. apply append_confined; rewrite parse_net; auto.
  Qed.
  Lemma history_confined rank l : Forall to_group l -> forall s, parse (st_group s) = G -> st_group (history rank l s) = st_group s /\ CF (st_file s) (st_file (history rank l s)).
  Proof.
    induction 1 as [|o l HO _ IH]; intros s HG; [split; [reflexivity|apply confined_refl]|]. cbn [history]. destruct (write_confined rank o s HO HG) as [E C].
    destruct (IH (fst (execute rank o s))) as [E' C']; [congruence|]. split; [congruence|]. eapply confined_trans; eassumption.
  Qed.
End Confined2.
Lemma parse_root g : parse ("/" ++ g)%string = parse g.
Proof. change ("/" ++ g)%string with ("" ++ "/" ++ g)%string. rewrite parse_slash. reflexivity. Qed.
(** set_group of rank 0 in append mode *)
Lemma set_group_ok g s s' : g <> "/"%string -> st_append s = true -> well_formed (st_file s) -> set_group 0 g s = (s', Ok tt) ->
  st_group s' = ("/" ++ g)%string /\ st_append s' = true /\ well_formed (st_file s') /\ st_file s' (parse g) <> None
  /\ forall q, st_file s' q = st_file s q \/ (st_file s q = None /\ below q (parse g) /\ st_file s' q = Some Group).
Proof.
  intros HG HA W. unfold set_group, on_root. destruct (String.eqb_spec g "/"); [contradiction|]. cbn [Nat.eqb st_append st_group st_file]. rewrite HA. cbv zeta. unfold bind_io, member. cbn [st_file st_group].
  change (parse "/") with (@nil string). rewrite (proj1 W). cbn [app]. rewrite !parse_root.
  destruct (st_file s (parse g)) eqn:E.
  - unfold ret. intros [= <-]. cbn. repeat split; try apply W; [congruence|auto].
  - set (s1 := mk_state (st_file s) ("/" ++ g) true). intros H. assert (Wc := create_wf (parse g) Group s1 W). destruct (create_cases (parse g) Group s1) as [E1|(E1 & L & f' & E2 & A & B & _)].
    + exfalso. revert H E1. unfold create. cbn [st_file s1]. rewrite E. destruct (existsb _ _); [discriminate|]. intros _ H. apply (f_equal (fun s => st_file s (parse g))) in H. cbn in H. rewrite E in H. destruct (path_eqb_spec (parse g) (parse g)); [discriminate|contradiction].
    + destruct (create (parse g) Group s1) as [s2 [[]|x]]; cbn [fst] in *; [|discriminate]. injection H as <-. subst s2. cbn in *. split; [reflexivity|]. split; [reflexivity|]. split; [exact Wc|]. split; [congruence|].
      intros q. destruct (path_eqb_spec q (parse g)) as [->|N]; [right; split; [exact E|]; split; [apply below_refl|exact A]|]. apply B, N.
Qed.
Lemma other_ranks rank o s : rank <> 0 -> to_group o -> execute rank o s = (s, Ok tt).
Proof.
  intros HR HO. destruct o; try contradiction; cbn [execute]; unfold write_observables, write_metadata, write_network_checkpoint, on_root; destruct (Nat.eqb_spec rank 0); try contradiction; reflexivity.
Qed.

(** ** timings *)
Local Open Scope R_scope.
Lemma t_get_set n m v d : t_get n (t_set m v d) = if String.eqb m n then Some v else t_get n d.
Proof.
  induction d as [|[k w] d IH]; cbn [t_set t_get]; [reflexivity|]. destruct (String.eqb_spec k m) as [->|N]; cbn [t_get].
  - destruct (String.eqb_spec m n); reflexivity.
  - rewrite IH. destruct (String.eqb_spec k n) as [->|]; [|reflexivity]. destruct (String.eqb_spec m n) as [->|]; [contradiction|reflexivity].
Qed.
Lemma t_entry_set n m v d : t_entry n (t_set m v d) = if String.eqb m n then v else t_entry n d.
Proof. unfold t_entry. rewrite t_get_set. destruct (String.eqb m n); reflexivity. Qed.
Lemma t_set_keys m v d k : In k (map fst (t_set m v d)) -> k = m \/ In k (map fst d).
Proof. induction d as [|[j w] d IH]; cbn; [intros [->|[]]; auto|]. destruct (String.eqb_spec j m) as [->|N]; cbn; [intros [->|H]; auto|]. intros [->|H]; [auto|]. destruct (IH H); auto. Qed.
Lemma t_set_nodup m v d : NoDup (map fst d) -> NoDup (map fst (t_set m v d)).
Proof.
  induction d as [|[k w] d IH]; cbn; intros H; [constructor; [tauto|constructor]|]. apply NoDup_cons_iff in H as [H1 H2]. destruct (String.eqb_spec k m) as [->|N]; cbn; constructor; auto.
  intros I. apply t_set_keys in I as [I|I]; [congruence|contradiction].
Qed.
Lemma t_get_print n d : t_get n (snd (print_timings d)) = match t_get n d with Some t => Some (mk_timing (t_total t) (t_total t) (t_newest t) (t_count t) (t_init t)) | None => None end.
Proof. unfold print_timings. cbn [snd]. induction d as [|[k t] d IH]; cbn; [reflexivity|]. destruct (String.eqb k n); [reflexivity|exact IH]. Qed.
Lemma of_name_print n d : NoDup (map fst d) -> of_name n (fst (print_timings d)) = t_total (t_entry n d) - t_last_total (t_entry n d).
Proof.
  unfold print_timings, of_name, t_entry. cbn [fst]. induction d as [|[k t] d IH]; cbn [map filter fst snd t_get]; intros H; [cbn; lra|]. apply NoDup_cons_iff in H as [H1 H2]. destruct (String.eqb_spec k n) as [->|N]; [|now apply IH].
  cbn [map sum fold_right snd]. assert (Z : filter (fun p : string * R => String.eqb (fst p) n) (map (fun kt : string * timing => (fst kt, t_total (snd kt) - t_last_total (snd kt))) d) = []).
  { clear IH H2. induction d as [|[j u] d IH]; [reflexivity|]. cbn in *. destruct (String.eqb_spec j n) as [->|M]; [exfalso; apply H1; now left|]. apply IH. tauto. }
  unfold sum. rewrite Z. cbn. lra.
Qed.
Lemma timings_inv h name : well_timed h -> NoDup (map fst (after h)) /\ let t := t_entry name (after h) in
  t_total t = sum (measured name h) /\ t_count t = length (measured name h) /\ t_newest t = hd 0 (measured name h) /\ t_last_total t = printed name h
  /\ (forall c, started name h = Some c -> t_init t = c).
Proof.
  induction h as [|e h IH]; intros HW; [cbn; repeat split; try constructor; discriminate|].
  destruct e as [n c|n c|n x|].
  - cbn [after perform]. unfold start_timing. destruct (IH HW) as (ND & H1 & H2 & H3 & H4 & H5). split; [now apply t_set_nodup|]. cbv zeta. rewrite t_entry_set. cbn [measured started printed]. destruct (String.eqb_spec n name) as [->|N]; cbn [t_total t_count t_newest t_last_total t_init]; repeat split; auto. intros c' [= <-]. reflexivity.
  - destruct HW as [HS HW]. destruct (IH HW) as (ND & H1 & H2 & H3 & H4 & H5). cbn [after perform]. unfold stop_timing. split; [now apply t_set_nodup|]. cbv zeta. rewrite t_entry_set. cbn [measured started printed].
    destruct (String.eqb_spec n name) as [->|N]; [|auto]. destruct (started name h) as [c0|] eqn:Q; [|congruence]. cbn [t_total t_count t_newest t_last_total t_init app length hd]. rewrite (H5 c0 eq_refl). unfold sum in *. cbn [fold_right]. repeat split; [lra|congruence|exact H4|congruence].
  - destruct (IH HW) as (ND & H1 & H2 & H3 & H4 & H5). cbn [after perform]. unfold add_timing. split; [now apply t_set_nodup|]. cbv zeta. rewrite t_entry_set. cbn [measured started printed].
    destruct (String.eqb_spec n name) as [->|N]; [|auto]. cbn [t_total t_count t_newest t_last_total t_init length hd]. unfold sum in *. cbn [fold_right]. repeat split; [lra|congruence|exact H4|exact H5].
  - destruct (IH HW) as (ND & H1 & H2 & H3 & H4 & H5). cbn [after perform]. split.
    + unfold print_timings. cbn [snd]. rewrite map_map. exact ND.
    + cbv zeta. cbn [measured started printed]. rewrite of_name_print by exact ND. unfold t_entry in *. rewrite t_get_print. destruct (t_get name (after h)); cbn [t_total t_count t_newest t_last_total t_init] in *; repeat split; auto; try lra.
      cbn in *. lra.
Qed.
