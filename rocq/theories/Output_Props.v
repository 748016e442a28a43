(** Properties of the output manager: C57, C58, C59, C60, C69. *)
From Coq Require Import String Ascii ZArith List Reals Bool Lia Lra Arith.
From Verif Require Import Base Mpi_Model Output_Model Output_Spec Output_Proofs Output2_Proofs Output3_Proofs Output4_Proofs.
Import ListNotations.
Local Open Scope string_scope.
Local Open Scope list_scope.

Lemma wf_empty : well_formed empty_file.
Proof. split; [reflexivity|]. intros [|a p] r Hr; [reflexivity|]. cbn. congruence. Qed.
(** a manager of an empty file, currentGroup "/" *)
Definition start : state := mk_state empty_file "/" true.
Ltac lit := split; [discriminate|cbn; repeat split; discriminate].

(** * C57 *)

(** The value given by call k is in the row that is numbered by the earlier calls which give a value
    for the same key and name; the times have one row per call.  Partial: the group is fresh, the values
    have a fixed shape per name, names have no slash. *)
Theorem C57_order_partial sh cs s :
  well_formed (st_file s) -> st_file s (parse (st_group s)) = Some Group -> st_file s (parse (st_group s) ++ ["observables"]) = None ->
  Forall (legal sh) cs ->
  exists f', write_all cs s = (set_file s f', Ok tt)
    /\ (cs <> [] -> row_count f' (parse (st_group s) ++ ["observables"; "times"]) (length cs))
    /\ (forall k c, nth_error cs k = Some c -> row_is f' (parse (st_group s) ++ ["observables"; "times"]) k [] (fun _ => fst c))
    /\ (forall key name, (exists c, In c cs /\ mentions key name c = true) ->
          row_count f' (parse (st_group s) ++ ["observables"; key; name]) (length (filter (mentions key name) cs)))
    /\ (forall k c key name e, nth_error cs k = Some c -> contains c key name (Arr (sh key name) e) ->
          row_is f' (parse (st_group s) ++ ["observables"; key; name]) (length (filter (mentions key name) (firstn k cs))) (sh key name) e).
Proof. exact (order_all sh cs s). Qed.
Print Assumptions C57_order_partial.

(** An observable given in every call is aligned with the times. *)
Theorem C57_aligned_partial sh cs s key name :
  well_formed (st_file s) -> st_file s (parse (st_group s)) = Some Group -> st_file s (parse (st_group s) ++ ["observables"]) = None ->
  Forall (legal sh) cs -> cs <> [] -> (forall c, In c cs -> exists v, contains c key name v) ->
  exists f', write_all cs s = (set_file s f', Ok tt)
    /\ row_count f' (parse (st_group s) ++ ["observables"; "times"]) (length cs)
    /\ row_count f' (parse (st_group s) ++ ["observables"; key; name]) (length cs)
    /\ forall k c e, nth_error cs k = Some c -> contains c key name (Arr (sh key name) e) ->
         row_is f' (parse (st_group s) ++ ["observables"; "times"]) k [] (fun _ => fst c)
         /\ row_is f' (parse (st_group s) ++ ["observables"; key; name]) k (sh key name) e.
Proof.
  intros W H1 H2 HL NE HC. destruct (order_all sh cs s W H1 H2 HL) as (f' & E & T1 & T2 & P1 & P2). exists f'. split; [exact E|]. split; [now apply T1|].
  assert (ALL : forall l, (forall c, In c l -> In c cs) -> filter (mentions key name) l = l).
  { induction l as [|c l IH]; intros I; [reflexivity|]. cbn [filter]. rewrite (proj2 (mentions_spec c key name)) by (apply HC, I; now left). f_equal. apply IH. intros c' I'. apply I. now right. }
  split.
  - rewrite <- (ALL cs) at 1 by auto. apply P1. destruct cs as [|c cs]; [congruence|]. exists c. split; [now left|]. apply mentions_spec, HC. now left.
  - intros k c e Hk Hc. split; [now apply T2|]. specialize (P2 k c key name e Hk Hc). rewrite (ALL (firstn k cs)) in P2.
    + rewrite firstn_length_le in P2; [exact P2|]. assert (k < length cs) by (apply nth_error_Some; congruence). lia.
    + intros c' I. rewrite <- (firstn_skipn k cs). apply in_or_app. now left.
Qed.
Print Assumptions C57_aligned_partial.

Ltac nodup := repeat (apply NoDup_cons; [cbn; intros N; repeat (destruct N as [N|N]; [discriminate|]); exact N|]); apply NoDup_nil.
Ltac cases H := repeat (destruct H as [H|H]; [injection H; clear H; intros; subst|]); [..|destruct H].
Ltac legal_tac := split; [cbn; nodup|]; let H := fresh in intros ? ? H; cbn in H; cases H;
  (split; [lit|]; split; [discriminate|]; split; [cbn; nodup|]; let K := fresh in intros ? ? K; cbn in K; cases K; (split; [lit|eexists; reflexivity])).

(** two calls, the energy is given in both, a correlator in the second one only *)
Definition ex_sh (key name : string) : list nat := if String.eqb name "corr" then [3] else [].
Definition ex_calls : list obs_call :=
  [ (1%R, [("X", [("mean", Arr [] (fun _ => 5%R))])]);
    (2%R, [("X", [("mean", Arr [] (fun _ => 7%R)); ("corr", Arr [3] (fun _ => 9%R))])]) ].
Example C57_hyps : well_formed (st_file start) /\ st_file start (parse (st_group start)) = Some Group
  /\ st_file start (parse (st_group start) ++ ["observables"]) = None /\ Forall (legal ex_sh) ex_calls /\ ex_calls <> []
  /\ forall c, In c ex_calls -> exists v, contains c "X" "mean" v.
Proof.
  split; [exact wf_empty|]. split; [reflexivity|]. split; [reflexivity|]. split; [|split; [discriminate|]].
  - constructor; [legal_tac|]. constructor; [legal_tac|constructor].
  - intros c [<-|[<-|[]]]; eexists; eexists; split; try (now left); now left.
Qed.

(** Earlier rows never change, whatever the outcome of a call.  Partial: the values have the shape of the
    data set. *)
Theorem C57_append_only_partial sh time kwargs s s' r :
  st_append s = true -> uniform sh (st_file s) -> conforming sh (parse (st_group s)) (Observables time kwargs) ->
  write_observables 0 time kwargs s = (s', r) -> preserved (st_file s) (st_file s') /\ uniform sh (st_file s').
Proof.
  intros HA U HC E. destruct (history_kept sh 0 [Observables time kwargs] s HA (conj HC I) U) as [A B]. cbn [history execute] in A, B. rewrite E in A, B. auto.
Qed.
Print Assumptions C57_append_only_partial.
(** a call that fails half-way *)
Definition bad_call : list (string * list (string * value)) := [("X", [("mean", Arr [] (fun _ => 5%R)); ("variance", Bare)])].
Definition s_bad : state := fst (write_observables 0 1 bad_call start).
Example C57_append_only_hyps : st_append start = true /\ uniform (fun _ => []) (st_file start)
  /\ conforming (fun _ => []) (parse (st_group start)) (Observables 1 bad_call)
  /\ write_observables 0 1 bad_call start = (s_bad, Err AttributeError) /\ row_count (st_file s_bad) ["observables"; "X"; "mean"] 1.
Proof.
  split; [reflexivity|]. split; [intros [|? ?] d; discriminate|]. split.
  - split; [reflexivity|]. intros key d name v H K. cbn in H. cases H. cbn in K. cases K; exact I || reflexivity.
  - split; [reflexivity|]. eexists. split; reflexivity.
Qed.
Example C57_append_only_hyps_more : uniform (fun _ => []) (st_file s_bad)
  /\ conforming (fun _ => []) (parse (st_group s_bad)) (Observables 2 bad_call) /\ snd (write_observables 0 2 bad_call s_bad) = Err AttributeError.
Proof.
  split; [|split; [|reflexivity]].
  - apply (C57_append_only_partial (fun _ => []) 1 bad_call start s_bad (Err AttributeError)); apply C57_append_only_hyps.
  - split; [reflexivity|]. intros key d name v H K. cbn in H. cases H. cbn in K. cases K; exact I || reflexivity.
Qed.

(** Not every record is aligned: an observable that is first given in the second call is stored in row 0,
    next to the first time. *)
Theorem C57_late_refuted : exists sh cs s key name k c e f',
  well_formed (st_file s) /\ st_file s (parse (st_group s)) = Some Group /\ st_file s (parse (st_group s) ++ ["observables"]) = None
  /\ Forall (legal sh) cs /\ write_all cs s = (set_file s f', Ok tt) /\ nth_error cs k = Some c /\ contains c key name (Arr (sh key name) e)
  /\ k = 1 /\ row_is f' (parse (st_group s) ++ ["observables"; key; name]) 0 (sh key name) e
  /\ row_is f' (parse (st_group s) ++ ["observables"; "times"]) k [] (fun _ => fst c)
  /\ ~ row_is f' (parse (st_group s) ++ ["observables"; key; name]) k (sh key name) e.
Proof.
  destruct C57_hyps as (H1 & H2 & H3 & H4 & _ & _). destruct (order_all ex_sh ex_calls start H1 H2 H3 H4) as (f' & E & T1 & T2 & P1 & P2).
  assert (HC : contains (nth 1 ex_calls (0%R, [])) "X" "corr" (Arr (ex_sh "X" "corr") (fun _ => 9%R))) by (eexists; split; [now left|]; right; now left).
  exists ex_sh, ex_calls, start, "X", "corr", 1, (nth 1 ex_calls (0%R, [])), (fun _ => 9%R), f'. do 5 (split; [assumption|]). split; [reflexivity|]. split; [exact HC|]. split; [reflexivity|].
  split; [exact (P2 1 _ "X" "corr" _ eq_refl HC)|]. split; [exact (T2 1 _ eq_refl)|].
  intros (d & r & Q1 & _ & Q2 & _). destruct (P1 "X" "corr") as (d' & Q3 & Q4).
  { exists (nth 1 ex_calls (0%R, [])). split; [right; now left|reflexivity]. }
  rewrite Q1 in Q3. injection Q3 as <-. assert (L : 1 < length (d_rows d)) by (apply nth_error_Some; congruence). rewrite Q4 in L. cbn in L. lia.
Qed.
Print Assumptions C57_late_refuted.

Ltac row_tac := eexists; eexists; split; [vm_compute; reflexivity|]; split; [reflexivity|]; split; [reflexivity|]; intros; reflexivity.
(** Nor after a call that fails: the times have a row for it and the observable has none, so that the later
    values of the observable are next to the wrong times. *)
Definition mean_call (x : R) : list (string * list (string * value)) := [("X", [("mean", Arr [] (fun _ => x))])].
Theorem C57_failed_refuted : exists s1 s2 s3,
  write_observables 0 1 (mean_call 5) start = (s1, Ok tt)
  /\ write_observables 0 2 [("X", [("mean", Bare)])] s1 = (s2, Err AttributeError)
  /\ write_observables 0 3 (mean_call 7) s2 = (s3, Ok tt)
  /\ row_is (st_file s3) ["observables"; "X"; "mean"] 1 [] (fun _ => 7%R)
  /\ row_is (st_file s3) ["observables"; "times"] 1 [] (fun _ => 2%R)
  /\ row_count (st_file s3) ["observables"; "X"; "mean"] 2 /\ row_count (st_file s3) ["observables"; "times"] 3.
Proof.
  exists (fst (write_observables 0 1 (mean_call 5) start)).
  exists (fst (write_observables 0 2 [("X", [("mean", Bare)])] (fst (write_observables 0 1 (mean_call 5) start)))).
  exists (fst (write_observables 0 3 (mean_call 7) (fst (write_observables 0 2 [("X", [("mean", Bare)])] (fst (write_observables 0 1 (mean_call 5) start)))))).
  split; [vm_compute; reflexivity|]. split; [vm_compute; reflexivity|]. split; [vm_compute; reflexivity|]. split; [row_tac|]. split; [row_tac|]. split; (eexists; split; [vm_compute; reflexivity|reflexivity]).
Qed.
Print Assumptions C57_failed_refuted.

(** Earlier entries do change if a shorter array is written in between: resize cuts all rows.  All three
    calls succeed and the second entry of the first row is lost. *)
Definition array_call (l : list R) : list (string * list (string * value)) := [("X", [("mean", Arr [length l] (fun idx => nth (hd 0 idx) l 0%R))])].
Theorem C57_shrink_refuted : exists s1 s2 s3,
  write_observables 0 1 (array_call [4; 6]%R) start = (s1, Ok tt)
  /\ write_observables 0 2 (array_call [8]%R) s1 = (s2, Ok tt)
  /\ write_observables 0 3 (array_call [1; 2]%R) s2 = (s3, Ok tt)
  /\ row_is (st_file s1) ["observables"; "X"; "mean"] 0 [2] (fun idx => nth (hd 0 idx) [4; 6]%R 0%R)
  /\ row_is (st_file s3) ["observables"; "X"; "mean"] 0 [2] (fun idx => nth (hd 0 idx) [4; 0]%R 0%R).
Proof.
  set (s1 := fst (write_observables 0 1 (array_call [4; 6]%R) start)). set (s2 := fst (write_observables 0 2 (array_call [8]%R) s1)). set (s3 := fst (write_observables 0 3 (array_call [1; 2]%R) s2)).
  exists s1, s2, s3. split; [vm_compute; reflexivity|]. split; [vm_compute; reflexivity|]. split; [vm_compute; reflexivity|]. split.
  - row_tac.
  - eexists. eexists. split; [vm_compute; reflexivity|]. split; [reflexivity|]. split; [reflexivity|]. intros [|i [|j idx]] H; try discriminate.
    + destruct i as [|[|i]]; [reflexivity|reflexivity|]. cbn in H. discriminate.
    + cbn in H. rewrite andb_false_r in H. discriminate.
Qed.
Print Assumptions C57_shrink_refuted.

(** * C58 *)

(** Checkpoints written to a fresh group come back on every rank.  Partial: all have the same length, times
    asked for are not negative, at least one checkpoint. *)
Theorem C58_retrieve_partial n cs s ranks :
  well_formed (st_file s) -> st_file s (parse (st_group s)) = Some Group -> st_file s (parse (st_group s) ++ ["network_checkpoints"]) = None ->
  Forall (fun c => length (snd c) = n) cs -> cs <> [] -> 0 < ranks ->
  exists s', write_checkpoints cs s = (s', Ok tt)
    /\ run_checkpoint ranks s' (-1) (-1) = repeat (Ok (last cs (0%R, []))) ranks
    /\ (forall i c, nth_error cs i = Some c -> run_checkpoint ranks s' (-1) (Z.of_nat i) = repeat (Ok c) ranks)
    /\ (forall i c, nth_error cs i = Some c -> run_checkpoint ranks s' (-1) (Z.of_nat i - Z.of_nat (length cs)) = repeat (Ok c) ranks)
    /\ (forall t idx, (0 <= t)%R -> exists i c, nth_error cs i = Some c /\ run_checkpoint ranks s' t idx = repeat (Ok c) ranks
          /\ (forall c', In c' cs -> (Rabs (fst c - t) <= Rabs (fst c' - t))%R)
          /\ forall j c', j < i -> nth_error cs j = Some c' -> (Rabs (fst c - t) < Rabs (fst c' - t))%R).
Proof.
  intros W H1 H2 HL NE HR. assert (N0 : forall x, st_file s ((parse (st_group s) ++ ["network_checkpoints"]) ++ [x]) = None) by (intros; now apply wf_none).
  destruct (checkpoints_rows n cs HL s [] [] W H1 (or_introl H2)) as (f' & E & A & B); auto; try (now left; apply N0); try (apply rows_group; right; apply N0).
  cbn [app] in A, B. exists (set_file s f'). split; [exact E|]. destruct ranks as [|m]; [lia|].
  assert (NEG : forall X (a b : X), (if Rle_dec 0 (-1) then a else b) = b) by (intros; destruct (Rle_dec 0 (-1)); [lra|reflexivity]).
  assert (BACK : forall i c, nth_error cs i = Some c -> run_checkpoint (S m) (set_file s f') (-1) (Z.of_nat i - Z.of_nat (length cs)) = repeat (Ok c) (S m)).
  { intros i [t w] Hi. apply run_checkpoint_ok. apply (read_ok _ n cs _ _ i); auto; rewrite NEG; now right. }
  split; [|split; [|split; [exact BACK|]]].
  - destruct cs as [|c cs] using rev_ind; [congruence|]. clear IHcs. rewrite last_last. specialize (BACK (length cs) c). rewrite app_length in BACK. cbn [length] in BACK.
    replace (Z.of_nat (length cs) - Z.of_nat (length cs + 1))%Z with (-1)%Z in BACK by lia. apply BACK. rewrite nth_error_app2, Nat.sub_diag by lia. reflexivity.
  - intros i [t w] Hi. apply run_checkpoint_ok. apply (read_ok _ n cs _ _ i); auto; rewrite NEG; now left.
  - intros t idx Ht. set (l := map (fun x => Rabs (x - t)) (map fst cs)). destruct (argmin_spec l) as (k & x & K1 & K2 & K3 & K4); [unfold l; destruct cs; [congruence|discriminate]|].
    assert (KL : k < length cs). { unfold l in K2. rewrite map_map in K2. assert (X : k < length (map (fun x : R * list R => Rabs (fst x - t)) cs)) by (apply nth_error_Some; congruence). rewrite map_length in X. exact X. }
    destruct (nth_error cs k) as [c|] eqn:Hk; [|apply nth_error_None in Hk; lia]. unfold l in K2. rewrite map_map, (map_nth_error (fun c : R * list R => Rabs (fst c - t)) k cs Hk) in K2. injection K2 as <-.
    exists k, c. split; [exact Hk|]. split; [|split].
    + destruct c as [tc wc]. apply run_checkpoint_ok. apply (read_ok _ n cs _ _ k); auto. left. destruct (Rle_dec 0 t); [exact K1|contradiction].
    + intros c' I. apply K3. unfold l. rewrite map_map. apply (in_map (fun c : R * list R => Rabs (fst c - t))), I.
    + intros j c' Hj Hc. apply (K4 j); [exact Hj|]. unfold l. rewrite map_map. exact (map_nth_error (fun c : R * list R => Rabs (fst c - t)) j cs Hc).
Qed.
Print Assumptions C58_retrieve_partial.
Definition ex_checks : list (R * list R) := [(0, [1; 2]); (1, [3; 4])]%R.
Example C58_hyps : well_formed (st_file start) /\ st_file start (parse (st_group start)) = Some Group
  /\ st_file start (parse (st_group start) ++ ["network_checkpoints"]) = None /\ Forall (fun c => length (snd c) = 2) ex_checks /\ ex_checks <> [] /\ 0 < 3.
Proof. split; [exact wf_empty|]. split; [reflexivity|]. split; [reflexivity|]. split; [repeat constructor|]. split; [discriminate|lia]. Qed.

(** A negative time is taken for no time: the last checkpoint comes back, not the nearest. *)
Theorem C58_negative_time_refuted : exists cs s s' t c, write_checkpoints cs s = (s', Ok tt) /\ In c cs
  /\ run_checkpoint 1 s' t (-1) = [Ok c] /\ exists c', In c' cs /\ (Rabs (fst c' - t) < Rabs (fst c - t))%R.
Proof.
  set (cs := [(-2, [1]); (-1, [3])]%R : list (R * list R)).
  assert (HL : Forall (fun c : R * list R => length (snd c) = 1) cs) by repeat constructor.
  destruct (checkpoints_rows 1 cs HL start [] [] wf_empty eq_refl (or_introl eq_refl)) as (f' & E' & A & B); auto; try (now left); try discriminate.
  exists cs, start, (set_file start f'), (-2)%R, (-1, [3])%R. split; [exact E'|]. split; [right; now left|]. split.
  - apply (run_checkpoint_ok 0). apply (read_ok _ 1 cs _ _ 1); auto. destruct (Rle_dec 0 (-2)); [lra|]. now right.
  - exists (-2, [1])%R. split; [now left|]. cbn [fst]. replace (-2 - -2)%R with 0%R by lra. rewrite Rabs_R0. apply Rabs_pos_lt. lra.
Qed.
Print Assumptions C58_negative_time_refuted.

(** If rank 0 fails (here: there is no checkpoint), the other ranks wait forever. *)
Theorem C58_failing_refuted : exists s, run_checkpoint 2 s (-1) (-1) = [Err KeyError; Err Blocked].
Proof. exists start. unfold run_checkpoint, get_network_checkpoint. cbn [seq map Nat.eqb]. unfold read_checkpoint. reflexivity. Qed.
Print Assumptions C58_failing_refuted.

(** * C59 *)

(** After set_group(g), whatever the calls that write to the current group do, they only change what is at
    or below g; set_group itself only adds groups on the way to g. *)
Theorem C59_redirect_partial g s s' ops :
  g <> "/" -> st_append s = true -> well_formed (st_file s) -> set_group 0 g s = (s', Ok tt) -> Forall to_group ops ->
  (forall q, st_file s' q = st_file s q \/ (st_file s q = None /\ below q (parse g) /\ st_file s' q = Some Group))
  /\ forall q, ~ below (parse g) q -> st_file (history 0 ops s') q = st_file s' q.
Proof.
  intros HG HA W E HO. destruct (set_group_ok g s s' HG HA W E) as (G1 & _ & W' & N & C). split; [exact C|]. intros q Hq.
  destruct (history_confined (parse g) 0 ops HO s') as [_ CF]; [rewrite G1; apply parse_root|]. destruct (CF W' N) as (_ & _ & H). now apply H.
Qed.
Print Assumptions C59_redirect_partial.
Definition s_a : state := fst (set_group 0 "a" start).
Example C59_redirect_hyps : "a" <> "/" /\ st_append start = true /\ well_formed (st_file start) /\ set_group 0 "a" start = (s_a, Ok tt)
  /\ Forall to_group [Observables 1 (mean_call 5); Metadata 1 []; Checkpoint 1 Bare]
  /\ row_is (st_file (history 0 [Observables 1 (mean_call 5)] s_a)) ["a"; "observables"; "X"; "mean"] 0 [] (fun _ => 5%R).
Proof.
  split; [discriminate|]. split; [reflexivity|]. split; [exact wf_empty|]. split; [vm_compute; reflexivity|]. split; [repeat constructor|]. row_tac.
Qed.

(** ... and what is written arrives there: the first observables after set_group(g) of a new group are in g. *)
Theorem C59_arrives_partial sh g s s' cs :
  g <> "/" -> st_append s = true -> well_formed (st_file s) -> st_file s (parse g) = None -> set_group 0 g s = (s', Ok tt) -> Forall (legal sh) cs ->
  exists f', write_all cs s' = (set_file s' f', Ok tt)
    /\ (forall k c, nth_error cs k = Some c -> row_is f' (parse g ++ ["observables"; "times"]) k [] (fun _ => fst c))
    /\ (forall k c key name e, nth_error cs k = Some c -> contains c key name (Arr (sh key name) e) ->
          row_is f' (parse g ++ ["observables"; key; name]) (length (filter (mentions key name) (firstn k cs))) (sh key name) e).
Proof.
  intros HG HA W HN E HL. destruct (set_group_ok g s s' HG HA W E) as (G1 & _ & W' & N & C).
  assert (PG : parse (st_group s') = parse g) by (rewrite G1; apply parse_root).
  destruct (order_all sh cs s') as (f' & E' & _ & T & _ & P); [exact W'| | |exact HL|].
  - rewrite PG. destruct (C (parse g)) as [H|(_ & _ & H)]; [congruence|exact H].
  - rewrite PG. destruct (C (parse g ++ ["observables"])) as [H|(_ & H & _)].
    + rewrite H. now apply wf_none.
    + destruct H as [r H]. apply (f_equal (@length _)) in H. rewrite !app_length in H. cbn in H. lia.
  - rewrite PG in T, P. exists f'. auto.
Qed.
Print Assumptions C59_arrives_partial.
Example C59_arrives_hyps : "a" <> "/" /\ st_append start = true /\ well_formed (st_file start) /\ st_file start (parse "a") = None
  /\ set_group 0 "a" start = (s_a, Ok tt) /\ Forall (legal ex_sh) ex_calls.
Proof. split; [discriminate|]. split; [reflexivity|]. split; [exact wf_empty|]. split; [reflexivity|]. split; [vm_compute; reflexivity|apply C57_hyps]. Qed.

(** The same for metadata: names given in every call are aligned with the times. *)
Theorem C59_metadata_partial sh g s s' cs :
  g <> "/" -> st_append s = true -> well_formed (st_file s) -> st_file s (parse g) = None -> set_group 0 g s = (s', Ok tt) -> Forall (legal_metadata sh) cs ->
  exists f', write_all_metadata cs s' = (set_file s' f', Ok tt)
    /\ (forall k c, nth_error cs k = Some c -> row_is f' (parse g ++ ["metadata"; "times"]) k [] (fun _ => fst c))
    /\ (forall name, (forall c, In c cs -> exists v, In (name, v) (snd c)) -> forall k c e, nth_error cs k = Some c -> In (name, Arr (sh name) e) (snd c) ->
          row_is f' (parse g ++ ["metadata"; name]) k (sh name) e).
Proof.
  intros HG HA W HN E HL. destruct (set_group_ok g s s' HG HA W E) as (G1 & _ & W' & N & C).
  assert (PG : parse (st_group s') = parse g) by (rewrite G1; apply parse_root).
  destruct (metadata_all sh cs s') as (f' & E' & T & P); [exact W'| | |exact HL|].
  - rewrite PG. destruct (C (parse g)) as [H|(_ & _ & H)]; [congruence|exact H].
  - rewrite PG. destruct (C (parse g ++ ["metadata"])) as [H|(_ & H & _)].
    + rewrite H. now apply wf_none.
    + destruct H as [r H]. apply (f_equal (@length _)) in H. rewrite !app_length in H. cbn in H. lia.
  - rewrite PG in T, P. exists f'. auto.
Qed.
Print Assumptions C59_metadata_partial.
Definition ex_meta : list (R * list (string * value)) := [(1%R, [("snr", Arr [2] (fun _ => 3%R))]); (2%R, [("snr", Arr [2] (fun _ => 4%R))])].
Example C59_metadata_hyps : Forall (legal_metadata (fun _ => [2])) ex_meta /\ forall c, In c ex_meta -> exists v, In ("snr", v) (snd c).
Proof.
  split.
  - repeat apply Forall_cons; try apply Forall_nil; (split; [cbn; nodup|]; intros ? ? K; cbn in K; cases K; split; [lit|]; split; [discriminate|eexists; reflexivity]).
  - intros c [<-|[<-|[]]]; eexists; now left.
Qed.

(** Nothing written earlier is lost by any history of calls, failing ones included, once the file is in
    append mode.  Partial: arrays have the shape of their data set. *)
Theorem C59_kept_partial sh rank ops s :
  st_append s = true -> uniform sh (st_file s) -> conforming_history sh rank ops s -> preserved (st_file s) (st_file (history rank ops s)).
Proof. intros HA U HC. now apply (history_kept sh rank ops s HA HC). Qed.
Print Assumptions C59_kept_partial.
Definition ex_ops : list op := [Observables 1 (mean_call 5); SetGroup "a"; Observables 1 (mean_call 7); Observables 2 bad_call; ErrorData "x" [] (fun _ => 0%R) 0].
Example C59_kept_hyps : st_append start = true /\ uniform (fun _ => []) (st_file start) /\ conforming_history (fun _ => []) 0 ex_ops start
  /\ row_is (st_file (history 0 ex_ops start)) ["observables"; "X"; "mean"] 0 [] (fun _ => 5%R).
Proof.
  split; [reflexivity|]. split; [intros [|? ?] d; discriminate|]. split; [|row_tac].
  assert (CO : forall p t kw, (forall key d name v, In (key, d) kw -> In (name, v) d -> v = Bare \/ exists e, v = Arr [] e) -> conforming (fun _ => []) p (Observables t kw)).
  { intros p t kw H. split; [reflexivity|]. intros key d name v H1 H2. destruct (H key d name v H1 H2) as [-> |[e ->]]; exact I || reflexivity. }
  assert (CM : forall p t x, conforming (fun _ => []) p (Observables t (mean_call x))).
  { intros p t x. apply CO. intros key d name v H K. cbn in H. cases H. cbn in K. cases K. right. eexists. reflexivity. }
  assert (CB : forall p t, conforming (fun _ => []) p (Observables t bad_call)).
  { intros p t. apply CO. intros key d name v H K. cbn in H. cases H. cbn in K. cases K; [right; eexists; reflexivity|now left]. }
  unfold ex_ops. cbn [conforming_history]. split; [apply CM|]. split; [exact I|]. split; [apply CM|]. split; [apply CB|]. split; exact I.
Qed.

(** A manager made with append=True starts from everything that is in the file; without append the file is
    emptied. *)
Theorem C59_init f group append s' :
  well_formed f -> init 0 f group append = (s', Ok tt) ->
  st_append s' = true
  /\ (append = true -> forall p n, f p = Some n -> st_file s' p = Some n)
  /\ (append = false -> forall p, st_file s' p <> None -> st_file s' p = Some Group /\ (p = [] \/ below p (parse group))).
Proof.
  intros W. unfold init, set_group, on_root. cbn [Nat.eqb].
  set (s1 := if String.eqb group "/" then mk_state f "/" append else mk_state (st_file (mk_state f "/" append)) ("/" ++ group)%string (st_append (mk_state f "/" append))).
  assert (F1 : st_file s1 = f) by (unfold s1; destruct (String.eqb group "/"); reflexivity). assert (A1 : st_append s1 = append) by (unfold s1; destruct (String.eqb group "/"); reflexivity).
  assert (P1 : parse (st_group s1) = parse group). { unfold s1. destruct (String.eqb_spec group "/") as [->|N]; [reflexivity|]. cbn [st_group]. apply parse_root. }
  cbv beta zeta. rewrite A1. set (s2 := if append then s1 else set_file s1 empty_file).
  assert (G2 : st_group s2 = st_group s1) by (unfold s2; destruct append; reflexivity).
  assert (W2 : well_formed (st_file s2)) by (unfold s2; destruct append; [rewrite F1; exact W|exact wf_empty]).
  unfold bind_io, member. change (parse "/") with (@nil string). rewrite (proj1 W2). cbn [app]. rewrite G2, P1.
  assert (FIN : forall f', (forall q, f' q = st_file s2 q \/ (st_file s2 q = None /\ below q (parse group) /\ f' q = Some Group)) ->
     (append = true -> forall p n, f p = Some n -> f' p = Some n) /\ (append = false -> forall p, f' p <> None -> f' p = Some Group /\ (p = [] \/ below p (parse group)))).
  { intros f' H. split.
    - intros -> p n E. unfold s2 in H. rewrite F1 in H. destruct (H p) as [H'|(H' & _)]; congruence.
    - intros -> p E. unfold s2 in H. cbn [st_file set_file] in H. destruct (H p) as [H'|(_ & H1 & H2)]; [|auto]. rewrite H' in *. destruct p; cbn in *; [auto|congruence]. }
  destruct (st_file s2 (parse group)) eqn:E.
  - unfold ret. intros [= <-]. cbn [st_append st_file]. split; [reflexivity|]. apply FIN. auto.
  - destruct (create_cases (parse group) Group s2) as [E1|(E1 & L & f' & E2 & A & B & _)].
    + intros H. exfalso. revert H E1. unfold create. rewrite E. destruct (existsb _ _); [discriminate|]. intros _ H. apply (f_equal (fun s => st_file s (parse group))) in H. cbn in H. rewrite E in H. destruct (path_eqb_spec (parse group) (parse group)); [discriminate|contradiction].
    + destruct (create (parse group) Group s2) as [s3 [[]|x]]; cbn [fst] in *; [|discriminate]. intros [= <-]. subst s3. cbn [st_append st_file set_file]. split; [reflexivity|]. apply FIN.
      intros q. destruct (path_eqb_spec q (parse group)) as [->|N]; [right; split; [exact E|]; split; [apply below_refl|exact A]|]. apply B, N.
Qed.
Print Assumptions C59_init.
Example C59_init_hyps : exists f s', well_formed f /\ f ["observables"; "times"] <> None /\ init 0 f "b" true = (s', Ok tt)
  /\ exists s'', init 0 f "b" false = (s'', Ok tt) /\ st_file s'' ["observables"; "times"] = None.
Proof.
  exists (st_file s_bad), (fst (init 0 (st_file s_bad) "b" true)). split; [|split; [vm_compute; discriminate|split; [vm_compute; reflexivity|]]].
  - destruct (history_confined [] 0 [Observables 1 bad_call] ltac:(repeat constructor) start eq_refl) as [_ C]. now apply C; [exact wf_empty|].
  - exists (fst (init 0 (st_file s_bad) "b" false)). split; vm_compute; reflexivity.
Qed.

(** Other ranks leave the file alone. *)
Theorem C59_other_ranks rank o s : rank <> 0 -> to_group o -> execute rank o s = (s, Ok tt).
Proof. apply other_ranks. Qed.
Print Assumptions C59_other_ranks.
Example C59_other_ranks_hyps : 3 <> 0 /\ to_group (Metadata 1 []).
Proof. split; [discriminate|exact I]. Qed.

(** set_group("/") does not return to the root: later output still goes to the group chosen before. *)
Theorem C59_root_refuted : exists s1 s2 s3,
  set_group 0 "a" start = (s1, Ok tt) /\ set_group 0 "/" s1 = (s2, Ok tt) /\ write_observables 0 1 (mean_call 5) s2 = (s3, Ok tt)
  /\ row_is (st_file s3) ["a"; "observables"; "X"; "mean"] 0 [] (fun _ => 5%R) /\ st_file s3 ["observables"] = None.
Proof.
  exists s_a, (fst (set_group 0 "/" s_a)), (fst (write_observables 0 1 (mean_call 5) (fst (set_group 0 "/" s_a)))).
  split; [vm_compute; reflexivity|]. split; [vm_compute; reflexivity|]. split; [vm_compute; reflexivity|]. split; [row_tac|vm_compute; reflexivity].
Qed.
Print Assumptions C59_root_refuted.

(** * C60 *)

(** Totals, counts, newest measurement, printed numbers.  Partial: every stop comes after a start. *)
Theorem C60_totals_partial h name : well_timed h ->
  let t := t_entry name (after h) in
  t_total t = sum (measured name h) /\ t_count t = length (measured name h) /\ t_newest t = hd 0%R (measured name h)
  /\ (printed name h + of_name name (fst (print_timings (after h))))%R = sum (measured name h).
Proof.
  intros HW. destruct (timings_inv h name HW) as (ND & H1 & H2 & H3 & H4 & _). cbv zeta. split; [exact H1|]. split; [exact H2|]. split; [exact H3|]. rewrite of_name_print by exact ND. rewrite H4, H1. lra.
Qed.
Print Assumptions C60_totals_partial.
(** latest event first *)
Example C60_totals_hyps : well_timed [Stop "a" 9; Print; Add "b" 1; Stop "a" 4; Start "a" 3; Start "b" 2]%R
  /\ measured "a" [Stop "a" 9; Print; Add "b" 1; Stop "a" 4; Start "a" 3; Start "b" 2]%R = [9 - 3; 4 - 3]%R.
Proof. split; [cbn; repeat split; discriminate|reflexivity]. Qed.

(** A stop without start records the reading of the clock. *)
Theorem C60_unstarted_refuted : exists name, forall clock, t_total (t_entry name (after [Stop name clock])) = clock /\ t_count (t_entry name (after [Stop name clock])) = 1
  /\ measured name [Stop name clock] = [].
Proof. exists "a". intros c. cbn. repeat split. lra. Qed.
Print Assumptions C60_unstarted_refuted.

(** * C69 *)

(** write_error_data on the rank asked for stores the array below /error_data, whatever the current group,
    and changes nothing else. *)
Theorem C69_stored name shape data rank s : simple name -> well_formed (st_file s) ->
  (st_file s ["error_data"] = None \/ st_file s ["error_data"] = Some Group) -> st_file s ["error_data"; name] = None ->
  exists f', write_error_data rank name shape data rank s = (set_file s f', Ok tt) /\ f' ["error_data"; name] = Some (Fixed shape data)
    /\ forall q, q <> ["error_data"] -> q <> ["error_data"; name] -> f' q = st_file s q.
Proof.
  intros HS W HE HN. unfold write_error_data. rewrite Nat.eqb_refl. unfold bind_io.
  destruct (ensure_group_ok s "/" "error_data" W) as (f1 & E1 & A1 & B1 & W1); [lit|apply W|exact HE|]. rewrite E1. change (parse "/" ++ ["error_data"]) with ["error_data"] in *.
  replace (parse ("/" ++ "error_data" ++ "/" ++ name)%string) with (["error_data"] ++ [name]).
  2:{ change ("/" ++ "error_data" ++ "/" ++ name)%string with ("/error_data" ++ "/" ++ name)%string. rewrite parse_slash, (parse_simple name HS). reflexivity. }
  destruct (create_below (set_file s f1) ["error_data"] name (Fixed shape data) W1 A1) as (f2 & E2 & A2 & B2 & W2).
  - cbn [st_file set_file app]. rewrite B1 by discriminate. exact HN.
  - exists f2. rewrite E2. split; [reflexivity|]. split; [exact A2|]. intros q Q1 Q2. rewrite B2 by exact Q2. now apply B1.
Qed.
Print Assumptions C69_stored.
Example C69_stored_hyps : simple "nan" /\ well_formed (st_file start) /\ (st_file start ["error_data"] = None \/ st_file start ["error_data"] = Some Group) /\ st_file start ["error_data"; "nan"] = None.
Proof. split; [lit|]. split; [exact wf_empty|]. split; [now left|reflexivity]. Qed.

(** write_dataset: the array is stored below the group that is named, or in the root group. *)
Theorem C69_dataset name group shape data rank s : simple name -> simple group -> well_formed (st_file s) ->
  (st_file s [group] = None \/ st_file s [group] = Some Group) -> st_file s [group; name] = None ->
  exists f', write_dataset rank name shape data group rank s = (set_file s f', Ok tt) /\ f' [group; name] = Some (Fixed shape data)
    /\ forall q, q <> [group] -> q <> [group; name] -> f' q = st_file s q.
Proof.
  intros HS HG W HE HN. unfold write_dataset. rewrite Nat.eqb_refl. unfold bind_io.
  assert (NS : String.eqb group "/" = false). { destruct (String.eqb_spec group "/") as [->|]; [|reflexivity]. destruct HG as [_ [H _]]. congruence. }
  rewrite NS. destruct (ensure_group_ok s "/" group W HG) as (f1 & E1 & A1 & B1 & W1); [apply W|exact HE|]. rewrite E1. change (parse "/" ++ [group]) with [group] in *.
  replace (parse ("/" ++ group ++ "/" ++ name)%string) with ([group] ++ [name]) by (rewrite parse_root, parse_slash, (parse_simple name HS), (parse_simple group HG); reflexivity).
  destruct (create_below (set_file s f1) [group] name (Fixed shape data) W1 A1) as (f2 & E2 & A2 & B2 & W2).
  - cbn [st_file set_file app]. rewrite B1 by discriminate. exact HN.
  - exists f2. rewrite E2. split; [reflexivity|]. split; [exact A2|]. intros q Q1 Q2. rewrite B2 by exact Q2. now apply B1.
Qed.
Print Assumptions C69_dataset.
Example C69_dataset_hyps : simple "x" /\ simple "g" /\ well_formed (st_file start) /\ (st_file start ["g"] = None \/ st_file start ["g"] = Some Group) /\ st_file start ["g"; "x"] = None.
Proof. split; [lit|]. split; [lit|]. split; [exact wf_empty|]. split; [now left|reflexivity]. Qed.
Theorem C69_dataset_root name shape data rank s : simple name -> well_formed (st_file s) -> st_file s [name] = None ->
  exists f', write_dataset rank name shape data "/" rank s = (set_file s f', Ok tt) /\ f' [name] = Some (Fixed shape data) /\ forall q, q <> [name] -> f' q = st_file s q.
Proof.
  intros HS W HN. unfold write_dataset. rewrite Nat.eqb_refl. cbn [String.eqb Ascii.eqb Bool.eqb]. unfold bind_io, ret.
  replace (parse ("/" ++ "/" ++ "/" ++ name)%string) with ([] ++ [name]) by (rewrite !parse_root, (parse_simple name HS); reflexivity).
  destruct (create_below s [] name (Fixed shape data) W (proj1 W) HN) as (f2 & E2 & A2 & B2 & W2). exists f2. rewrite E2. auto.
Qed.
Print Assumptions C69_dataset_root.
Example C69_dataset_root_hyps : simple "x" /\ well_formed (st_file start) /\ st_file start ["x"] = None.
Proof. split; [lit|]. split; [exact wf_empty|reflexivity]. Qed.

(** What is stored there stays as it is under every history of calls; the attempt to use the name again
    raises and changes nothing. *)
Theorem C69_final rank ops s p shape data : st_append s = true -> st_file s p = Some (Fixed shape data) -> st_file (history rank ops s) p = Some (Fixed shape data).
Proof. intros HA H. apply (history_solid rank ops s HA p _ H). discriminate. Qed.
Print Assumptions C69_final.
Definition s_err : state := fst (write_error_data 0 "nan" [] (fun _ => 1%R) 0 start).
Example C69_final_hyps : st_append s_err = true /\ st_file s_err ["error_data"; "nan"] = Some (Fixed [] (fun _ => 1%R)).
Proof. split; vm_compute; reflexivity. Qed.
Theorem C69_twice name shape data rank s : simple name -> well_formed (st_file s) -> st_file s ["error_data"; name] <> None ->
  write_error_data rank name shape data rank s = (s, Err ValueError).
Proof.
  intros HS W HN. unfold write_error_data. rewrite Nat.eqb_refl. unfold bind_io, ensure_group, bind_io, member. change (parse "/") with (@nil string). rewrite (proj1 W). cbn [app]. change (parse "error_data") with ["error_data"].
  assert (G1 : st_file s ["error_data"] = Some Group) by (apply (proj2 W ["error_data"] [name]); [discriminate|exact HN]). rewrite G1. unfold ret.
  replace (parse ("/" ++ "error_data" ++ "/" ++ name)%string) with (["error_data"] ++ [name]).
  2:{ change ("/" ++ "error_data" ++ "/" ++ name)%string with ("/error_data" ++ "/" ++ name)%string. rewrite parse_slash, (parse_simple name HS). reflexivity. }
  unfold create. cbn [app]. destruct (st_file s ["error_data"; name]); [reflexivity|congruence].
Qed.
Print Assumptions C69_twice.
Example C69_twice_hyps : simple "nan" /\ well_formed (st_file s_err) /\ st_file s_err ["error_data"; "nan"] <> None.
Proof.
  split; [lit|]. split; [|vm_compute; discriminate]. unfold s_err, write_error_data. cbn [Nat.eqb]. unfold bind_io.
  destruct (ensure_group_ok start "/" "error_data" wf_empty) as (f1 & E1 & _ & _ & W1); [lit|reflexivity|now left|]. rewrite E1. apply create_wf. exact W1.
Qed.
(** other ranks do nothing *)
Theorem C69_other_ranks name shape data rank mpiRank s : rank <> mpiRank -> write_error_data rank name shape data mpiRank s = (s, Ok tt).
Proof. intros H. unfold write_error_data. destruct (Nat.eqb_spec rank mpiRank); [contradiction|reflexivity]. Qed.
Print Assumptions C69_other_ranks.
Example C69_other_ranks_hyps : 1 <> 0. Proof. discriminate. Qed.
