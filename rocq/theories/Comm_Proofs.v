(** Proofs for C99. *)
From Coq Require Import String List Reals Lra Lia Bool Arith.
From Verif Require Import Base Output_Model Comm_Model Comm_Spec.
Import ListNotations.
Local Open Scope R_scope.
Local Open Scope string_scope.

Lemma total_app l r : total (l ++ r) = total l + total r.
Proof. unfold total. induction l as [|x l IH]; cbn [app fold_right]; lra. Qed.
Lemma seconds_app f l r : seconds f (l ++ r) = seconds f l + seconds f r.
Proof. unfold seconds. now rewrite flat_map_app, map_app, total_app. Qed.
Lemma entry_set n m v d : t_entry n (t_set m v d) = if String.eqb m n then v else t_entry n d.
Proof.
  unfold t_entry. induction d as [|[k w] d IH]; cbn; [destruct (String.eqb m n); reflexivity|].
  destruct (String.eqb_spec k m) as [->|D]; cbn.
  - destruct (String.eqb_spec m n); reflexivity.
  - destruct (String.eqb_spec k n) as [->|D']; [|exact IH]. destruct (String.eqb_spec m n) as [->|]; [congruence|reflexivity].
Qed.
Lemma entry_start n m c d : m <> n -> t_entry n (start_timing m c d) = t_entry n d.
Proof. intros H. unfold start_timing. rewrite entry_set. now apply String.eqb_neq in H as ->. Qed.
Lemma entry_stop n m c d : m <> n -> t_entry n (stop_timing m c d) = t_entry n d.
Proof. intros H. unfold stop_timing. rewrite entry_set. now apply String.eqb_neq in H as ->. Qed.
Lemma entry_add n m c d : m <> n -> t_entry n (add_timing m c d) = t_entry n d.
Proof. intros H. unfold add_timing. rewrite entry_set. now apply String.eqb_neq in H as ->. Qed.
Lemma entry_print n d : t_total (t_entry n (snd (print_timings d))) = t_total (t_entry n d)
  /\ t_newest (t_entry n (snd (print_timings d))) = t_newest (t_entry n d) /\ t_count (t_entry n (snd (print_timings d))) = t_count (t_entry n d).
Proof.
  unfold t_entry, print_timings. cbn. induction d as [|[k w] d IH]; cbn; [auto|]. destruct (String.eqb k n); [auto|exact IH].
Qed.

Lemma act_spec p a : clock (act p a) = clock p + lasts a /\ communicationTime (act p a) = communicationTime p + in_reductions a
  /\ managers (act p a) = managers p.
Proof.
  destruct a as [d|b l r|h b l r|w [[[h b] l] r] l' r'|s d|d]; cbn; repeat split; lra.
Qed.
Lemma acts_spec l p : clock (acts l p) = clock p + total (map lasts l)
  /\ communicationTime (acts l p) = communicationTime p + total (map in_reductions l) /\ managers (acts l p) = managers p.
Proof.
  unfold acts. revert p. induction l as [|a l IH]; intros p; cbn; [repeat split; lra|].
  destruct (IH (act p a)) as (-> & -> & ->). destruct (act_spec p a) as (-> & -> & ->). unfold total. repeat split; lra.
Qed.

(** entries of phases *)
Lemma phase_time outp name l p : clock (phase outp name l p) = clock p + total (map lasts l)
  /\ communicationTime (phase outp name l p) = communicationTime p + total (map in_reductions l).
Proof.
  unfold phase, stop, start, on_outp. destruct outp; cbn; destruct (acts_spec l (match Some 0%nat with _ => p end)) as (H1 & H2 & _).
  - destruct (acts_spec l {| clock := clock p; communicationTime := communicationTime p;
                             managers := fun j => if (j =? n)%nat then start_timing name (clock p) (managers p j) else managers p j |}) as (-> & -> & _).
    split; reflexivity.
  - split; [exact H1|exact H2].
Qed.
Lemma phase_other outp name l p n k : name <> n -> t_entry n (managers (phase outp name l p) k) = t_entry n (managers p k).
Proof.
  intros H. unfold phase, stop, start, on_outp. destruct outp as [j|]; cbn [managers clock communicationTime].
  - rewrite (proj2 (proj2 (acts_spec l _))). cbn [managers clock communicationTime]. destruct (k =? j)%nat; [|reflexivity]. now rewrite entry_stop, entry_start.
  - now rewrite (proj2 (proj2 (acts_spec l p))).
Qed.
Lemma phase_newest name l p k : t_newest (t_entry name (managers (phase (Some k) name l p) k)) = total (map lasts l).
Proof.
  unfold phase, stop, start, on_outp. cbn [managers clock communicationTime]. rewrite (proj2 (proj2 (acts_spec l _))). cbn [managers clock communicationTime]. rewrite Nat.eqb_refl.
  unfold stop_timing. rewrite entry_set, String.eqb_refl. cbn [t_newest]. rewrite (proj1 (acts_spec l _)). cbn.
  unfold start_timing. rewrite entry_set, String.eqb_refl. cbn [t_init]. lra.
Qed.

Definition before_report (eqn : string) (outp : option nat) (w : parts) (p : process) : process :=
  phase outp eqn (solving w) (acts (obs_grads w) (phase outp "compute gradients" (grads w)
    (acts (obs_eloc w) (phase outp "compute Eloc" (eloc w) (phase outp "sampling" (sampling w) p))))).
Lemma evaluate_form eqn outp w p : evaluate eqn outp w p = acts (later w) (report outp (before_report eqn outp w p)).
Proof. reflexivity. Qed.
Lemma eqn_other m : eqn_name m <> "MPI communication" /\ eqn_name m <> "sampling" /\ eqn_name m <> "compute Eloc" /\ eqn_name m <> "compute gradients".
Proof. destruct m; cbn; repeat split; discriminate. Qed.
Lemma before_time eqn outp w p : clock (before_report eqn outp w p) = clock p + total (map lasts (all_parts w))
  /\ communicationTime (before_report eqn outp w p) = communicationTime p + total (map in_reductions (all_parts w)).
Proof.
  unfold before_report, all_parts. rewrite !map_app, !total_app.
  rewrite (proj1 (phase_time _ _ _ _)), (proj2 (phase_time _ _ _ _)).
  rewrite (proj1 (acts_spec _ _)), (proj1 (proj2 (acts_spec _ _))).
  rewrite (proj1 (phase_time _ _ _ _)), (proj2 (phase_time _ _ _ _)).
  rewrite (proj1 (acts_spec _ _)), (proj1 (proj2 (acts_spec _ _))).
  rewrite !(proj1 (phase_time _ _ _ _)), !(proj2 (phase_time _ _ _ _)). split; lra.
Qed.
Lemma before_record m outp w p k : mpi_record (before_report (eqn_name m) outp w p) k = mpi_record p k.
Proof.
  unfold mpi_record, before_report. rewrite phase_other by apply eqn_other. rewrite (proj2 (proj2 (acts_spec _ _))).
  rewrite phase_other by discriminate. rewrite (proj2 (proj2 (acts_spec _ _))). now rewrite !phase_other by discriminate.
Qed.
Lemma report_clock outp p : clock (report outp p) = clock p.
Proof. destruct outp; reflexivity. Qed.
Lemma report_pending outp p : communicationTime (report outp p) = match outp with None => communicationTime p | Some _ => 0 end.
Proof. destruct outp; reflexivity. Qed.
Lemma evaluate_clock eqn outp w p : clock (evaluate eqn outp w p) = clock p + total (map lasts (all_parts w)) + total (map lasts (later w)).
Proof. rewrite evaluate_form, (proj1 (acts_spec _ _)), report_clock, (proj1 (before_time eqn outp w p)). reflexivity. Qed.
Lemma evaluate_pending eqn outp w p : communicationTime (evaluate eqn outp w p) =
  match outp with None => communicationTime p + total (map in_reductions (all_parts w)) | Some _ => 0 end + total (map in_reductions (later w)).
Proof. rewrite evaluate_form, (proj1 (proj2 (acts_spec _ _))), report_pending, (proj2 (before_time eqn outp w p)). reflexivity. Qed.
Lemma evaluate_record m outp w p k :
  let t := mpi_record (evaluate (eqn_name m) outp w p) k in
  match outp with
  | Some j => if (k =? j)%nat then t_total t = t_total (mpi_record p k) + (communicationTime p + total (map in_reductions (all_parts w)))
                                   /\ t_newest t = communicationTime p + total (map in_reductions (all_parts w)) /\ t_count t = S (t_count (mpi_record p k))
              else t = mpi_record p k
  | None => t = mpi_record p k
  end.
Proof.
  cbv zeta. rewrite evaluate_form. pose proof (before_record m outp w p k) as B. destruct (before_time (eqn_name m) outp w p) as [_ C].
  assert (A : forall x, mpi_record (acts (later w) x) k = mpi_record x k) by (intros x; unfold mpi_record; now rewrite (proj2 (proj2 (acts_spec (later w) x)))).
  rewrite !A.
  destruct outp as [j|]; [|exact B]. unfold report, get_communication_time, on_outp. unfold mpi_record in *. cbn [managers clock communicationTime]. destruct (k =? j)%nat; [|exact B].
  unfold add_timing. rewrite entry_set, String.eqb_refl. cbn [t_total t_newest t_count]. rewrite B, C. repeat split.
Qed.

(** the other entries *)
Lemma evaluate_other m k w p n : n <> "MPI communication" ->
  t_entry n (managers (evaluate (eqn_name m) (Some k) w p) k) = t_entry n (managers (before_report (eqn_name m) (Some k) w p) k).
Proof. intros H. rewrite evaluate_form, (proj2 (proj2 (acts_spec _ _))). unfold report, get_communication_time, on_outp. cbn [managers clock communicationTime]. rewrite Nat.eqb_refl. now apply entry_add, not_eq_sym. Qed.
Lemma evaluate_phases m k w p :
  let d := managers (evaluate (eqn_name m) (Some k) w p) k in
  t_newest (t_entry "sampling" d) = total (map lasts (sampling w)) /\ t_newest (t_entry "compute Eloc" d) = total (map lasts (eloc w))
  /\ t_newest (t_entry "compute gradients" d) = total (map lasts (grads w)) /\ t_newest (t_entry (eqn_name m) d) = total (map lasts (solving w)).
Proof.
  cbv zeta. destruct (eqn_other m) as (E1 & E2 & E3 & E4). rewrite !evaluate_other by (discriminate || exact E1). unfold before_report.
  repeat split.
  - rewrite phase_other by assumption. rewrite (proj2 (proj2 (acts_spec _ _))). rewrite phase_other by discriminate.
    rewrite (proj2 (proj2 (acts_spec _ _))). rewrite phase_other by discriminate. apply phase_newest.
  - rewrite phase_other by assumption. rewrite (proj2 (proj2 (acts_spec _ _))). rewrite phase_other by discriminate.
    rewrite (proj2 (proj2 (acts_spec _ _))). apply phase_newest.
  - rewrite phase_other by assumption. rewrite (proj2 (proj2 (acts_spec _ _))). apply phase_newest.
  - apply phase_newest.
Qed.

(** programs *)
Definition recorded (ks : list nat) (p : process) : R := total (map (fun k => t_total (mpi_record p k)) ks).
Definition covers (ks : list nat) (s : step) : Prop := forall k, reports_to k s = true -> In k ks.

Lemma recorded_ext ks p q : (forall k, In k ks -> t_total (mpi_record p k) = t_total (mpi_record q k)) -> recorded ks p = recorded ks q.
Proof. intros H. unfold recorded. f_equal. apply map_ext_in. exact H. Qed.
Lemma recorded_one ks p q j x : NoDup ks -> In j ks -> t_total (mpi_record q j) = t_total (mpi_record p j) + x ->
  (forall k, k <> j -> t_total (mpi_record q k) = t_total (mpi_record p k)) -> recorded ks q = recorded ks p + x.
Proof.
  intros ND Hj E O. induction ND as [|k ks N ND IH]; [destruct Hj|]. unfold recorded in *. cbn. destruct Hj as [->|Hj].
  - rewrite E. rewrite (map_ext_in _ (fun k => t_total (mpi_record p k)) ks); [unfold total; lra|]. intros k Hk. apply O. congruence.
  - rewrite (O k) by congruence. fold (total (map (fun k0 => t_total (mpi_record q k0)) ks)) (total (map (fun k0 => t_total (mpi_record p k0)) ks)).
    rewrite IH by exact Hj. lra.
Qed.
Lemma step_balance ks p s : NoDup ks -> covers ks s ->
  recorded ks (do_step p s) + communicationTime (do_step p s) = recorded ks p + communicationTime p + seconds in_reductions [s].
Proof.
  intros ND HC. unfold seconds. cbn [flat_map]. rewrite app_nil_r. destruct s as [a|m outp w|k]; cbn [do_step of_step].
  - destruct (act_spec p a) as (_ & -> & Hm). rewrite (recorded_ext ks _ p). { cbn. lra. } intros k _. unfold mpi_record. now rewrite Hm.
  - rewrite evaluate_pending, map_app, total_app. destruct outp as [j|].
    + rewrite (recorded_one ks p _ j (communicationTime p + total (map in_reductions (all_parts w))) ND).
      * lra.
      * apply HC. cbn. apply Nat.eqb_refl.
      * pose proof (evaluate_record m (Some j) w p j) as E. cbv beta iota zeta in E. rewrite Nat.eqb_refl in E. apply E.
      * intros k Hk. pose proof (evaluate_record m (Some j) w p k) as E. cbv beta iota zeta in E. apply Nat.eqb_neq in Hk. rewrite Hk in E. now rewrite E.
    + rewrite (recorded_ext ks _ p); [lra|]. intros k _. now rewrite (evaluate_record m None w p k).
  - cbn. rewrite (recorded_ext ks _ p); [lra|]. intros j _. unfold mpi_record. cbn. destruct (j =? k)%nat; [apply entry_print|reflexivity].
Qed.
Lemma run_app l r p : run_steps (l ++ r) p = run_steps r (run_steps l p).
Proof. apply fold_left_app. Qed.
Lemma run_balance ks l p : NoDup ks -> Forall (covers ks) l ->
  recorded ks (run_steps l p) + communicationTime (run_steps l p) = recorded ks p + communicationTime p + seconds in_reductions l.
Proof.
  intros ND. induction l as [|s l IH] using rev_ind; intros H; [unfold seconds; cbn; lra|].
  apply Forall_app in H as [H1 H2]. rewrite run_app, seconds_app. inversion H2 as [|? ? H3 _]; subst. cbn [run_steps fold_left].
  change (fold_left do_step [s] (run_steps l p)) with (do_step (run_steps l p) s). rewrite (step_balance ks _ s ND H3), IH by exact H1. lra.
Qed.

Lemma unreported_snoc l s : unreported (l ++ [s]) = match s with Evaluate _ (Some _) w => later w | _ => (unreported l ++ of_step s)%list end.
Proof.
  induction l as [|x l IH]; [cbn; destruct s as [a|m [k|] w|k]; now rewrite ?app_nil_r|]. cbn [app unreported]. rewrite existsb_app. cbn [existsb]. rewrite orb_false_r.
  rewrite IH. destruct s as [a|m [k|] w|k]; cbn [reports]; rewrite ?orb_true_r, ?orb_false_r; try reflexivity;
    (destruct (existsb reports l); [reflexivity|]; rewrite flat_map_app, app_assoc; f_equal; cbn [flat_map]; apply app_nil_r).
Qed.
Lemma pending l t : communicationTime (run_steps l (fresh t)) = total (map in_reductions (unreported l)).
Proof.
  induction l as [|s l IH] using rev_ind; [reflexivity|]. rewrite run_app, unreported_snoc.
  change (run_steps [s] (run_steps l (fresh t))) with (do_step (run_steps l (fresh t)) s).
  destruct s as [a|m outp w|k]; cbn [do_step of_step].
  - rewrite (proj1 (proj2 (act_spec _ a))), map_app, total_app, IH. cbn. lra.
  - rewrite evaluate_pending. destruct outp; [lra|]. rewrite !map_app, !total_app, IH. lra.
  - cbn [on_outp communicationTime]. rewrite app_nil_r. exact IH.
Qed.
Lemma counted l t k : t_count (mpi_record (run_steps l (fresh t)) k) = length (filter (reports_to k) l).
Proof.
  induction l as [|s l IH] using rev_ind; [reflexivity|]. rewrite run_app, filter_app, app_length, <- IH.
  change (run_steps [s] (run_steps l (fresh t))) with (do_step (run_steps l (fresh t)) s). set (q := run_steps l (fresh t)).
  destruct s as [a|m outp w|j]; cbn [do_step reports_to filter length].
  - unfold mpi_record. rewrite (proj2 (proj2 (act_spec q a))). lia.
  - pose proof (evaluate_record m outp w q k) as E. cbv beta iota zeta in E. destruct outp as [j|]; [|rewrite E; cbn; lia].
    rewrite Nat.eqb_sym. destruct (k =? j)%nat; [|rewrite E; cbn; lia]. destruct E as (_ & _ & E). rewrite E. cbn. lia.
  - unfold mpi_record, on_outp. cbn [managers]. destruct (k =? j)%nat; [|lia]. rewrite (proj2 (proj2 (entry_print _ _))). lia.
Qed.
Lemma newest_after l t k m w :
  t_newest (mpi_record (run_steps (l ++ [Evaluate m (Some k) w]) (fresh t)) k) = total (map in_reductions (unreported l ++ all_parts w)).
Proof.
  rewrite run_app. change (run_steps [Evaluate m (Some k) w] (run_steps l (fresh t))) with (evaluate (eqn_name m) (Some k) w (run_steps l (fresh t))).
  pose proof (evaluate_record m (Some k) w (run_steps l (fresh t)) k) as E. cbv beta iota zeta in E. rewrite Nat.eqb_refl in E. destruct E as (_ & E & _).
  rewrite E, pending, map_app, total_app. reflexivity.
Qed.
Lemma reductions_within a : takes_time a -> 0 <= in_reductions a <= lasts a.
Proof. destruct a as [d|b l r|h b l r|w [[[h b] l] r] l' r'|s d|d]; cbn; lra. Qed.
Lemma reductions_within_all l : Forall takes_time l -> 0 <= total (map in_reductions l) <= total (map lasts l).
Proof. induction 1 as [|a l H _ IH]; cbn; [lra|]. apply reductions_within in H. unfold total in IH. lra. Qed.
