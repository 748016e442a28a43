From Coq Require Import ZArith List Reals Lra Lia Bool Arith.
From Verif Require Import Base Cplx Mpi_Model BranchFree_Model BranchFree_Spec.
Import ListNotations.

(** ** list facts *)
Lemma scatter1_put i v s : i < length s -> scatter1 s i v = put i v s.
Proof.
  unfold put. revert i. induction s as [|a s IH]; intros [|i] H; cbn in *; try lia; [reflexivity|].
  rewrite IH by lia. reflexivity.
Qed.
Lemma gather1_nth {B} (d : B) l i : i < length l -> gather1 d l i = nth i l d.
Proof. intros H. unfold gather1. now rewrite Nat.min_l by lia. Qed.
Lemma put_length i v s : i < length s -> length (put i v s) = length s.
Proof.
  intros H. unfold put. rewrite app_length. cbn [length]. rewrite firstn_length, skipn_length. lia.
Qed.
Lemma put_in i v s x : In x (put i v s) -> x = v \/ In x s.
Proof.
  unfold put. intros H. apply in_app_or in H as [H|[H|H]].
  - right. rewrite <- (firstn_skipn i s). apply in_or_app. now left.
  - now left.
  - right. rewrite <- (firstn_skipn (S i) s). apply in_or_app. now right.
Qed.
Lemma put_S i v a s : put (S i) v (a :: s) = a :: put i v s.
Proof. reflexivity. Qed.
Lemma nth_put_same i v s d : i < length s -> nth i (put i v s) d = v.
Proof.
  unfold put. revert i. induction s as [|a s IH]; intros [|i] H; cbn in *; try lia; try reflexivity. apply IH. lia.
Qed.
Lemma nth_put_other i j v s d : i <> j -> i < length s -> nth j (put i v s) d = nth j s d.
Proof.
  unfold put. revert i j. induction s as [|a s IH]; intros [|i] [|j] H Hi; cbn in *; try lia; try reflexivity. apply IH; lia.
Qed.
Lemma put_nth_same i s : i < length s -> put i (nth i s 0) s = s.
Proof.
  unfold put. revert i. induction s as [|a s IH]; intros [|i] H; cbn in *; try lia; [reflexivity|]. f_equal. apply IH. lia.
Qed.
Lemma put_put_same i v w s : i < length s -> put i v (put i w s) = put i v s.
Proof.
  revert i. induction s as [|a s IH]; intros [|i] H; cbn [length] in *; try lia; [reflexivity|].
  rewrite !put_S. f_equal. apply IH. lia.
Qed.
Lemma put_put_comm i j v w s : i <> j -> i < length s -> j < length s -> put i v (put j w s) = put j w (put i v s).
Proof.
  revert i j. induction s as [|a s IH]; intros [|i] [|j] H Hi Hj; cbn [length] in *; try lia; try reflexivity.
  rewrite !put_S. f_equal. apply IH; lia.
Qed.
Lemma nth_wf lDim n s i : wf_config lDim n s -> i < n -> nth i s 0 < lDim.
Proof. intros (H & _ & HA) Hi. apply HA. apply nth_In. lia. Qed.

Lemma put_wf lDim n s i v : wf_config lDim n s -> i < n -> v < lDim -> wf_config lDim n (put i v s).
Proof.
  intros (H & Hn & HA) Hi Hv. split; [|split]; [rewrite put_length; lia|assumption|].
  intros x Hx. apply put_in in Hx as [->|Hx]; auto.
Qed.

(** ** the sign factor *)
Lemma zprod_ones {B} (l : list B) (f : B -> Z) : (forall x, In x l -> f x = 1%Z) -> big 1%Z Z.mul (map f l) = 1%Z.
Proof.
  induction l as [|a l IH]; intros H; [reflexivity|]. cbn. unfold big in IH. rewrite IH by (intros; apply H; now right).
  rewrite H by now left. reflexivity.
Qed.

Lemma sgnZ_even n : RtoC (IZR (if Nat.even n then 1 else -1)) = sgn n.
Proof. unfold sgn. destruct (Nat.even n); [reflexivity|]. unfold RtoC, Copp, C1. cbn. apply C_eq; cbn; lra. Qed.

Definition fsign (m : Z) (x : nat) : Z := ((1 - 2 * 1) * (2 * 1 * m + (1 - 2 * 1)) * Z.of_nat x + (1 - Z.abs (Z.of_nat x)))%Z.

Lemma fermi_prod_all l : (forall x, In x l -> x < 2) ->
  big 1%Z Z.mul (map (fun ab => fsign (fst ab) (snd ab)) (combine (map (fun _ => 1%Z) l) l)) = (if Nat.even (nsum l) then 1 else -1)%Z.
Proof.
  induction l as [|a l IH]; intros H; [reflexivity|]. cbn [map combine]. cbn [big fold_right]. 
  change (fold_right Z.mul 1%Z) with (big 1%Z Z.mul). rewrite IH by (intros; apply H; now right).
  rewrite nsum_cons. assert (Ha : a < 2) by (apply H; now left). cbn [fst snd].
  rewrite Nat.even_add. destruct a as [|[|a]]; [| |lia]; unfold fsign; cbn -[Nat.even]; destruct (Nat.even (nsum l)); reflexivity.
Qed.

Lemma mask_row_S d i : i < d -> mask_row (S d) (S i) = 0%Z :: mask_row d i.
Proof.
  intros H. unfold mask_row. cbn [seq map]. f_equal.
  rewrite <- seq_shift, map_map. apply map_ext_in. intros j _.
  replace (Nat.min (S i) (S d - 1)) with (S i) by lia. replace (Nat.min i (d - 1)) with i by lia. reflexivity.
Qed.
Lemma mask_row_0 d : 0 < d -> mask_row d 0 = 0%Z :: map (fun _ => 1%Z) (seq 1 (d - 1)).
Proof.
  intros H. unfold mask_row. destruct d; [lia|]. cbn [seq map]. f_equal. replace (S d - 1) with d by lia.
  apply map_ext_in. intros j Hj. apply in_seq in Hj. rewrite Nat.min_0_l. destruct (Nat.ltb_spec 0 j); [reflexivity|lia].
Qed.
Lemma mask_row_length d i : length (mask_row d i) = d.
Proof. unfold mask_row. now rewrite map_length, seq_length. Qed.

Lemma fermi_prod i s : i < length s -> (forall x, In x s -> x < 2) ->
  big 1%Z Z.mul (map (fun ab => fsign (fst ab) (snd ab)) (combine (mask_row (length s) i) s))
  = (if Nat.even (occ_right i s) then 1 else -1)%Z.
Proof.
  revert i. induction s as [|a s IH]; intros i Hi H; cbn [length] in *; [lia|].
  assert (Ha : a < 2) by (apply H; now left).
  assert (F0 : fsign 0 a = 1%Z) by (destruct a as [|[|a]]; [reflexivity|reflexivity|lia]).
  destruct i as [|i].
  - rewrite mask_row_0 by lia. replace (S (length s) - 1) with (length s) by lia.
    cbn [combine map]. cbn [big fold_right]. change (fold_right Z.mul 1%Z) with (big 1%Z Z.mul). cbn [fst snd]. rewrite F0.
    unfold occ_right. cbn [skipn].
    rewrite <- (fermi_prod_all s) by (intros; apply H; now right).
    rewrite Z.mul_1_l. do 3 f_equal. clear. generalize 1 as k. induction s as [|a s IH]; intros k; [reflexivity|]. cbn. now rewrite IH.
  - rewrite mask_row_S by lia. cbn [combine map]. cbn [big fold_right]. change (fold_right Z.mul 1%Z) with (big 1%Z Z.mul).
    cbn [fst snd]. rewrite F0, IH by (lia || (intros; apply H; now right)). rewrite Z.mul_1_l. reflexivity.
Qed.

Lemma sign_factor_1 lDim n i s : wf_config lDim n s -> exists z, sign_factor 1 false i s = Ok z /\ RtoC (IZR z) = C1.
Proof.
  intros (HL & Hn & HA). unfold sign_factor, broadcast2. rewrite mask_row_length.
  assert (G : forall m x, ((1 - 2 * 0) * (2 * 0 * m + (1 - 2 * 0)) * Z.of_nat x + (1 - Z.abs (Z.of_nat x)))%Z = 1%Z) by lia.
  destruct (Nat.eqb_spec 1 (length s)) as [E|E].
  - eexists. split; [reflexivity|]. rewrite zprod_ones; [reflexivity|]. intros [m x] _. apply G.
  - unfold mask_row. cbn [seq map bind]. eexists. split; [reflexivity|]. rewrite zprod_ones; [reflexivity|]. intros x _. apply G.
Qed.

(** last dimension of the sample shape: the number of sites, or 1 and no fermions *)
Definition dim_ok (d n : nat) (ops : list localop) : Prop := d = n \/ (d = 1 /\ Forall (fun o => lo_fermi o = false) ops).

Lemma dim_ok_cons d n o ops : dim_ok d n (o :: ops) -> (d = n \/ (d = 1 /\ lo_fermi o = false)) /\ dim_ok d n ops.
Proof. intros [->|[-> H]]; [split; left; reflexivity|]. inversion H; subst. split; right; auto. Qed.

Lemma sign_factor_ok lDim n d fermi i s : wf_config lDim n s -> i < n -> (fermi = true -> lDim = 2) -> (d = n \/ (d = 1 /\ fermi = false)) ->
  exists z, sign_factor d fermi i s = Ok z /\ RtoC (IZR z) = if fermi then sgn (occ_right i s) else C1.
Proof.
  intros HS Hi Hf [->|[-> ->]]; [|eapply sign_factor_1; eassumption]. destruct HS as (HL & Hn & HA). unfold sign_factor, broadcast2. rewrite mask_row_length, HL, Nat.eqb_refl. cbn [bind].
  destruct fermi.
  - rewrite (Hf eq_refl) in HA. eexists. split; [reflexivity|]. rewrite <- HL.
    transitivity (RtoC (IZR (if Nat.even (occ_right i s) then 1 else -1))); [|apply sgnZ_even].
    apply (f_equal (fun z => RtoC (IZR z))). apply fermi_prod; [lia|assumption].
  - eexists. split; [reflexivity|]. rewrite zprod_ones; [reflexivity|]. intros [m x] _. cbn [fst snd]. lia.
Qed.

(** ** apply_fun is act1 *)
Lemma apply_fun_ok lDim n d o s m : wf_op lDim n o -> wf_config lDim n s -> (d = n \/ (d = 1 /\ lo_fermi o = false)) ->
  apply_fun d (s, m) o = Ok (fst (act1 o s), (m * snd (act1 o s))%C) /\ wf_config lDim n (fst (act1 o s)).
Proof.
  intros (Hi & Hm & He & HM & Hf & Hd) Hs Hdim. pose proof (nth_wf _ _ _ _ Hs Hi) as Hx. destruct Hs as (HL & Hn & HA).
  assert (Hs : wf_config lDim n s) by (repeat split; assumption).
  unfold apply_fun. destruct (sign_factor_ok lDim n d (lo_fermi o) (lo_idx o) s Hs Hi Hf Hdim) as (z & -> & Ez). cbn [bind].
  rewrite (gather1_nth 0 s) by lia. rewrite !gather1_nth by lia. rewrite scatter1_put by lia. rewrite Ez. split.
  - cbn [act1 fst snd]. do 2 f_equal. ring.
  - cbn [act1 fst]. apply put_wf; auto. apply HM. apply nth_In. lia.
Qed.

Lemma apply_multi_app d cm a b :
  apply_multi d cm (a ++ b) = do cm' <- apply_multi d cm a; apply_multi d cm' b.
Proof.
  revert cm. induction a as [|o a IH]; intros cm; [reflexivity|]. cbn [app apply_multi].
  destruct (apply_fun d cm o); cbn [bind]; [apply IH|reflexivity].
Qed.

Lemma act_ok lDim n d ops s m : Forall (wf_op lDim n) ops -> wf_config lDim n s -> dim_ok d n ops ->
  apply_multi d (s, m) (rev ops) = Ok (fst (act ops s), (m * snd (act ops s))%C) /\ wf_config lDim n (fst (act ops s)).
Proof.
  intros H. revert m. induction H as [|o ops Ho Hops IH]; intros m Hs Hdim.
  - cbn. split; [|assumption]. do 2 f_equal. ring.
  - cbn [rev]. rewrite apply_multi_app. apply dim_ok_cons in Hdim as [Hd1 Hd2]. destruct (IH m Hs Hd2) as [-> Hw]. cbn [bind apply_multi].
    destruct (apply_fun_ok lDim n d o (fst (act ops s)) (m * snd (act ops s))%C Ho Hw Hd1) as [-> Hw2].
    cbn [bind act]. destruct (act ops s) as [s1 c1]. cbn [fst snd] in *. destruct (act1 o s1) as [s2 c2]. cbn [fst snd] in *.
    split; [|assumption]. do 2 f_equal. ring.
Qed.

Lemma wf_Id lDim n i : i < n -> wf_op lDim n (Id i lDim).
Proof.
  intros H. repeat split; cbn; auto.
  - apply seq_length.
  - rewrite map_length. apply seq_length.
  - intros x Hx. apply in_seq in Hx. lia.
  - discriminate.
Qed.

Lemma act1_Id lDim n i s : i < n -> wf_config lDim n s -> act1 (Id i lDim) s = (s, C1).
Proof.
  intros Hi Hs. pose proof (nth_wf _ _ _ _ Hs Hi) as Hx. destruct Hs as (HL & Hn & HA). unfold act1. cbn [Id lo_idx lo_map lo_els lo_fermi].
  rewrite seq_nth by assumption. cbn [plus]. rewrite put_nth_same by lia. f_equal.
  rewrite (nth_indep _ C0 C1) by (rewrite map_length, seq_length; lia).
  rewrite (map_nth (fun _ => C1) _ 0). ring.
Qed.

Lemma apply_ids lDim n d k s m : 0 < n -> wf_config lDim n s -> d = n \/ d = 1 ->
  apply_multi d (s, m) (repeat (Id 0 lDim) k) = Ok (s, m).
Proof.
  intros Hn Hs Hdim. revert m. induction k as [|k IH]; intros m; [reflexivity|]. cbn [repeat apply_multi].
  destruct (apply_fun_ok lDim n d (Id 0 lDim) s m (wf_Id lDim n 0 Hn) Hs) as [-> _]; [destruct Hdim; [left|right]; auto|]. cbn [bind].
  rewrite (act1_Id lDim n) by assumption. cbn [fst snd]. rewrite IH. do 2 f_equal. ring.
Qed.

(** ** rows *)
Lemma mapM_ok_map {X Y} (f : X -> result Y) (g : X -> Y) l :
  (forall x, In x l -> f x = Ok (g x)) -> mapM f l = Ok (map g l).
Proof.
  induction l as [|a l IH]; intros H; [reflexivity|]. cbn. rewrite H by now left. cbn. rewrite IH by (intros; apply H; now right).
  reflexivity.
Qed.

Section Compile.
Context {A : Type}.
Implicit Types (st : ostring A).

Lemma to_opstr_length st : length (to_opstr st) = length (snd st) + k0 (to_opstr st).
Proof.
  destruct st as [[p|] ops]; unfold to_opstr, k0; cbn; rewrite map_length; [lia|].
  destruct ops; cbn; lia.
Qed.

Lemma k0_pre st : skipn (k0 (to_opstr st)) (to_opstr st) = map EOp (snd st).
Proof.
  destruct st as [[p|] ops]; unfold to_opstr, k0; cbn; [reflexivity|]. destruct ops; reflexivity.
Qed.

Lemma row_ok lDim maxl st : length (snd st) <= maxl ->
  row lDim maxl (to_opstr st) = Ok (rev (snd st) ++ repeat (Id 0 lDim) (maxl - length (snd st))).
Proof.
  intros H. unfold row.
  set (g := fun k => nth k (rev (snd st) ++ repeat (Id 0 lDim) (maxl - length (snd st))) (Id 0 lDim)).
  rewrite (mapM_ok_map _ g).
  - f_equal. symmetry.
    rewrite (list_eq_seq_nth (Id 0 lDim) (rev (snd st) ++ repeat (Id 0 lDim) (maxl - length (snd st)))) at 1.
    rewrite app_length, rev_length, repeat_length. replace (length (snd st) + (maxl - length (snd st))) with maxl by lia. reflexivity.
  - intros k Hk. apply in_seq in Hk. unfold row_entry. rewrite to_opstr_length.
    destruct (Nat.leb_spec (S k + k0 (to_opstr st)) (length (snd st) + k0 (to_opstr st))) as [L|L].
    + assert (nth_error (to_opstr st) (length (snd st) + k0 (to_opstr st) - k - 1)
              = nth_error (map EOp (snd st)) (length (snd st) - k - 1)) as ->.
      { rewrite <- k0_pre. rewrite <- (firstn_skipn (k0 (to_opstr st)) (to_opstr st)) at 1.
        assert (length (firstn (k0 (to_opstr st)) (to_opstr st)) = k0 (to_opstr st)).
        { rewrite firstn_length, to_opstr_length. lia. }
        rewrite nth_error_app2 by lia. f_equal. lia. }
      unfold g. rewrite app_nth1 by (rewrite rev_length; lia). rewrite rev_nth by lia.
      rewrite nth_error_map. rewrite (nth_error_nth' _ (Id 0 lDim)) by lia. cbn. do 2 f_equal. lia.
    + unfold g. rewrite app_nth2 by (rewrite rev_length; lia). rewrite rev_length. f_equal.
      symmetry. apply nth_repeat.
Qed.

Lemma max_len_acc (l : list (opstr A)) m :
  m <= fold_left (fun m s => let k := length s - k0 s in if m <? k then k else m) l m
  /\ forall s, In s l -> length s - k0 s <= fold_left (fun m s => let k := length s - k0 s in if m <? k then k else m) l m.
Proof.
  revert m. induction l as [|a l IH]; intros m; cbn [fold_left]; cbv zeta in *.
  - split; [lia|]. intros s [].
  - set (m' := if m <? length a - k0 a then length a - k0 a else m).
    assert (m <= m' /\ length a - k0 a <= m') as [H1 H2] by (unfold m'; destruct (Nat.ltb_spec m (length a - k0 a)); lia).
    destruct (IH m') as [I1 I2]. split; [lia|]. intros s [<-|Hs]; [lia|auto].
Qed.

Lemma max_len_ge (sts : list (ostring A)) st : In st sts -> length (snd st) <= max_len (map to_opstr sts).
Proof.
  intros H. unfold max_len. destruct (max_len_acc (map to_opstr sts) 0) as [_ M].
  specialize (M (to_opstr st) (in_map _ _ _ H)). pose proof (to_opstr_length st). cbv zeta in *. lia.
Qed.

Definition padded lDim (sts : list (ostring A)) st : list localop :=
  rev (snd st) ++ repeat (Id 0 lDim) (max_len (map to_opstr sts) - length (snd st)).

Definition st_is_diag st : bool := forallb lo_diag (snd st).

Lemma row_is_diag_ok st : row_is_diag (to_opstr st) = st_is_diag st.
Proof.
  unfold row_is_diag, st_is_diag. rewrite k0_pre. induction (snd st) as [|o l IH]; [reflexivity|]. cbn. now rewrite IH.
Qed.

Lemma compile_ok lDim n (sts : list (ostring A)) : Forall (wf_string lDim n) sts ->
  exists c, compile lDim (map to_opstr sts) = Ok c
    /\ c_rows c = map (padded lDim sts) sts
    /\ c_diag c = filter (fun o => st_is_diag (nth o sts (None, []))) (seq 0 (length sts))
    /\ c_pref c = flat_map (fun os => match fst (snd os) with Some p => [(fst os, p)] | None => [] end) (combine (seq 0 (length sts)) sts).
Proof.
  intros Hwf. unfold compile.
  assert (existsb (fun s : opstr A => match s with [] => true | _ => false end) (map to_opstr sts) = false) as ->.
  { clear -Hwf. induction Hwf as [|st sts H _ IH]; [reflexivity|]. cbn [map existsb]. rewrite IH, orb_false_r.
    destruct st as [[p|] ops]; cbn; [reflexivity|]. destruct H as [_ H]. destruct ops; [now elim H|reflexivity]. }
  assert (mapM (row lDim (max_len (map to_opstr sts))) (map to_opstr sts) = Ok (map (padded lDim sts) sts)) as ->.
  { assert (G : forall l, incl l sts -> mapM (row lDim (max_len (map to_opstr sts))) (map to_opstr l) = Ok (map (padded lDim sts) l)).
    { induction l as [|st l IH]; intros Hl; [reflexivity|]. cbn [map mapM].
      rewrite row_ok by (apply max_len_ge, Hl; now left). cbn [bind]. rewrite IH by (intros x Hx; apply Hl; now right). reflexivity. }
    apply G. apply incl_refl. }
  cbn [bind]. eexists. split; [reflexivity|]. cbn [c_rows c_diag c_pref]. rewrite map_length. split; [reflexivity|]. split.
  - apply filter_ext_in. intros o Ho. apply in_seq in Ho. rewrite <- row_is_diag_ok. f_equal.
    rewrite (@nth_indep (opstr A) _ _ [] (to_opstr (None, []))) by (rewrite map_length; lia). apply map_nth.
  - clear. generalize 0. induction sts as [|st sts IH]; intros k; [reflexivity|]. cbn [map length seq combine flat_map fst snd].
    rewrite IH. f_equal. destruct st as [[p|] ops]; cbn; [reflexivity|]. destruct ops; reflexivity.
Qed.

(** ** prefactors, serial evaluation *)
Lemma set_nth_app {B} (pre : list B) x post v : set_nth (pre ++ x :: post) (length pre) v = Ok (pre ++ v :: post).
Proof. induction pre as [|a pre IH]; [reflexivity|]. cbn. rewrite IH. reflexivity. Qed.

Lemma store_all_ok (sts : list (ostring A)) args vals : Forall2 (prefactor_is args) sts vals ->
  forall pre : list C,
  store_all 0 (flat_map (fun os => match fst (snd os) with Some p => [(fst os, p)] | None => [] end)
                 (combine (seq (length pre) (length sts)) sts)) args (pre ++ map (fun _ => C1) sts)
  = Ok (pre ++ vals).
Proof.
  induction 1 as [|st v sts vals Hv _ IH]; intros pre; [reflexivity|].
  cbn [length seq combine flat_map map fst snd].
  specialize (IH (pre ++ [v])). rewrite app_length in IH. cbn [length] in IH. rewrite Nat.add_1_r in IH.
  rewrite <- !app_assoc in IH. cbn [app] in IH.
  destruct st as [[p|] ops]; unfold prefactor_is in Hv; cbn [fst snd] in *.
  - cbn [app store_all]. rewrite Hv. cbn [bind]. rewrite Nat.sub_0_r, set_nth_app. cbn [bind]. exact IH.
  - cbn [app]. subst v. exact IH.
Qed.

Lemma arg_fun_serial_ok (sts : list (ostring A)) args vals : Forall2 (prefactor_is args) sts vals ->
  arg_fun_serial (flat_map (fun os => match fst (snd os) with Some p => [(fst os, p)] | None => [] end)
                 (combine (seq 0 (length sts)) sts)) (map (fun _ => C1) sts) args = Ok vals.
Proof. intros H. exact (store_all_ok sts args vals H []). Qed.
End Compile.

(** ** merging diagonal strings *)
Definition csum2 (f : config -> C) (cs : list config) (m : list C) : C := contract (combine cs m) f.

Lemma csum2_scatter (f : config -> C) (cs : list config) (m : list C) i v : length cs = length m -> i < length m ->
  csum2 f cs (scatter1 m i v) = (csum2 f cs m + (v - nth i m C0) * f (@nth config i cs []))%C.
Proof.
  unfold csum2, contract. revert m i. induction cs as [|c cs IH]; intros [|x m] i HL Hi; cbn [length] in *; try lia.
  destruct i as [|i]; cbn [scatter1 combine map nth fst snd]; rewrite !csum_cons.
  - cbn [fst snd]. ring.
  - rewrite IH by lia. cbn [fst snd]. ring.
Qed.

Lemma scatter1_length {B} (l : list B) i v : length (scatter1 l i v) = length l.
Proof. revert i. induction l as [|a l IH]; intros [|i]; cbn; auto. Qed.

Lemma merge_diag_length diag m : length (merge_diag diag m) = length m.
Proof.
  unfold merge_diag. destruct diag as [|d0 [|d1 r]]; [reflexivity|reflexivity|].
  set (x := scatter1 m d0 _). rewrite <- (scatter1_length m d0 (csum (map (gather1 C0 m) (d0 :: d1 :: r)))). fold x.
  clearbody x. generalize (d1 :: r) as l. intros l. revert x. induction l as [|a l IH]; intros x; [reflexivity|].
  cbn [fold_left]. rewrite IH. apply scatter1_length.
Qed.

Lemma nth_scatter1_other {B} (l : list B) i j v d : i <> j -> nth j (scatter1 l i v) d = nth j l d.
Proof. revert i j. induction l as [|a l IH]; intros [|i] [|j] H; cbn; try lia; auto. Qed.

Lemma csum2_zero_out (f : config -> C) (cs : list config) (c : config) rest (m : list C) : length cs = length m -> NoDup rest ->
  (forall i, In i rest -> i < length m /\ @nth config i cs [] = c) ->
  csum2 f cs (fold_left (fun l i => scatter1 l i C0) rest m)
  = (csum2 f cs m - csum (map (fun i => nth i m C0) rest) * f c)%C.
Proof.
  intros HL HN H. revert m HL H. induction HN as [|i rest Hi HN IH]; intros m HL H.
  - cbn [fold_left map]. rewrite csum_nil. ring.
  - cbn [fold_left map]. rewrite csum_cons. destruct (H i (or_introl eq_refl)) as [Hlt Hc].
    rewrite IH.
    + rewrite csum2_scatter by assumption. rewrite Hc.
      assert (csum (map (fun j => nth j (scatter1 m i C0) C0) rest) = csum (map (fun j => nth j m C0) rest)) as ->.
      { apply csum_ext. intros j Hj. apply nth_scatter1_other. intros ->. contradiction. }
      ring.
    + now rewrite scatter1_length.
    + intros j Hj. rewrite scatter1_length. apply H. now right.
Qed.

Lemma merge_diag_ok (f : config -> C) (cs : list config) (c : config) diag (m : list C) : length cs = length m -> NoDup diag ->
  (forall i, In i diag -> i < length m /\ @nth config i cs [] = c) ->
  csum2 f cs (merge_diag diag m) = csum2 f cs m.
Proof.
  intros HL HN H. unfold merge_diag. destruct diag as [|d0 [|d1 r]]; [reflexivity|reflexivity|].
  set (rest := d1 :: r) in *. inversion HN as [|? ? Hd HN']; subst.
  assert (Hr : forall i, In i rest -> i < length m /\ @nth config i cs [] = c) by (intros; apply H; now right).
  destruct (H d0 (or_introl eq_refl)) as [Hlt Hc].
  rewrite (csum2_zero_out f cs c); [|now rewrite scatter1_length|assumption|intros; rewrite scatter1_length; auto].
  rewrite csum2_scatter, Hc by assumption.
  assert (csum (map (fun i => nth i (scatter1 m d0 (csum (map (gather1 C0 m) (d0 :: rest)))) C0) rest)
          = csum (map (fun j => nth j m C0) rest)) as ->.
  { apply csum_ext. intros j Hj. apply nth_scatter1_other. intros ->. contradiction. }
  cbn [map]. rewrite csum_cons, gather1_nth by assumption.
  assert (csum (map (gather1 C0 m) rest) = csum (map (fun j => nth j m C0) rest)) as ->.
  { apply csum_ext. intros j Hj. apply gather1_nth. now apply Hr. }
  ring.
Qed.

Lemma act_diag lDim n ops s : Forall (wf_op lDim n) ops -> wf_config lDim n s -> forallb lo_diag ops = true -> fst (act ops s) = s.
Proof.
  intros H Hs. induction H as [|o ops Ho Hops IH]; intros Hd; [reflexivity|].
  cbn in Hd. apply andb_prop in Hd as [Hd1 Hd2]. specialize (IH Hd2). cbn [act].
  destruct (act ops s) as [s1 c1]. cbn [fst] in IH. subst s1. unfold act1. cbn [fst].
  destruct Ho as (Hi & Hm & He & HM & Hf & HD). rewrite (HD Hd1).
  rewrite seq_nth by (eapply nth_wf; eassumption). cbn [plus]. apply put_nth_same. destruct Hs; lia.
Qed.

Lemma mapM_apply lDim n d (rows : list (list localop)) (pref : list C) (opss : list (list localop)) k s :
  0 < n -> wf_config lDim n s ->
  Forall2 (fun row ops => (Forall (wf_op lDim n) ops /\ dim_ok d n ops) /\ row = rev ops ++ repeat (Id 0 lDim) (k ops)) rows opss ->
  length pref = length rows ->
  mapM (fun rp => apply_multi d (s, snd rp) (fst rp)) (combine rows pref)
  = Ok (map (fun vo => (fst (act (snd vo) s), (fst vo * snd (act (snd vo) s))%C)) (combine pref opss)).
Proof.
  intros Hn Hs H. revert pref. induction H as [|row ops rows opss [[Ho Hd] ->] _ IH]; intros [|v pref] HL; cbn [length] in *; try lia; [reflexivity|].
  cbn [combine mapM map fst snd]. rewrite apply_multi_app.
  destruct (act_ok lDim n d ops s v Ho Hs Hd) as [-> Hw]. cbn [bind].
  rewrite (apply_ids lDim n) by (try assumption; destruct Hd as [?|[? ?]]; auto). cbn [bind]. rewrite IH by lia. reflexivity.
Qed.

Theorem operator_elements_ok {A} lDim n d (sts : list (ostring A)) args vals s :
  Forall (wf_string lDim n) sts -> wf_config lDim n s -> Forall2 (prefactor_is args) sts vals ->
  Forall (fun st => dim_ok d n (snd st)) sts ->
  exists els, operator_elements lDim d (map to_opstr sts) args s = Ok els
    /\ length els = length sts
    /\ Forall (fun sm => wf_config lDim n (fst sm)) els
    /\ forall f, contract els f
       = csum (map (fun sv => (snd sv * snd (act (snd (fst sv)) s) * f (fst (act (snd (fst sv)) s)))%C) (combine sts vals)).
Proof.
  intros Hwf Hs Hv Hdim. unfold operator_elements.
  destruct (compile_ok lDim n sts Hwf) as (c & -> & Hr & Hd & Hp). cbn [bind].
  rewrite map_map, Hp, (arg_fun_serial_ok sts args vals Hv). cbn [bind].
  assert (HL : length vals = length sts) by (clear -Hv; induction Hv; cbn; lia).
  unfold get_s_primes_fun. rewrite Hr, map_length, HL, Nat.eqb_refl.
  set (opss := map snd sts).
  assert (Lo : length opss = length sts) by apply map_length.
  assert (Hn : 0 < n) by apply Hs.
  rewrite (mapM_apply lDim n d _ vals opss (fun ops => max_len (map to_opstr sts) - length ops) s Hn Hs).
  2: { unfold opss, padded. clear -Hwf Hdim. set (M := max_len (map to_opstr sts)). clearbody M.
       induction Hwf as [|st sts H _ IH]; [constructor|]. cbn [map]. inversion Hdim; subst. constructor; [|apply IH; assumption].
       split; [split; [apply H|assumption]|reflexivity]. }
  2: now rewrite map_length.
  cbn [bind]. eexists. split; [reflexivity|]. rewrite !map_map. cbn [fst snd].
  set (cs := map (fun vo : C * list localop => fst (act (snd vo) s)) (combine vals opss)).
  set (ms := map (fun vo : C * list localop => (fst vo * snd (act (snd vo) s))%C) (combine vals opss)).
  assert (Lc : length cs = length sts) by (unfold cs; rewrite map_length, combine_length; lia).
  assert (Lm : length ms = length sts) by (unfold ms; rewrite map_length, combine_length; lia).
  assert (Lg : length (merge_diag (c_diag c) ms) = length sts) by (rewrite merge_diag_length; exact Lm).
  split; [rewrite combine_length; lia|]. split.
  { apply Forall_forall. intros [c' m'] Hin. apply in_combine_l in Hin. cbn [fst]. unfold cs in Hin.
    apply in_map_iff in Hin as ([v ops] & <- & Hin). cbn [snd]. apply in_combine_r in Hin. unfold opss in Hin.
    apply in_map_iff in Hin as (st & <- & Hin). rewrite Forall_forall in Hwf, Hdim.
    apply (act_ok lDim n d (snd st) s C1); [apply (Hwf _ Hin)|assumption|apply (Hdim _ Hin)]. }
  intros f.
  change (csum2 f cs (merge_diag (c_diag c) ms) = csum (map (fun sv => (snd sv * snd (act (snd (fst sv)) s) * f (fst (act (snd (fst sv)) s)))%C) (combine sts vals))).
  rewrite (merge_diag_ok f cs s).
  - unfold csum2, contract, cs, ms, opss. clear -HL. revert vals HL. induction sts as [|st sts IH]; intros [|v vals] HL; cbn [length] in *; try lia; [reflexivity|].
    cbn [combine map fst snd]. rewrite !csum_cons. rewrite <- IH by lia. reflexivity.
  - lia.
  - rewrite Hd. apply NoDup_filter, seq_NoDup.
  - intros i Hi. rewrite Hd in Hi. apply filter_In in Hi as [Hi Hdiag]. apply in_seq in Hi. split; [lia|].
    unfold cs. rewrite (nth_indep _ [] (fst (act (snd (C1, @nil localop)) s))) by (change (i < length cs); lia).
    rewrite (map_nth (fun vo : C * list localop => fst (act (snd vo) s))).
    rewrite combine_nth by lia. cbn [snd]. unfold opss.
    change (@nil localop) with (snd (@None (pfun A), @nil localop)). rewrite map_nth.
    apply (act_diag lDim n).
    + rewrite Forall_forall in Hwf. apply Hwf. apply nth_In. apply Hi.
    + assumption.
    + exact Hdiag.
Qed.
