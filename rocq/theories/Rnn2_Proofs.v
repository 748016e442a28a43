(** Proofs about the two-dimensional autoregressive network. *)
From Coq Require Import ZArith List Reals Bool Arith Lia Lra.
From Verif Require Import Base Cplx BranchFree_Model Dist Stats_Model Sampler_Model Sampler_Spec Rnn_Model Rnn_Spec.
From Verif Require Import Sampler2_Proofs Sym_Proofs Vqs_Proofs Rnn_Proofs.
Import ListNotations.
Local Open Scope R_scope.

Lemma combine_app_eq {A B} (a a' : list A) (b b' : list B) : length a = length b -> combine (a ++ a') (b ++ b') = combine a b ++ combine a' b'.
Proof. revert b. induction a as [|x a IH]; intros [|y b]; cbn; try discriminate; intros H; [reflexivity|]. now rewrite IH by lia. Qed.
Lemma combine_rev {A B} (a : list A) (b : list B) : length a = length b -> combine (rev a) (rev b) = rev (combine a b).
Proof.
  revert b. induction a as [|x a IH]; intros [|y b]; cbn [length]; try discriminate; intros H; [reflexivity|]. cbn [rev combine].
  rewrite combine_app_eq by (rewrite !rev_length; lia). rewrite IH by lia. reflexivity.
Qed.
Lemma map2_rev {A B D} (f : A -> B -> D) a b : length a = length b -> map2 f (rev a) (rev b) = rev (map2 f a b).
Proof. intros H. unfold map2. rewrite combine_rev by assumption. apply map_rev. Qed.
Lemma csum_rev l : csum (rev l) = csum l.
Proof. apply csum_perm. apply Permutation.Permutation_sym, Permutation.Permutation_rev. Qed.
Lemma removelast_cons2 {A} (a b : A) l : removelast (a :: b :: l) = a :: removelast (b :: l).
Proof. reflexivity. Qed.
Lemma reverse_line_length {A} (l : list A) b : length (reverse_line l b) = length l.
Proof. unfold reverse_line. destruct (Z.eqb b 1); [reflexivity|apply rev_length]. Qed.
Lemma reverse_line_invol {A} (l : list A) b : reverse_line (reverse_line l b) b = l.
Proof. unfold reverse_line. destruct (Z.eqb b 1); [reflexivity|apply rev_involutive]. Qed.
Lemma reverse_line_map {A B} (f : A -> B) (l : list A) b : map f (reverse_line l b) = reverse_line (map f l) b.
Proof. unfold reverse_line. destruct (Z.eqb b 1); [reflexivity|apply map_rev]. Qed.
Lemma removelast_length {A} (a : A) l : length (removelast (a :: l)) = length l.
Proof. revert a. induction l as [|b l IH]; intros a; [reflexivity|]. rewrite removelast_cons2. cbn [length]. now rewrite IH. Qed.

Lemma rows_cons_eq (a : config) t rows : (if rows_eq_dec (a :: t) (a :: rows) then 1 else 0) = (if rows_eq_dec t rows then 1 else 0).
Proof. destruct (rows_eq_dec (a :: t) (a :: rows)) as [e|n], (rows_eq_dec t rows) as [e'|n']; try reflexivity; exfalso; congruence. Qed.
Lemma rows_cons_neq (a b : config) t rows : a <> b -> (if rows_eq_dec (a :: t) (b :: rows) then 1 else 0) = 0.
Proof. intros N. destruct (rows_eq_dec (a :: t) (b :: rows)) as [e|n]; [congruence|reflexivity]. Qed.

Section Two.
  Context {St Out : Type} (rnnCell : St -> St -> list R -> list R -> St * Out) (outputDense : Out -> list C)
          (d0 : St) (zc : list St) (d : nat) (lpf : R) (ro rp : bool).
  Hypothesis Hd : (1 <= d)%nat.
  Hypothesis Hl : lpf <> 0.
  Hypothesis HR : real_layer ((d - 1) * (if ro then 1 else 2)) outputDense.
  Notation scanH := (scan_H rnnCell outputDense d lpf ro rp).
  Notation scanHs := (scan_H_sample rnnCell outputDense d lpf ro rp).
  Notation cellV := (rnn_cell_V rnnCell outputDense d0 zc d lpf ro rp).
  Notation cellVs := (rnn_cell_V_sample rnnCell outputDense d0 zc d lpf ro rp).

  Lemma E_scan_H xs : forall c p cvs ups (g : list St -> R), Forall (fun x => x < d)%nat xs -> length cvs = length xs -> length ups = length xs ->
    let oe := scanH c (combine cvs (combine (removelast (p :: map (one_hot d) xs)) ups)) in
    E (scanHs (c, p) (combine cvs ups)) (fun out => (if config_eq_dec (map snd out) xs then 1 else 0) * g (map fst out))
    = exp (Re (csum (map2 select (map snd oe) (map (one_hot d) xs))) / lpf) * g (map fst oe).
  Proof.
    induction xs as [|x xs IH]; intros c p cvs ups g HF H1 H2.
    - destruct cvs, ups; try discriminate. cbn [combine scan_H_sample scan_H map removelast]. cbv zeta. rewrite E_ret. cbn [map].
      destruct (config_eq_dec [] []); [|congruence]. change (map2 select [] []) with (@nil C). rewrite csum_nil. unfold Re, C0. cbn. replace (0 / lpf) with 0 by (field; exact Hl). now rewrite exp_0.
    - destruct cvs as [|cv cvs]; [discriminate|]. destruct ups as [|up ups]; [discriminate|]. cbn [length] in H1, H2.
      inversion HF as [|? ? Hx HF']; subst. cbn [map]. rewrite removelast_cons2. cbn [combine scan_H_sample scan_H]. unfold rnn_cell_H, rnn_cell_H_sample. cbn [fst snd].
      destruct (rnnCell c cv p up) as [nc out] eqn:EC. cbn [map fst snd]. cbv zeta. destruct (HR out) as [HL HI].
      rewrite E_bind, E_bind, E_step by assumption. rewrite (rsum_single d x); [|exact Hx|].
      + rewrite E_ret, E_bind. cbn [fst snd]. rewrite map2_cons, csum_cons, select_one_hot; [|now apply step_length|exact Hx].
        rewrite (E_ext _ _ (fun t => (if config_eq_dec (map snd t) xs then 1 else 0) * (fun l => g (nc :: l)) (map fst t))).
        * rewrite (IH nc (one_hot d x) cvs ups (fun l => g (nc :: l))) by (assumption || lia). rewrite <- Rmult_assoc, <- exp_plus. f_equal. f_equal. unfold Re, Cadd. cbn [fst]. field. exact Hl.
        * intros t _. rewrite E_ret. cbn [map fst snd]. destruct (config_eq_dec (x :: map snd t) (x :: xs)), (config_eq_dec (map snd t) xs); try congruence; ring.
      + intros k Hk. rewrite E_ret, E_bind. cbn [snd fst].
        rewrite (E_ext _ _ (fun _ => 0)); [rewrite E_const; ring|]. intros t _. rewrite E_ret. cbn [map fst snd]. destruct (config_eq_dec (k :: map snd t) (x :: xs)); [congruence|ring].
  Qed.
  Lemma mass_scan_H ins : forall cp, mass (scanHs cp ins) = 1.
  Proof.
    induction ins as [|i ins IH]; intros cp; cbn [scan_H_sample]; [apply mass_ret|]. rewrite mass_bind.
    - unfold rnn_cell_H_sample. destruct (rnnCell (fst cp) (fst i) (snd cp) (snd i)) as [nc out]. destruct (HR out) as [HL HI]. rewrite mass_bind by (intros; apply mass_ret).
      rewrite mass_E, E_step by assumption. refine (eq_trans _ (step_sum d lpf ro rp (outputDense out) Hd HL HI Hl)). apply rsum_ext. intros; ring.
    - intros r _. rewrite mass_bind; [apply IH|]. intros; apply mass_ret.
  Qed.
  Lemma outcome_scan_H ins : forall cp o, outcome (scanHs cp ins) o -> length o = length ins /\ Forall (fun x => x < d)%nat (map snd o).
  Proof.
    induction ins as [|i ins IH]; intros cp o; cbn [scan_H_sample].
    - rewrite outcome_ret. intros ->. split; [reflexivity|constructor].
    - rewrite outcome_bind. intros (r & Hr & H). apply outcome_bind in H as (t & Ht & H). apply outcome_ret in H. subst o.
      destruct (IH _ _ Ht) as [H1 H2]. split; [cbn; lia|]. cbn [map]. constructor; [|exact H2].
      unfold rnn_cell_H_sample in Hr. destruct (rnnCell (fst cp) (fst i) (snd cp) (snd i)) as [nc out]. destruct (HR out) as [HL HI].
      apply outcome_bind in Hr as (k & Hk & Hr). apply outcome_ret in Hr. subst r. cbn [snd]. apply outcome_categorical in Hk.
      rewrite map_length, step_length in Hk by assumption. exact Hk.
  Qed.
  Lemma scan_H_length ins : forall c, length (scanH c ins) = length ins.
  Proof. induction ins as [|i ins IH]; intros c; cbn [scan_H]; [reflexivity|]. unfold rnn_cell_H. destruct (rnnCell _ _ _ _). cbn [length]. now rewrite IH. Qed.

  Lemma E_cell_V carry b line (g : list St * list (list R) -> R) : Forall (fun x => x < d)%nat line ->
    length (fst carry) = length line -> length (snd carry) = length line ->
    let r := cellV carry (map (one_hot d) line, b) in
    E (cellVs carry b) (fun o => (if config_eq_dec (snd o) line then 1 else 0) * g (fst o)) = exp (Re (csum (snd r)) / lpf) * g (fst r).
  Proof.
    intros HF H1 H2 r. unfold rnn_cell_V_sample. rewrite E_bind. unfold r, rnn_cell_V. cbn [fst snd].
    set (xs := reverse_line line b).
    assert (HX : Forall (fun x => x < d)%nat xs) by (unfold xs, reverse_line; destruct (Z.eqb b 1); [exact HF|now apply Forall_rev]).
    rewrite <- (reverse_line_map (one_hot d) line b). fold xs.
    set (cvs := reverse_line (fst carry) b). set (ups := reverse_line (snd carry) b).
    assert (L1 : length cvs = length xs) by (unfold cvs, xs; now rewrite !reverse_line_length).
    assert (L2 : length ups = length xs) by (unfold ups, xs; now rewrite !reverse_line_length).
    rewrite (E_ext _ _ (fun out => (if config_eq_dec (map snd out) xs then 1 else 0) * (fun l => g (reverse_line l b, map (one_hot d) line)) (map fst out))).
    - rewrite (E_scan_H xs _ _ cvs ups (fun l => g (reverse_line l b, map (one_hot d) line))) by assumption. set (oe := scanH _ _). f_equal. f_equal. f_equal. f_equal.
      assert (Le : length oe = length line).
      { unfold oe. rewrite scan_H_length, combine_length, combine_length, removelast_length, map_length. unfold xs in *. rewrite reverse_line_length in *. lia. }
      replace (map (one_hot d) xs) with (reverse_line (map (one_hot d) line) b) by (unfold xs; now rewrite reverse_line_map).
      unfold reverse_line. destruct (Z.eqb b 1); [reflexivity|].
      rewrite <- (rev_involutive (map snd oe)) at 1. rewrite map2_rev by (rewrite rev_length, !map_length; exact Le). now rewrite csum_rev.
    - intros out _. rewrite E_ret. cbn [fst snd]. destruct (config_eq_dec (reverse_line (map snd out) b) line) as [E1|N1].
      + rewrite E1. destruct (config_eq_dec (map snd out) xs) as [_|N2]; [reflexivity|]. exfalso. apply N2. unfold xs. rewrite <- E1. now rewrite reverse_line_invol.
      + destruct (config_eq_dec (map snd out) xs) as [E2|_]; [|ring]. exfalso. apply N1. rewrite E2. unfold xs. now rewrite reverse_line_invol.
  Qed.
  Lemma cell_V_lengths carry b line : length (fst carry) = length line -> length (snd carry) = length line ->
    let r := cellV carry (map (one_hot d) line, b) in length (fst (fst r)) = length line /\ length (snd (fst r)) = length line.
  Proof.
    intros H1 H2 r. unfold r, rnn_cell_V. cbn [fst snd]. rewrite reverse_line_length, map_length, scan_H_length, combine_length, combine_length, removelast_length, !reverse_line_length, map_length. lia.
  Qed.

  Lemma Pr_scan_V n rows : forall bs carry, Forall (fun l => length l = n /\ Forall (fun x => x < d)%nat l) rows -> length bs = length rows ->
    length (fst carry) = n -> length (snd carry) = n ->
    E (scan_V_sample rnnCell outputDense d0 zc d lpf ro rp carry bs) (fun t => if rows_eq_dec t rows then 1 else 0)
    = exp (Re (csum (List.concat (scan_V rnnCell outputDense d0 zc d lpf ro rp carry (combine (map (map (one_hot d)) rows) bs)))) / lpf).
  Proof.
    induction rows as [|line rows IH]; intros [|b bs] carry HF HB H1 H2; cbn [length] in HB; try discriminate; cbn [map combine scan_V scan_V_sample].
    - rewrite E_ret. cbn [List.concat]. rewrite csum_nil. destruct (rows_eq_dec [] []); [|congruence]. unfold Re, C0. cbn. replace (0 / lpf) with 0 by (field; exact Hl). now rewrite exp_0.
    - inversion HF as [|? ? [HL HX] HF']; subst. rewrite E_bind.
      set (rv := rnn_cell_V _ _ _ _ _ _ _ _ _ _) in |- *.
      rewrite (E_ext _ _ (fun o => (if config_eq_dec (snd o) line then 1 else 0) * (fun c => E (scan_V_sample rnnCell outputDense d0 zc d lpf ro rp c bs) (fun t => if rows_eq_dec t rows then 1 else 0)) (fst o))).
      + rewrite (E_cell_V carry b line (fun c => E (scan_V_sample rnnCell outputDense d0 zc d lpf ro rp c bs) (fun t => if rows_eq_dec t rows then 1 else 0))) by (assumption || congruence). fold rv. destruct (cell_V_lengths carry b line ltac:(congruence) ltac:(congruence)) as [G1 G2]. fold rv in G1, G2.
        destruct rv as [c o]. cbn [fst snd] in *. rewrite IH by (assumption || lia). cbn [List.concat]. rewrite csum_app, <- exp_plus. f_equal.
        unfold Re, Cadd. cbn [fst]. field. exact Hl.
      + intros o _. rewrite E_bind. destruct (config_eq_dec (snd o) line) as [->|N].
        * rewrite Rmult_1_l. apply E_ext. intros t _. rewrite E_ret. apply rows_cons_eq.
        * rewrite Rmult_0_l. rewrite (E_ext _ _ (fun _ => 0)); [rewrite E_const; ring|]. intros t _. rewrite E_ret. now apply rows_cons_neq.
  Qed.
  Lemma mass_scan_V bs : forall carry, mass (scan_V_sample rnnCell outputDense d0 zc d lpf ro rp carry bs) = 1.
  Proof.
    induction bs as [|b bs IH]; intros carry; cbn [scan_V_sample]; [apply mass_ret|]. rewrite mass_bind.
    - unfold rnn_cell_V_sample. rewrite mass_bind by (intros; apply mass_ret). apply mass_scan_H.
    - intros r _. rewrite mass_bind; [apply IH|]. intros; apply mass_ret.
  Qed.
  Lemma outcome_scan_V n bs : forall carry rows, length (fst carry) = n -> length (snd carry) = n ->
    outcome (scan_V_sample rnnCell outputDense d0 zc d lpf ro rp carry bs) rows ->
    length rows = length bs /\ Forall (fun l => length l = n /\ Forall (fun x => x < d)%nat l) rows.
  Proof.
    induction bs as [|b bs IH]; intros carry rows H1 H2; cbn [scan_V_sample].
    - rewrite outcome_ret. intros ->. split; [reflexivity|constructor].
    - rewrite outcome_bind. intros (r & Hr & H). apply outcome_bind in H as (t & Ht & H). apply outcome_ret in H. subst rows.
      unfold rnn_cell_V_sample in Hr. apply outcome_bind in Hr as (o & Ho & Hr). apply outcome_ret in Hr. subst r. cbn [fst snd] in *.
      apply outcome_scan_H in Ho as [Lo Fo]. rewrite combine_length, !reverse_line_length, H1, H2, Nat.min_id in Lo.
      apply IH in Ht as [G1 G2]; [|cbn [fst]; now rewrite reverse_line_length, map_length|cbn [snd]; now rewrite map_length, reverse_line_length, map_length].
      split; [cbn; lia|]. constructor; [|exact G2]. split; [now rewrite reverse_line_length, map_length|].
      unfold reverse_line. destruct (Z.eqb b 1); [exact Fo|now apply Forall_rev].
  Qed.
End Two.

Lemma in_tuples (space : list config) k l : In l (tuples space k) <-> length l = k /\ Forall (fun s => In s space) l.
Proof.
  revert l. induction k as [|k IH]; intros l; cbn [tuples].
  - split; [intros [<-|[]]; split; [reflexivity|constructor]|]. intros [H _]. destruct l; [now left|discriminate].
  - rewrite in_flat_map. split.
    + intros (s & Hs & H). apply in_map_iff in H as (t & <- & Ht). apply IH in Ht as [H1 H2]. split; [cbn; lia|constructor; assumption].
    + intros [H1 H2]. destruct l as [|s t]; [discriminate|]. inversion H2; subst. exists s. split; [assumption|]. apply in_map. apply IH. split; [cbn in H1; lia|assumption].
Qed.

Lemma NoDup_tuples (space : list config) k : NoDup space -> NoDup (tuples space k).
Proof.
  intros H. induction k as [|k IH]; cbn [tuples]; [repeat constructor; auto|]. apply NoDup_flat_map; [exact H| |].
  - intros x _. apply NoDup_map_inj; [intros a b E0; now inversion E0|assumption].
  - intros x y z _ _ Hx Hy. apply in_map_iff in Hx as (a & <- & _). apply in_map_iff in Hy as (b & E0 & _). now inversion E0.
Qed.
Lemma sum_PrRows (space : list (list config)) m : NoDup space -> (forall s, outcome m s -> In s space) -> rsum (map (PrRows m) space) = mass m.
Proof.
  intros HN HO. unfold PrRows. rewrite <- (E_rsum m space (fun s t => if rows_eq_dec s t then 1 else 0)). rewrite mass_E. apply E_ext. intros s Hs. specialize (HO s Hs). clear -HN HO.
  induction HN as [|x l Hx HN IH]; [destruct HO|]. cbn [map]. rewrite rsum_cons. destruct (rows_eq_dec s x) as [->|N].
  - assert (E0 : rsum (map (fun t => if rows_eq_dec x t then 1 else 0) l) = 0).
    { refine (eq_trans _ (rsum_zero l)). apply rsum_ext. intros y Hy. destruct (rows_eq_dec x y) as [->|]; [contradiction|reflexivity]. }
    rewrite E0. lra.
  - rewrite IH; [lra|]. destruct HO as [->|HO]; [congruence|exact HO].
Qed.

(** ** order of the sites *)
Section Causal.
  Context {St Out : Type} (rnnCell : St -> St -> list R -> list R -> St * Out) (outputDense : Out -> list C)
          (d0 : St) (zc : list St) (d : nat) (lpf : R) (ro rp : bool).
  Notation scanH := (scan_H rnnCell outputDense d lpf ro rp).
  Notation cellV := (rnn_cell_V rnnCell outputDense d0 zc d lpf ro rp).
  Lemma scan_H_prefix k : forall c ins, firstn k (scanH c ins) = scanH c (firstn k ins).
  Proof. induction k as [|k IH]; intros c [|i ins]; try reflexivity. cbn [firstn scan_H]. destruct (rnn_cell_H rnnCell outputDense d lpf ro rp c i) as [c' o]. now rewrite IH. Qed.
  Lemma nth_firstn_ {A} (l : list A) k j (x : A) : (j < k)%nat -> nth j (firstn k l) x = nth j l x.
  Proof. revert k j. induction l as [|a l IH]; intros [|k] [|j] H; try lia; try reflexivity. cbn. apply IH. lia. Qed.
  Lemma firstn_ext {A} k (l l' : list A) x : length l = length l' -> (forall j, (j < k)%nat -> nth j l x = nth j l' x) -> firstn k l = firstn k l'.
  Proof.
    revert l l'. induction k as [|k IH]; intros [|a l] [|a' l'] HL H; try discriminate; try reflexivity. cbn [firstn]. f_equal; [exact (H 0%nat ltac:(lia))|].
    apply IH; [cbn in HL; lia|]. intros j Hj. exact (H (S j) ltac:(lia)).
  Qed.
  Lemma firstn_map2 {A B D} (f : A -> B -> D) k l l' : firstn k (map2 f l l') = map2 f (firstn k l) (firstn k l').
  Proof. unfold map2. now rewrite firstn_map, combine_firstn. Qed.
  (** one row in the order of the path *)
  Lemma row_causal n c p cvs ups xs xs' k : length cvs = n -> length ups = n -> length xs = n -> length xs' = n -> (k < n)%nat ->
    firstn (S k) xs = firstn (S k) xs' ->
    let o := fun xs => map2 select (map snd (scanH c (combine cvs (combine (removelast (p :: map (one_hot d) xs)) ups)))) (map (one_hot d) xs) in
    nth k (o xs) C0 = nth k (o xs') C0.
  Proof.
    intros L1 L2 L3 L4 Hk HE o.
    assert (K : forall ys, length ys = n -> firstn (S k) (o ys) = map2 select (map snd (scanH c (firstn (S k) (combine cvs (combine (p :: map (one_hot d) (firstn k ys)) ups))))) (map (one_hot d) (firstn (S k) ys))).
    { intros ys Ly. unfold o. rewrite firstn_map2, !firstn_map, scan_H_prefix.
      apply (f_equal (fun z => map2 select (map snd (scanH c z)) (map (one_hot d) (firstn (S k) ys)))). rewrite !combine_firstn.
      apply (f_equal (fun z => combine (firstn (S k) cvs) (combine z (firstn (S k) ups)))).
      rewrite removelast_firstn_len. cbn [length]. rewrite map_length, Ly. cbn [Nat.pred]. rewrite firstn_firstn. rewrite Nat.min_l by lia. cbn [firstn].
      f_equal. now rewrite !firstn_map, firstn_firstn, Nat.min_id. }
    rewrite <- (nth_firstn_ (o xs) (S k) k C0), <- (nth_firstn_ (o xs') (S k) k C0) by lia. rewrite !K by assumption. rewrite HE.
    assert (HE' : firstn k xs = firstn k xs').
    { assert (Q : forall ys : list nat, firstn k ys = firstn k (firstn (S k) ys)) by (intros; rewrite firstn_firstn; f_equal; lia). rewrite (Q xs), (Q xs'), HE. reflexivity. }
    now rewrite HE'.
  Qed.
  Lemma cell_V_causal n carry b line line' c : length (fst carry) = n -> length (snd carry) = n -> length line = n -> length line' = n -> (c < n)%nat ->
    (forall c', (if (b =? 1)%Z then c' <= c else c <= c')%nat -> nth c' line 0%nat = nth c' line' 0%nat) ->
    nth c (snd (cellV carry (map (one_hot d) line, b))) C0 = nth c (snd (cellV carry (map (one_hot d) line', b))) C0.
  Proof.
    intros L1 L2 L3 L4 Hc HA. unfold rnn_cell_V, reverse_line. cbn [fst snd]. destruct (b =? 1)%Z.
    - apply (row_causal n); try assumption. apply (firstn_ext _ _ _ 0%nat); [congruence|]. intros j Hj. apply HA. lia.
    - set (o := fun xs => map2 select (map snd (scanH (zero_carry0 d0 zc) (combine (rev (fst carry)) (combine (removelast (zeros d :: map (one_hot d) xs)) (rev (snd carry)))))) (map (one_hot d) xs)).
      assert (K : forall l, length l = n -> map2 select (rev (map snd (scanH (zero_carry0 d0 zc) (combine (rev (fst carry)) (combine (removelast (zeros d :: rev (map (one_hot d) l))) (rev (snd carry))))))) (map (one_hot d) l) = rev (o (rev l)) /\ length (o (rev l)) = n).
      { intros l Ll. assert (G : length (scanH (zero_carry0 d0 zc) (combine (rev (fst carry)) (combine (removelast (zeros d :: rev (map (one_hot d) l))) (rev (snd carry))))) = n).
        { rewrite scan_H_length, !combine_length, removelast_length, !rev_length, map_length. lia. }
        unfold o. rewrite map_rev. split.
        - rewrite <- map2_rev by (rewrite map_length, rev_length, map_length; congruence). now rewrite rev_involutive.
        - rewrite map2_length by (rewrite map_length, rev_length, map_length; congruence). now rewrite map_length. }
      destruct (K line L3) as [K1 K2]. destruct (K line' L4) as [K3 K4]. rewrite K1, K3. rewrite !rev_nth by lia. rewrite K2, K4.
      apply (row_causal n); try (rewrite rev_length; assumption); try lia. apply (firstn_ext _ _ _ 0%nat); [rewrite !rev_length; congruence|].
      intros j Hj. rewrite !rev_nth by lia. rewrite L3, L4. apply HA. lia.
  Qed.
  Lemma cell_V_lengths' n carry b line : length (fst carry) = n -> length (snd carry) = n -> length line = n ->
    let r := cellV carry (map (one_hot d) line, b) in length (fst (fst r)) = n /\ length (snd (fst r)) = n.
  Proof.
    intros H1 H2 H3 r. unfold r, rnn_cell_V. cbn [fst snd]. rewrite reverse_line_length, map_length, scan_H_length, combine_length, combine_length, removelast_length, !reverse_line_length, map_length. lia.
  Qed.
  Lemma scan_V_causal n rows : forall rows' bs carry r c, length rows = length rows' -> length rows = length bs ->
    Forall (fun l => length l = n) rows -> Forall (fun l => length l = n) rows' -> (r < length rows)%nat -> (c < n)%nat ->
    length (fst carry) = n -> length (snd carry) = n ->
    (forall r', (r' < r)%nat -> nth r' rows [] = nth r' rows' []) ->
    (forall c', (if (nth r bs 0%Z =? 1)%Z then c' <= c else c <= c')%nat -> nth c' (nth r rows []) 0%nat = nth c' (nth r rows' []) 0%nat) ->
    nth c (nth r (scan_V rnnCell outputDense d0 zc d lpf ro rp carry (combine (map (map (one_hot d)) rows) bs)) []) C0
    = nth c (nth r (scan_V rnnCell outputDense d0 zc d lpf ro rp carry (combine (map (map (one_hot d)) rows') bs)) []) C0.
  Proof.
    induction rows as [|line rows IH]; intros [|line' rows'] [|b bs] carry r c HL HB F1 F2 Hr Hc E1 E2 HA HV; cbn [length] in *; try lia.
    pose proof (Forall_inv F1) as G1. pose proof (Forall_inv_tail F1) as F1'. pose proof (Forall_inv F2) as G2. pose proof (Forall_inv_tail F2) as F2'.
    cbv beta in G1, G2. cbn [map combine scan_V].
    destruct r as [|r].
    - cbn [nth] in *. pose proof (cell_V_causal n carry b line line' c E1 E2 G1 G2 Hc HV) as Q.
      destruct (cellV carry (map (one_hot d) line, b)) as [c1 o1]. destruct (cellV carry (map (one_hot d) line', b)) as [c2 o2]. exact Q.
    - pose proof (HA 0%nat ltac:(lia)) as E0. cbn [nth] in E0. subst line'.
      pose proof (cell_V_lengths' n carry b line E1 E2 G1) as QL. cbv zeta in QL.
      destruct (cellV carry (map (one_hot d) line, b)) as [c1 o1] eqn:EV. cbn [nth]. cbn [fst snd] in QL. destruct QL as [Q1 Q2].
      apply IH; try assumption; try lia.
      intros r' Hr'. exact (HA (S r') ltac:(lia)).
  Qed.
End Causal.
