(** Properties C07-C10: SampledObs. *)
From Coq Require Import ZArith List Reals Lra Lia Permutation.
From Verif Require Import Base Cplx Mpi_Model Stats_Model Stats_Spec Stats_Proofs.
Import ListNotations.

(** C07. mean, covar, var are the weighted statistics; covar is Hermitian and
    positive semi-definite. *)
Theorem C07_statistics :
  forall (I J : Type) (a : layout (I -> C)) (b : layout (J -> C)) (w : layout R),
  shape_eq a w -> shape_eq b w -> weights_ok (flat w) ->
  (forall i, mean (init a w) i = expect (wpairs w a) (fun x => x i))
  /\ (forall i j, covar (init a w) (init b w) (i, j)
                  = cov (wtriples w a b) (fun ab => fst ab i) (fun ab => snd ab j))
  /\ (forall i, RtoC (var (init a w) i) = covar (init a w) (init a w) (i, i))
  /\ (forall i, (0 <= var (init a w) i)%R)
  /\ (forall i j, covar (init a w) (init a w) (i, j) = Cconj (covar (init a w) (init a w) (j, i)))
  /\ (forall (c : I -> C) (L : list I),
        exists q : R, (0 <= q)%R /\
        csum (map (fun i => csum (map (fun j => Cconj (c i) * covar (init a w) (init a w) (i, j) * c j)%C L)) L)
        = RtoC q).
Proof.
  intros I J a b w Ha Hb Hw. repeat split.
  - intros i. exact (init_mean a w i Ha).
  - intros i j. exact (covar_ok a b w i j Ha Hb Hw).
  - intros i. rewrite covar_self_ok, var_ok by assumption. apply variance_cov. rewrite weights_pairs by assumption. apply Hw.
  - intros i. rewrite var_ok by assumption. apply variance_nonneg. rewrite weights_pairs by assumption. apply Hw.
  - intros i j. rewrite !covar_self_ok by assumption. apply cov_herm.
  - intros c L. eexists. split; [|
      rewrite <- (cov_psd (wpairs w a) c (fun i x => x i) L) by (rewrite weights_pairs by assumption; apply Hw)].
    + apply variance_nonneg. rewrite weights_pairs by assumption. apply Hw.
    + apply csum_ext. intros i _. apply csum_ext. intros j _. now rewrite covar_self_ok by assumption.
Qed.
Print Assumptions C07_statistics.

(** the splitting over ranks and devices is irrelevant *)
Theorem C07_layout_independent :
  forall (I J : Type) (a a' : layout (I -> C)) (b b' : layout (J -> C)) (w w' : layout R),
  shape_eq a w -> shape_eq b w -> weights_ok (flat w) ->
  shape_eq a' w' -> shape_eq b' w' -> weights_ok (flat w') ->
  Permutation (wtriples w a b) (wtriples w' a' b') ->
  forall i j, mean (init a w) i = mean (init a' w') i
    /\ covar (init a w) (init b w) (i, j) = covar (init a' w') (init b' w') (i, j)
    /\ var (init a w) i = var (init a' w') i.
Proof.
  intros I J a a' b b' w w' Ha Hb Hw Ha' Hb' Hw' HP i j.
  assert (HP2 : Permutation (wpairs w a) (wpairs w' a')).
  { rewrite (wpairs_triples_l w a b), (wpairs_triples_l w' a' b') by assumption. now apply Permutation_map. }
  unfold mean. rewrite !init_mean, !covar_ok, !var_ok by assumption. split; [|split].
  - now apply expect_perm.
  - pose proof (fun f => expect_perm _ _ f HP) as E. unfold cov. now rewrite !E.
  - unfold variance. rewrite (expect_perm _ _ _ HP2). apply rsum_perm. now apply Permutation_map.
Qed.
Print Assumptions C07_layout_independent.

(** two ranks, two observables; weights 1/2, 1/4, 1/4 *)
Definition ex_w : layout R := [[[(1/2)%R]; [(1/4)%R]]; [[(1/4)%R]]].
Definition ex_a : layout (bool -> C) :=
  [[[fun b : bool => if b then Ci else RtoC 2]; [fun b : bool => if b then RtoC 4 else RtoC 0]];
   [[fun b : bool => if b then RtoC 0 else RtoC 4]]].
Example C07_case :
  shape_eq ex_a ex_w /\ weights_ok (flat ex_w)
  /\ mean (init ex_a ex_w) true = (1, 1/2)%R
  /\ mean (init ex_a ex_w) false = RtoC 2
  /\ covar (init ex_a ex_w) (init ex_a ex_w) (false, true) = (-2, 0)%R.
Proof.
  assert (H : shape_eq ex_a ex_w) by (repeat constructor).
  assert (W : weights_ok (flat ex_w)).
  { split; [|cbn; lra]. intros p Hp. cbn in Hp. repeat (destruct Hp as [<-|Hp]; [lra|]). contradiction. }
  repeat split; try assumption; try apply W; try exact H.
  - unfold mean. rewrite init_mean by assumption. unfold expect. cbn. Cunf. apply C_eq; cbn; lra.
  - unfold mean. rewrite init_mean by assumption. unfold expect. cbn. Cunf. apply C_eq; cbn; lra.
  - rewrite covar_ok by assumption. unfold cov, expect. cbn. Cunf. apply C_eq; cbn; lra.
Qed.

(** C08. *)
Theorem C08_covar_data_covar_var :
  forall (I J : Type) (a : layout (I -> C)) (b : layout (J -> C)) (w : layout R),
  shape_eq a w -> shape_eq b w -> (forall p, In p (flat w) -> (0 < p)%R) -> rsum (flat w) = 1%R ->
  forall i j,
  let T := wtriples w a b in
  mean (covar_data (init a w) (init b w)) (i, j) = covar (init a w) (init b w) (i, j)
  /\ var (covar_data (init a w) (init b w)) (i, j) = covar_var (init a w) (init b w) (i, j)
  /\ covar_var (init a w) (init b w) (i, j)
     = variance T (fun ab => Cconj (fst ab i - expect T (fun x => fst x i))
                             * (snd ab j - expect T (fun x => snd x j)))%C.
Proof.
  intros I J a b w Ha Hb Hp H1 i j. cbn zeta.
  exact (conj (covar_data_mean a b w Ha Hb Hp H1 i j)
        (conj (eq_trans (covar_data_var a b w Ha Hb Hp H1 i j) (eq_sym (covar_var_ok a b w Ha Hb Hp H1 i j)))
              (covar_var_ok a b w Ha Hb Hp H1 i j))).
Qed.
Print Assumptions C08_covar_data_covar_var.

(** real values 0 and 2 with weights 1/4 and 3/4: covariance 3/4, and the
    variance of its estimator is 3/4, too *)
Example C08_case :
  let w := [[[(1/4)%R]; [(3/4)%R]]] in
  let a := [[[fun _ : unit => RtoC 0]; [fun _ => RtoC 2]]] in
  shape_eq a w /\ rsum (flat w) = 1%R /\ (forall p, In p (flat w) -> (0 < p)%R)
  /\ covar (init a w) (init a w) (tt, tt) = RtoC (3/4)
  /\ covar_var (init a w) (init a w) (tt, tt) = (3/4)%R.
Proof.
  intros w a. assert (H : shape_eq a w) by (repeat constructor).
  assert (P : forall p, In p (flat w) -> (0 < p)%R).
  { intros p Hp. cbn in Hp. repeat (destruct Hp as [<-|Hp]; [lra|]). contradiction. }
  assert (S1 : rsum (flat w) = 1%R) by (cbn; lra).
  assert (E1 : expect (wtriples w a a) (fun x => fst x tt) = RtoC (3/2)).
  { unfold expect, wtriples. cbn. Cunf. apply C_eq; cbn; lra. }
  assert (E2 : expect (wtriples w a a) (fun x => snd x tt) = RtoC (3/2)).
  { unfold expect, wtriples. cbn. Cunf. apply C_eq; cbn; lra. }
  repeat split; try assumption; try exact H.
  - rewrite covar_ok; [|assumption..|split; [intros p Hp; left; now apply P|assumption]].
    unfold cov. rewrite E1, E2. unfold expect, wtriples. subst w a. cbn. Cunf. apply C_eq; cbn; lra.
  - rewrite covar_var_ok, variance_alt by assumption. rewrite E1, E2.
    assert (E3 : expect (wtriples w a a) (fun x => Cconj (fst x tt - RtoC (3/2)) * (snd x tt - RtoC (3/2)))%C = RtoC (3/4)).
    { unfold expect, wtriples. subst w a. cbn. Cunf. apply C_eq; cbn; lra. }
    rewrite E3, Cnorm2_RtoC. unfold wtriples. subst w a. cbn. Cunf. cbn. lra.
Qed.

(** C09 (subset). For every Python slice with non-zero step the result is the
    object built from the per-device slices, with renormalised weights. *)
Theorem C09_subset :
  forall (I : Type) (obs : layout (I -> C)) (w : layout R) st en sp,
  shape_eq obs w -> (forall p, In p (flat w) -> (0 <= p)%R) -> sp <> Some 0%Z ->
  exists w1 o1, get_subset st en sp w = Ok w1 /\ get_subset st en sp obs = Ok o1
    /\ ((0 < rsum (flat w1))%R ->
        subset st en sp (init obs w) = Ok (init o1 (lmap (fun p => (p / rsum (flat w1))%R) w1))).
Proof.
  intros I obs w st en sp H HP Hsp. destruct (get_subset_total st en sp w Hsp) as [w1 E1].
  destruct (get_subset_total st en sp obs Hsp) as [o1 E2]. exists w1, o1.
  exact (conj E1 (conj E2 (subset_ok obs o1 w w1 st en sp H HP E1 E2))).
Qed.
Print Assumptions C09_subset.

(** what a slice is *)
Theorem C09_slice_indices :
  forall a b st n ids, (0 <= a)%Z -> (0 <= b)%Z -> (0 < st)%Z -> (0 <= n)%Z ->
  slice_indices (Some a) (Some b) (Some st) n = Ok ids ->
  forall i, In i ids <-> (a <= i < Z.min b n)%Z /\ ((i - a) mod st = 0)%Z.
Proof. exact slice_indices_spec. Qed.
Print Assumptions C09_slice_indices.

Example C09_slice_case :
  slice (Some 0%Z) None (Some 2%Z) [0; 1; 2; 3; 4] = Ok [0; 2; 4]
  /\ slice (Some 1%Z) None (Some 2%Z) [0; 1; 2; 3; 4] = Ok [1; 3]
  /\ slice None (Some (-1)%Z) None [0; 1; 2; 3; 4] = Ok [0; 1; 2; 3]
  /\ slice None None (Some (-2)%Z) [0; 1; 2; 3; 4] = Ok [4; 2; 0]
  /\ slice None None (Some 0%Z) [0; 1; 2; 3; 4] = Err ValueError.
Proof. repeat split; reflexivity. Qed.

(** a slice with positive total weight *)
Example C09_subset_case : forall a b c d : R, (0 < a)%R -> (0 < c)%R ->
  exists w1, get_subset (Some 0%Z) None (Some 2%Z) [[[a; b]; [c; d]]] = Ok w1 /\ (0 < rsum (flat w1))%R.
Proof. intros a b c d Ha Hc. exists [[[a]; [c]]]. split; [reflexivity|]. cbn. lra. Qed.

(** C09 (select) *)
Theorem C09_select :
  forall (I J : Type) (ix : J -> I) (obs : layout (I -> C)) w,
  select ix (init obs w) = init (lmap (fun (x : I -> C) j => x (ix j)) obs) w.
Proof. exact @select_ok. Qed.
Print Assumptions C09_select.

(** C09 (transform without linear map, or with a linear map on samples that are
    matrices (k, l)).  Missing: a linear map on samples that are vectors, where
    the claim is false (next theorem). *)
Theorem C09_transform_partial :
  forall (I J A L : Type) (obs : layout (I -> C)) (w : layout R),
  shape_eq obs w -> (forall p, In p (flat w) -> (0 < p)%R) ->
  (forall g : (I -> C) -> J -> C, transform (map g) (init obs w) = init (lmap g obs) w)
  /\ (forall (K : list nat) (v : A -> nat -> C) (g : (I -> C) -> nat * L -> C),
        transform_linear K v (map g) (init obs w)
        = init (lmap (fun x al => csum (map (fun k => (v (fst al) k * g x (k, snd al))%C) K)) obs) w).
Proof.
  intros I J A L obs w H HP.
  exact (conj (fun g => transform_ok g obs w H HP) (fun K v g => transform_linear_ok K v g obs w H HP)).
Qed.
Print Assumptions C09_transform_partial.

Example C09_transform_case :
  shape_eq ex_a ex_w /\ (forall p, In p (flat ex_w) -> (0 < p)%R)
  /\ mean (transform (map (fun (x : bool -> C) (_ : unit) => (x true * x false)%C)) (init ex_a ex_w)) tt = (0, 1)%R.
Proof.
  assert (H : shape_eq ex_a ex_w) by (repeat constructor).
  assert (P : forall p, In p (flat ex_w) -> (0 < p)%R).
  { intros p Hp. cbn in Hp. repeat (destruct Hp as [<-|Hp]; [lra|]). contradiction. }
  split; [exact H|split; [exact P|]]. rewrite transform_ok by assumption. unfold mean.
  rewrite init_mean by (apply (shape_trans _ ex_a); [apply shape_lmap|exact H]).
  unfold expect. cbn. Cunf. apply C_eq; cbn; lra.
Qed.

(** C09 (finding). linearFun on vector-valued observables mixes the samples
    instead of the components: swapping the two components of two samples. *)
Theorem C09_transform_linear_refuted :
  exists (obs : layout (nat -> C)) (w : layout R) (v : list (list C)) s,
    shape_eq obs w /\ (forall p, In p (flat w) -> (0 < p)%R) /\ rsum (flat w) = 1%R
    /\ transform_linear_flat v (fun X => X) (init obs w) = Ok s
    /\ so_mean s 0
       <> so_mean (init (lmap (fun (x : nat -> C) r => csum (map (fun k => (nth k (nth r v []) C0 * x k)%C) (seq 0 2))) obs) w) 0.
Proof.
  set (x1 := fun k : nat => RtoC (1 + INR k)). set (x2 := fun k : nat => RtoC (3 + INR k)).
  set (obs := [[[x1; x2]]]). set (w := [[[(1/2)%R; (1/2)%R]]]).
  assert (H : shape_eq obs w) by (repeat constructor).
  assert (P : forall p, In p (flat w) -> (0 < p)%R).
  { intros p Hp. cbn in Hp. repeat (destruct Hp as [<-|Hp]; [lra|]). contradiction. }
  exists obs, w, [[C0; C1]; [C1; C0]]. eexists. split; [exact H|]. split; [exact P|]. split; [cbn; lra|]. split.
  - unfold transform_linear_flat. rewrite trafo_arg_ok by assumption. reflexivity.
  - rewrite !init_mean by (repeat constructor). unfold expect. cbn. Cunf. subst x1 x2. cbn. intros E.
    apply (f_equal fst) in E. cbn in E. lra.
Qed.
Print Assumptions C09_transform_linear_refuted.

(** C10 (part). For one device per process: mean_and_grad is the expectation
    value and its exact gradient when the samples are the full basis with Born
    weights.  Missing: several devices per process, where the call fails (next). *)
Theorem C10_mean_and_grad_partial :
  forall (S : Type) (basis : layout S) (theta : nat -> R) (lr : S -> (nat -> R) -> R)
         (O : S -> (nat -> R) -> C) (psiG oG : S -> nat -> C),
  flat basis <> [] -> Forall (fun r => length r = 1) basis ->
  (forall s k, In s (flat basis) -> derivable_pt_lim (fun t => lr s (upd theta k t)) (theta k) (Re (psiG s k))) ->
  (forall s k, In s (flat basis) -> cderiv (fun t => O s (upd theta k t)) (theta k) (oG s k)) ->
  exists m g,
    mean_and_grad (lmap (fun s (_ : unit) => O s theta) basis) (lmap oG basis) (lmap psiG basis)
                  (lmap (born (flat basis) (fun u => lr u theta)) basis) = Ok (m, g)
    /\ m tt = energy (flat basis) lr O theta
    /\ forall k, cderiv (fun t => energy (flat basis) lr O (upd theta k t)) (theta k) (g k).
Proof.
  intros S basis theta lr O psiG oG Hne Hd Hp Ho. exact (mean_and_grad_ok basis theta lr O psiG oG Hne Hd Hp Ho).
Qed.
Print Assumptions C10_mean_and_grad_partial.

(** two states on two ranks, log-amplitudes 0 and theta_0, estimator theta_0 on
    the second state: the hypotheses hold *)
Example C10_case :
  let basis := [[[false]]; [[true]]] in
  let lr := fun (s : bool) (th : nat -> R) => if s then th 0 else 0%R in
  let O := fun (s : bool) (th : nat -> R) => if s then RtoC (th 0) else C0 in
  let G := fun (s : bool) (k : nat) => if s then (if Nat.eqb 0 k then C1 else C0) else C0 in
  forall theta : nat -> R,
  flat basis <> [] /\ Forall (fun r => length r = 1) basis
  /\ (forall s k, In s (flat basis) -> derivable_pt_lim (fun t => lr s (upd theta k t)) (theta k) (Re (G s k)))
  /\ (forall s k, In s (flat basis) -> cderiv (fun t => O s (upd theta k t)) (theta k) (G s k)).
Proof.
  intros basis lr O G theta. split; [discriminate|]. split; [repeat constructor|].
  split; intros s k _; unfold lr, O, G, cderiv, upd; destruct s, (Nat.eqb 0 k); cbn;
    repeat split; try apply derivable_pt_lim_const; apply derivable_pt_lim_id.
Qed.

(** C10 (finding). With two devices the call raises. *)
Theorem C10_mean_and_grad_refuted :
  exists (basis : layout bool) (lr : bool -> R),
    flat basis <> [] /\
    mean_and_grad (lmap (fun _ (_ : unit) => C1) basis) (lmap (fun _ (_ : nat) => C0) basis)
                  (lmap (fun _ _ => C0) basis) (lmap (born (flat basis) lr) basis) = Err ValueError.
Proof. exists [[[false]; [true]]], (fun _ => 0%R). split; [discriminate|reflexivity]. Qed.
Print Assumptions C10_mean_and_grad_refuted.
