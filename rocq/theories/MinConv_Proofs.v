(** Solutions of least length of perturbed equations. *)
From Coq Require Import ZArith List Reals Lia Lra Arith.
From Verif Require Import Base Cplx Povm_Spec Povm_Proofs Mpi_Model Mpi_Spec Stats_Model Stats_Spec Stats_Proofs BranchFree_Model Dist Ergo_Spec Ergo_Proofs Direct_Spec
  Tdvp_Model Tdvp_Spec Tdvp_Proofs Tdvp5_Proofs Vmc3_Proofs Msr_Proofs Conv_Model Conv_Spec Conv_Proofs MinConv_Model MinConv_Spec.
Import ListNotations.
Local Open Scope R_scope.

Lemma rsumn_S_ n f : rsumn (S n) f = rsumn n f + f n.
Proof. unfold rsumn. rewrite seq_S, map_app, rsum_app. cbn [map]. rewrite rsum_cons, rsum_nil. cbn [Nat.add]. ring. Qed.
Lemma rsumn_add_ n f g : rsumn n (fun k => f k + g k) = rsumn n f + rsumn n g.
Proof. unfold rsumn. apply rsum_map_add. Qed.

Lemma cs_step s a b A B : Cnorm2 s <= A * B -> 0 <= A -> 0 <= B -> Cnorm2 (s + a * b)%C <= (A + Cnorm2 a) * (B + Cnorm2 b).
Proof.
  intros H HA HB. set (x := Cnorm2 a). set (y := Cnorm2 b). assert (Hx : 0 <= x) by apply Cnorm2_ge. assert (Hy : 0 <= y) by apply Cnorm2_ge.
  set (p := (a * b)%C). assert (Hp : Cnorm2 p = x * y) by apply Cnorm2_mul.
  set (c := fst s * fst p + snd s * snd p).
  assert (E1 : Cnorm2 (s + p)%C = Cnorm2 s + 2 * c + Cnorm2 p) by (unfold Cnorm2, c; destruct s, p; cbn; ring).
  assert (E2 : c * c <= Cnorm2 s * Cnorm2 p).
  { unfold Cnorm2, c. pose proof (Rle_0_sqr (fst s * snd p - snd s * fst p)) as Q. unfold Rsqr in Q. nra. }
  assert (E3 : Cnorm2 s * Cnorm2 p <= (A * B) * (x * y)) by (rewrite Hp; apply Rmult_le_compat_r; [now apply Rmult_le_pos|exact H]).
  assert (E4 : 2 * c <= A * y + B * x).
  { set (t := A * y + B * x). assert (Ht : 0 <= t) by (unfold t; apply Rplus_le_le_0_compat; now apply Rmult_le_pos).
    apply Rsqr_incr_0_var; [|exact Ht]. unfold Rsqr. pose proof (Rle_0_sqr (A * y - B * x)) as Q. unfold Rsqr in Q. unfold t. nra. }
  rewrite E1, Hp. nra.
Qed.
Lemma cs_complex n a b : Cnorm2 (csumn n (fun k => (a k * b k)%C)) <= rsumn n (fun k => Cnorm2 (a k)) * rsumn n (fun k => Cnorm2 (b k)).
Proof.
  induction n as [|n IH]; [cbn; unfold Cnorm2; cbn; lra|]. rewrite csumn_S, !rsumn_S_. apply cs_step; [exact IH| |]; apply rsumn_nonneg; intros; apply Cnorm2_ge.
Qed.
Lemma Cnorm2_add_le a b : Cnorm2 (a + b)%C <= 2 * Cnorm2 a + 2 * Cnorm2 b.
Proof. replace (a + b)%C with (a - - b)%C by ring. rewrite <- (Cnorm2_opp b). apply Cnorm2_sub_le. Qed.

Definition sq (n : nat) (v : nat -> C) : R := rsumn n (fun k => Cnorm2 (v k)).
Definition sq2 (n : nat) (A : mat) : R := rsumn n (fun i => sq n (A i)).
Lemma sq_ge n v : 0 <= sq n v. Proof. apply rsumn_nonneg. intros. apply Cnorm2_ge. Qed.
Lemma sq2_ge n A : 0 <= sq2 n A. Proof. apply rsumn_nonneg. intros. apply sq_ge. Qed.
Lemma sq_apply n A v : sq n (apply n A v) <= sq2 n A * sq n v.
Proof.
  unfold sq at 1, sq2. rewrite Rmult_comm, <- rsumn_scal. apply rsumn_le. intros i _. rewrite Rmult_comm. apply (cs_complex n (A i) v).
Qed.
Lemma sq_add n u v : sq n (fun k => (u k + v k)%C) <= 2 * sq n u + 2 * sq n v.
Proof. unfold sq. rewrite <- !rsumn_scal, <- rsumn_add_. apply rsumn_le. intros. apply Cnorm2_add_le. Qed.
Lemma sq_ext n u v : (forall k, (k < n)%nat -> u k = v k) -> sq n u = sq n v.
Proof. intros H. apply rsumn_ext. intros k Hk. now rewrite H. Qed.

Section Geometry.
  Variables (n : nat) (M X : mat).
  Hypothesis P1 : same n (mul n (mul n M X) M) M.
  Hypothesis P4 : hermitian n (mul n X M).
  (** solutions of least length lie in the range of X M *)
  Lemma least_fixed M1 b1 u : (forall v, (forall k, (k < n)%nat -> apply n M v k = C0) -> forall k, (k < n)%nat -> apply n M1 v k = C0) ->
    (forall k, (k < n)%nat -> apply n M1 u k = b1 k) -> (forall z, (forall k, (k < n)%nat -> apply n M1 z k = b1 k) -> len n u <= len n z) ->
    forall k, (k < n)%nat -> apply n X (apply n M u) k = u k.
  Proof.
    intros HK Hu Hmin. set (z := apply n X (apply n M u)). set (d := fun k => (u k - z k)%C).
    assert (sub : forall A x y k, apply n A (fun k => (x k - y k)%C) k = (apply n A x k - apply n A y k)%C).
    { intros A x y k. unfold apply. rewrite <- csumn_sub. apply csumn_ext. intros. ring. }
    assert (D : forall k, (k < n)%nat -> apply n M d k = C0).
    { intros k Hk. unfold d. rewrite sub. unfold z. rewrite <- apply_mul. rewrite <- apply_mul.
      assert (Q : apply n (mul n (mul n M X) M) u k = apply n M u k) by (apply apply_ext; [intros; now apply P1|reflexivity]).
      rewrite Q. ring. }
    assert (Hz : len n u <= len n z).
    { apply Hmin. intros k Hk. pose proof (HK d D k Hk) as H. unfold d in H. rewrite sub, (Hu k Hk) in H. transitivity (b1 k - (b1 k - apply n M1 z k))%C; [ring|rewrite H; ring]. }
    assert (Or : inner n z d = C0).
    { assert (Q : inner n z d = inner n (apply n (mul n X M) u) d) by (apply inner_ext; [intros; unfold z; now rewrite apply_mul|reflexivity]).
      rewrite Q, inner_apply. transitivity (inner n u (fun _ => C0)).
      - apply inner_ext; [reflexivity|]. intros k Hk. transitivity (apply n (mul n X M) d k); [apply apply_ext; [intros; now apply P4|reflexivity]|].
        rewrite apply_mul. unfold apply at 1. transitivity (csumn n (fun _ => C0)); [|apply csumn_zero]. apply csumn_ext. intros j Hj. rewrite D by assumption. ring.
      - unfold inner. transitivity (csumn n (fun _ => C0)); [apply csumn_ext; intros; ring|apply csumn_zero]. }
    assert (Py : sq n u = sq n z + sq n d).
    { unfold sq. apply RtoC_inj. rewrite RtoC_add, <- !inner_self. assert (Or' : inner n d z = C0) by (rewrite <- inner_conj, Or; apply Cconj_C0).
      transitivity (inner n z z + inner n d d + (inner n z d + inner n d z))%C; [|rewrite Or, Or'; ring]. unfold inner. rewrite <- !csumn_add. apply csumn_ext. intros k _. unfold d. rewrite Cconj_sub. ring. }
    assert (Lz : sq n u <= sq n z). { unfold sq. rewrite <- !len_sq. pose proof (len_ge n u). apply Rmult_le_compat; lra. }
    pose proof (sq_ge n d) as Hd. assert (Z : sq n d = 0) by lra. intros k Hk. change (z k = u k).
    assert (Q : d k = C0) by (apply Cnorm2_eq0; exact (rsumn_eq0 n (fun k => Cnorm2 (d k)) (fun k _ => Cnorm2_ge (d k)) Z k Hk)).
    unfold d in Q. transitivity (u k - (u k - z k))%C; [ring|rewrite Q; ring].
  Qed.
  (** perturbed matrix and right-hand side *)
  Lemma perturbed M1 b b1 u v : (forall k, (k < n)%nat -> apply n M u k = b k) -> (forall k, (k < n)%nat -> apply n M1 v k = b1 k) ->
    (forall k, (k < n)%nat -> apply n X (apply n M u) k = u k) -> (forall k, (k < n)%nat -> apply n X (apply n M v) k = v k) ->
    forall eta, 0 <= eta -> 8 * sq2 n X * eta <= 1 -> sq2 n (fun i j => (M1 i j - M i j)%C) + sq n (fun k => (b1 k - b k)%C) <= eta ->
    sq n (minus v u) <= 8 * sq2 n X * eta * (sq n u + 1).
  Proof.
    intros Hu Hv Fu Fv eta He Hx HD. set (dl := sq2 n (fun i j => (M1 i j - M i j)%C)) in *. set (ph := sq n (fun k => (b1 k - b k)%C)) in *.
    set (d := minus v u). set (r := fun k => (- apply n (fun i j => (M1 i j - M i j)%C) v k + (b1 k - b k))%C).
    assert (Er : forall k, (k < n)%nat -> apply n M d k = r k).
    { intros k Hk. unfold r. rewrite <- (Hv k Hk), <- (Hu k Hk). unfold d, minus, apply.
      transitivity (csumn n (fun k0 => M k k0 * v k0) - csumn n (fun k0 => M k k0 * u k0))%C; [rewrite <- csumn_sub; apply csumn_ext; intros; ring|].
      transitivity (- (csumn n (fun k0 => M1 k k0 * v k0) - csumn n (fun k0 => M k k0 * v k0)) + (csumn n (fun k0 => M1 k k0 * v k0) - csumn n (fun k0 => M k k0 * u k0)))%C; [ring|].
      f_equal. f_equal. rewrite <- csumn_sub. apply csumn_ext. intros. ring. }
    assert (Ed : sq n d = sq n (apply n X r)).
    { apply sq_ext. intros k Hk. unfold d, minus. rewrite <- (Fv k Hk), <- (Fu k Hk). unfold apply at 1 3 5. rewrite <- csumn_sub. apply csumn_ext. intros j Hj.
      rewrite <- (Er j Hj). unfold d, minus, apply. transitivity (X k j * (csumn n (fun k0 => M j k0 * v k0) - csumn n (fun k0 => M j k0 * u k0)))%C; [ring|]. f_equal. rewrite <- csumn_sub. apply csumn_ext. intros. ring. }
    assert (Br : sq n r <= 2 * (dl * sq n v) + 2 * ph).
    { unfold r. eapply Rle_trans; [apply (sq_add n (fun k => (- apply n (fun i j => (M1 i j - M i j)%C) v k)%C))|].
      assert (O : sq n (fun k => (- apply n (fun i j => (M1 i j - M i j)%C) v k)%C) = sq n (apply n (fun i j => (M1 i j - M i j)%C) v)) by (apply rsumn_ext; intros; apply Cnorm2_opp).
      rewrite O. pose proof (sq_apply n (fun i j => (M1 i j - M i j)%C) v). fold dl in H. fold ph. lra. }
    assert (Bv : sq n v <= 2 * sq n d + 2 * sq n u).
    { rewrite <- (sq_ext n (fun k => (d k + u k)%C) v); [apply sq_add|]. intros. unfold d, minus. ring. }
    pose proof (sq_apply n X r) as BX. rewrite <- Ed in BX. set (x := sq2 n X) in *. set (D := sq n d) in *. set (U := sq n u) in *.
    assert (Hx0 : 0 <= x) by apply sq2_ge. assert (Hd0 : 0 <= dl) by apply sq2_ge. assert (Hp0 : 0 <= ph) by apply sq_ge. assert (HU : 0 <= U) by apply sq_ge. assert (HD0 : 0 <= D) by apply sq_ge.
    assert (S1 : D <= x * (2 * (dl * (2 * D + 2 * U)) + 2 * ph)).
    { eapply Rle_trans; [exact BX|]. apply Rmult_le_compat_l; [exact Hx0|]. eapply Rle_trans; [exact Br|]. apply Rplus_le_compat_r, Rmult_le_compat_l; [lra|]. now apply Rmult_le_compat_l. }
    assert (S2 : x * dl <= x * eta) by (apply Rmult_le_compat_l; lra). assert (S3 : x * ph <= x * eta) by (apply Rmult_le_compat_l; lra).
    assert (S4 : (x * dl) * D <= / 8 * D) by (apply Rmult_le_compat_r; lra).
    assert (S5 : (x * dl) * U <= (x * eta) * U) by (apply Rmult_le_compat_r; lra).
    replace (x * (2 * (dl * (2 * D + 2 * U)) + 2 * ph)) with (4 * ((x * dl) * D) + 4 * ((x * dl) * U) + 2 * (x * ph)) in S1 by ring.
    replace (8 * x * eta * (U + 1)) with (8 * ((x * eta) * U) + 8 * (x * eta)) by ring. pose proof (Rmult_le_pos _ _ Hx0 He). lra.
  Qed.
End Geometry.

(** ** a generalised inverse of S from one of the kernel *)
Section Inverse.
  Variables (N n : nat) (O Y : mat).
  Let T : mat := fun i j => csumn n (fun k => (O i k * Cconj (O j k))%C).
  Let M : mat := fun k l => csumn N (fun i => (Cconj (O i k) * O i l)%C).
  Hypothesis PI : pseudo_inverse N T Y.
  Let col (k : nat) : nat -> C := fun i => O i k.
  Let W : mat := mul N Y (mul N T (dagger Y)).
  Lemma T_dag i j : dagger T i j = T i j.
  Proof. unfold dagger, T. rewrite csumn_conj. apply csumn_ext. intros. rewrite Cconj_mul, Cconj_conj. ring. Qed.
  Lemma mul_dag A B i j : dagger (mul N A B) i j = mul N (dagger B) (dagger A) i j.
  Proof. unfold dagger, mul. rewrite csumn_conj. apply csumn_ext. intros. rewrite Cconj_mul. ring. Qed.
  Lemma mul_ext A B A' B' i j : (forall k, (k < N)%nat -> A i k = A' i k) -> (forall k, (k < N)%nat -> B k j = B' k j) -> mul N A B i j = mul N A' B' i j.
  Proof. intros H1 H2. unfold mul. apply csumn_ext. intros k Hk. now rewrite H1, H2. Qed.
  Lemma mul_assoc_ A B D i j : mul N (mul N A B) D i j = mul N A (mul N B D) i j.
  Proof.
    unfold mul. rewrite (csumn_ext N _ (fun k => csumn N (fun l => A i l * B l k * D k j)%C)) by (intros; now rewrite <- csumn_scal_r).
    rewrite csumn_swap. apply csumn_ext. intros l _. rewrite <- csumn_scal. apply csumn_ext. intros. ring.
  Qed.
  (** T Y^+ = Y T and Y^+ T = T Y *)
  Lemma TYd i j : (i < N)%nat -> (j < N)%nat -> mul N T (dagger Y) i j = mul N Y T i j.
  Proof.
    intros Hi Hj. destruct PI as (_ & _ & _ & P4). rewrite <- (P4 i j Hi Hj), mul_dag. unfold mul. apply csumn_ext. intros. now rewrite T_dag.
  Qed.
  Lemma YdT i j : (i < N)%nat -> (j < N)%nat -> mul N (dagger Y) T i j = mul N T Y i j.
  Proof.
    intros Hi Hj. destruct PI as (_ & _ & P3 & _). rewrite <- (P3 i j Hi Hj), mul_dag. unfold mul. apply csumn_ext. intros. now rewrite T_dag.
  Qed.
  Lemma dagger_PI : pseudo_inverse N T (dagger Y).
  Proof.
    pose proof PI as (P1 & P2 & P3 & P4). split; [|split; [|split]]; intros i j Hi Hj.
    - rewrite mul_assoc_. transitivity (dagger (mul N (mul N T Y) T) i j); [|unfold dagger; rewrite P1 by assumption; apply T_dag].
      rewrite mul_dag. apply mul_ext; intros k Hk; [now rewrite T_dag|]. rewrite mul_dag. apply mul_ext; intros; [reflexivity|now rewrite T_dag].
    - rewrite mul_assoc_. transitivity (dagger (mul N (mul N Y T) Y) i j); [|unfold dagger; now rewrite P2].
      rewrite mul_dag. apply mul_ext; intros k Hk; [reflexivity|]. rewrite mul_dag. apply mul_ext; intros; [now rewrite T_dag|reflexivity].
    - unfold dagger at 1. rewrite !TYd by assumption. exact (P4 i j Hi Hj).
    - unfold dagger at 1. rewrite !YdT by assumption. exact (P3 i j Hi Hj).
  Qed.
  Lemma fixed_columns X k i : pseudo_inverse N T X -> (k < n)%nat -> (i < N)%nat -> apply N T (apply N X (col k)) i = col k i.
  Proof.
    intros PX Hk Hi. pose proof (QO N n O X PX i k Hi Hk) as H. rewrite <- apply_mul.
    assert (E : csumn N (fun j => ((ident i j - mul N T X i j) * O j k)%C) = (col k i - apply N (mul N T X) (col k) i)%C).
    { rewrite <- (apply_ident N (col k) i Hi) at 1. unfold apply. rewrite <- csumn_sub. apply csumn_ext. intros. unfold col. ring. }
    change (csumn N (fun j => ((ident i j - mul N T X i j) * O j k)%C) = C0) in H. rewrite E in H. transitivity (col k i - (col k i - apply N (mul N T X) (col k) i))%C; [ring|rewrite H; ring].
  Qed.
  Lemma W_col k i : (k < n)%nat -> (i < N)%nat -> apply N W (col k) i = apply N Y (col k) i.
  Proof.
    intros Hk Hi. unfold W. rewrite apply_mul. apply apply_ext; [reflexivity|]. intros j Hj. rewrite apply_mul. apply (fixed_columns (dagger Y)); [apply dagger_PI|assumption|assumption].
  Qed.
  Lemma TW_col k i : (k < n)%nat -> (i < N)%nat -> apply N T (apply N W (col k)) i = col k i.
  Proof. intros Hk Hi. rewrite <- (fixed_columns Y k i PI Hk Hi). apply apply_ext; [reflexivity|]. intros j Hj. now apply W_col. Qed.
  Lemma WT_col k i : (k < n)%nat -> (i < N)%nat -> apply N W (apply N T (col k)) i = col k i.
  Proof.
    intros Hk Hi. unfold W. rewrite apply_mul. transitivity (apply N Y (apply N T (col k)) i).
    - apply apply_ext; [reflexivity|]. intros j Hj. rewrite apply_mul. apply apply_ext; [reflexivity|]. intros l Hl. rewrite <- apply_mul.
      transitivity (apply N (mul N T Y) (col k) l); [apply apply_ext; [intros; now apply YdT|reflexivity]|]. rewrite apply_mul. now apply (fixed_columns Y).
    - rewrite <- apply_mul. transitivity (apply N (mul N T (dagger Y)) (col k) i); [apply apply_ext; [intros; symmetry; now apply TYd|reflexivity]|]. rewrite apply_mul. apply (fixed_columns (dagger Y)); [apply dagger_PI|assumption|assumption].
  Qed.
  Lemma W_herm i j : dagger W i j = W i j.
  Proof.
    unfold W. rewrite mul_dag. rewrite (mul_ext _ _ (mul N Y T) (dagger Y)).
    - apply mul_assoc_.
    - intros k _. rewrite mul_dag. apply mul_ext; intros; [unfold dagger; apply Cconj_conj|apply T_dag].
    - reflexivity.
  Qed.
  Lemma resolve a b : csumn n (fun m => (inner N a (col m) * inner N (col m) b)%C) = inner N a (apply N T b).
  Proof.
    unfold inner, apply, T, col. rewrite (csumn_ext n _ (fun m => csumn N (fun i => Cconj (a i) * (O i m * csumn N (fun j => Cconj (O j m) * b j)))%C)) by (intros; rewrite <- csumn_scal_r; apply csumn_ext; intros; ring).
    rewrite csumn_swap. apply csumn_ext. intros i _. rewrite csumn_scal. f_equal.
    rewrite (csumn_ext n _ (fun m => csumn N (fun j => O i m * Cconj (O j m) * b j)%C)) by (intros; rewrite <- csumn_scal; apply csumn_ext; intros; ring).
    rewrite csumn_swap. apply csumn_ext. intros j _. now rewrite csumn_scal_r.
  Qed.
  Definition gen_inverse : mat := fun k l => inner N (apply N W (apply N W (col k))) (col l).
  Lemma W_inner a b : inner N (apply N W a) b = inner N a (apply N W b).
  Proof. rewrite inner_apply. apply inner_ext; [reflexivity|]. intros i Hi. apply apply_ext; [intros; apply W_herm|reflexivity]. Qed.
  Lemma gen_M k l : (k < n)%nat -> (l < n)%nat -> mul n gen_inverse M k l = inner N (col k) (apply N W (col l)).
  Proof.
    intros Hk Hl. unfold mul, gen_inverse. change (csumn n (fun m => (inner N (apply N W (apply N W (col k))) (col m) * inner N (col m) (col l))%C) = inner N (col k) (apply N W (col l))).
    rewrite resolve, W_inner, W_inner. apply inner_ext; [reflexivity|]. intros i Hi. apply apply_ext; [reflexivity|]. intros j Hj. now apply WT_col.
  Qed.
  Lemma gen_herm : hermitian n (mul n gen_inverse M).
  Proof. intros k l Hk Hl. unfold dagger. rewrite !gen_M by assumption. now rewrite inner_conj, W_inner. Qed.
  Lemma M_gen_M : same n (mul n (mul n M gen_inverse) M) M.
  Proof.
    intros k l Hk Hl. transitivity (csumn n (fun m => (inner N (col k) (col m) * mul n gen_inverse M m l)%C)).
    - unfold mul. rewrite (csumn_ext n _ (fun a => csumn n (fun b => M k b * gen_inverse b a * M a l)%C)) by (intros; now rewrite <- csumn_scal_r).
      rewrite csumn_swap. apply csumn_ext. intros b _. rewrite <- csumn_scal. apply csumn_ext. intros. unfold M at 1. unfold inner, col. ring.
    - rewrite (csumn_ext n _ (fun m => inner N (col k) (col m) * inner N (col m) (apply N W (col l)))%C) by (intros; now rewrite gen_M).
      rewrite resolve. apply inner_ext; [reflexivity|]. intros i Hi. now apply TW_col.
  Qed.
End Inverse.

(** ** the equations of samples *)
Section Fisher.
  Variables (n : nat) (G : config -> nat -> C) (Eloc : config -> C).
  Definition fisher_of (ens : list (R * config)) : mat := fun k l => cov ens (fun s => G s k) (fun s => G s l).
  Definition rhs_of (ens : list (R * config)) : nat -> C := fun k => (- cov ens (fun s => G s k) Eloc)%C.
  Lemma fisher_apply ens v k : apply n (fisher_of ens) v k = cov ens (fun s => G s k) (fun s => csumn n (fun l => (v l * G s l)%C)).
  Proof. unfold csumn. rewrite (cov_csum_r ens (fun s => G s k) v (fun l s => G s l)). unfold apply, fisher_of, csumn. apply csum_ext. intros. ring. Qed.
  (** directions in which the exact S vanishes do not change any relative amplitude *)
  Lemma kernel space P q : rsum (map P space) = 1 -> (forall s, In s space -> 0 < P s) -> good_sample space q ->
    forall v, (forall k, (k < n)%nat -> apply n (fisher_of (ensemble space P)) v k = C0) -> forall k, (k < n)%nat -> apply n (fisher_of (ens_of q)) v k = C0.
  Proof.
    intros H1 HP Hq v Hv k Hk. set (h := fun s => csumn n (fun l => (v l * G s l)%C)). pose proof (ens1 space P H1) as M1.
    assert (V : variance (ensemble space P) h = 0).
    { apply RtoC_inj. rewrite (variance_cov _ _ M1), cov_herm. unfold h at 2. unfold csumn. rewrite (cov_csum_r (ensemble space P) h v (fun l s => G s l)).
      change (RtoC 0) with C0. rewrite <- Cconj_C0. f_equal. transitivity (csumn n (fun _ => C0)); [|apply csumn_zero]. apply csumn_ext. intros l Hl. rewrite cov_herm.
      pose proof (Hv l Hl) as Z. rewrite fisher_apply in Z. fold h in Z. rewrite Z, Cconj_C0. ring. }
    set (a := expect (ensemble space P) h) in *.
    assert (K : forall s, In s space -> h s = a).
    { intros s Hs. assert (Z : P s * Cnorm2 (h s - a)%C = 0).
      { refine (rsum_nonneg_eq0 (fun px => fst px * Cnorm2 (h (snd px) - a)%C) (ensemble space P) _ V (P s, s) _).
        - intros px Hx. unfold ensemble in Hx. apply in_map_iff in Hx as (t & <- & Ht). apply Rmult_le_pos; [apply Rlt_le, HP, Ht|apply Cnorm2_ge].
        - unfold ensemble. apply in_map_iff. now exists s. }
      apply Rmult_integral in Z as [Z|Z]; [specialize (HP s Hs); lra|]. apply Cnorm2_eq0 in Z. transitivity (h s - a + a)%C; [ring|rewrite Z; ring]. }
    rewrite fisher_apply. fold h. unfold cov. rewrite (expect_ext _ h (fun _ => a)) by (intros px Hx; apply K; now apply (ens_nonneg space q Hq)).
    rewrite (expect_ext _ (fun s => (Cconj (G s k) * h s)%C) (fun s => (Cconj (G s k) * a)%C)) by (intros px Hx; f_equal; apply K; now apply (ens_nonneg space q Hq)).
    rewrite expect_scal_r, expect_conj, expect_const, (ens_total space q Hq). change (RtoC 1) with C1. ring.
  Qed.
  Lemma fisher_gram space P : rsum (map P space) = 1 -> (forall s, In s space -> 0 <= P s) ->
    exists m (O : nat -> nat -> C), forall i j, fisher_of (ensemble space P) i j = csumn m (fun k => (Cconj (O k i) * O k j)%C).
  Proof.
    intros H1 HP. set (mean k := expect (ensemble space P) (fun s => G s k)).
    exists (length space), (fun k i => Cscal (sqrt (P (nth k space []))) (G (nth k space []) i - mean i)%C). intros i j.
    unfold fisher_of. rewrite <- cov_centred by (now apply ens1). fold (mean i) (mean j). unfold expect, ensemble. rewrite map_map. cbn [fst snd].
    unfold csumn. set (f := fun s : config => (Cconj (Cscal (sqrt (P s)) (G s i - mean i)) * Cscal (sqrt (P s)) (G s j - mean j))%C). transitivity (csum (map f space)).
    - apply csum_ext. intros s Hs. unfold f. pose proof (sqrt_sqrt (P s) (HP s Hs)) as Q. destruct (G s i - mean i)%C as [a b], (G s j - mean j)%C as [c d]. unfold Cscal, Cconj. cbn [fst snd]. unfold Cmul. cbn [fst snd].
      apply C_eq; cbn [fst snd].
      + transitivity ((sqrt (P s) * sqrt (P s)) * (a * c - - b * d)); [rewrite Q; ring|ring].
      + transitivity ((sqrt (P s) * sqrt (P s)) * (a * d + - b * c)); [rewrite Q; ring|ring].
    - change (csum (map f space) = csum (map (fun k => f (nth k space [])) (seq 0 (length space)))).
      f_equal. rewrite <- (map_map (fun k => nth k space []) f). f_equal. clear. induction space as [|s l IH]; [reflexivity|]. cbn [length seq map nth]. f_equal. rewrite <- seq_shift, map_map. exact IH.
  Qed.
End Fisher.
