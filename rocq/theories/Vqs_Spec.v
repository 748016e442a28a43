(** Independent specification for variational states. *)
From Coq Require Import List Reals Bool Arith.
From Verif Require Import Base Cplx Vqs_Model.
Import ListNotations.

(** [P] with t added to entry k *)
Fixpoint shift_entry (k : nat) (t : R) (P : list R) : list R :=
  match P, k with [], _ => [] | x :: r, O => (x + t)%R :: r | x :: r, S j => x :: shift_entry j t r end.
(** a leaf / tree with d added to one entry *)
Fixpoint shift_leaf (j : nat) (d : C) (x : list C) : list C :=
  match x, j with [], _ => [] | a :: r, O => Cadd a d :: r | a :: r, S i => a :: shift_leaf i d r end.
Fixpoint shift_tree (l j : nat) (d : C) (t : tree) : tree :=
  match t, l with [], _ => [] | x :: r, O => shift_leaf j d x :: r | x :: r, S m => x :: shift_tree m j d r end.

(** a network object whose parameters have the announced sizes (and are real if it says so) *)
Definition good (q : nqs) : Prop :=
  nq_init q = true /\ map (@length C) (nq_params q) = nq_shapes q
  /\ (nq_real q = true -> Forall (Forall (fun z => Im z = 0%R)) (nq_params q)).
(** length of the flat parameter vector *)
Definition flat_size (q : nqs) : nat := (if nq_real q then 1 else 2) * fold_right Nat.add 0 (nq_shapes q).

Definition entry (t : tree) (l j : nat) : C := nth j (nth l t []) C0.
Definition in_tree (t : tree) (l j : nat) : Prop := l < length t /\ j < length (nth l t []).

(** partial derivative of a real function of the parameters in the direction [u] of an entry *)
Definition partial (h : tree -> R) (t : tree) (l j : nat) (u : C) (d : R) : Prop :=
  derivable_pt_lim (fun x => h (shift_tree l j (Cscal x u) t)) 0 d.
(** What jax.grad returns for a real-valued function: the derivative for a real parameter,
    d/dx - i d/dy for a complex one (jax documentation of grad). *)
Definition is_jax_grad (realParams : bool) (h : tree -> R) (t g : tree) : Prop :=
  map (@length C) g = map (@length C) t
  /\ forall l j, in_tree t l j ->
     if realParams then exists dx, partial h t l j C1 dx /\ entry g l j = (dx, 0%R)
     else exists dx dy, partial h t l j C1 dx /\ partial h t l j Ci dy /\ entry g l j = (dx, (- dy)%R).
(** Cauchy-Riemann equations for all parameters *)
Definition cauchy_riemann (f : tree -> C) (t : tree) : Prop :=
  forall l j, in_tree t l j -> exists a b,
    partial (fun p => Re (f p)) t l j C1 a /\ partial (fun p => Im (f p)) t l j Ci a
    /\ partial (fun p => Im (f p)) t l j C1 b /\ partial (fun p => Re (f p)) t l j Ci (- b)%R.

(** complex derivative d of log psi when the k-th entry of the flat parameter vector is changed *)
Definition derivative_at (f : tree -> C) (q : nqs) (k : nat) (d : C) : Prop :=
  exists P net, get_parameters q = Some P
  /\ (forall t, set_parameters q (PVec (shift_entry k t P)) = Ok (net t))
  /\ derivable_pt_lim (fun t => Re (f (nq_params (net t)))) 0 (Re d)
  /\ derivable_pt_lim (fun t => Im (f (nq_params (net t)))) 0 (Im d).

(** [q1] is the network [q] holding the parameters [P] *)
Definition holds (q : nqs) (P : pvalue) (q1 : nqs) : Prop :=
  match P with PVec v => get_parameters q1 = Some v | PDict t => nq_params q1 = t end
  /\ nq_init q1 = nq_init q /\ nq_real q1 = nq_real q /\ nq_shapes q1 = nq_shapes q /\ nq_other q1 = nq_other q.
Definition valid_value (q : nqs) (P : pvalue) : Prop := match P with PVec v => length v = flat_size q | PDict _ => True end.
