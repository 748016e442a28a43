(** Independent specification of operators built from local operators. *)
From Coq Require Import List Reals Arith Bool.
From Verif Require Import Base Cplx BranchFree_Model.
Import ListNotations.

(** replace the local state of site i *)
Definition put (i v : nat) (s : config) : config := firstn i s ++ v :: skipn (S i) s.

Definition sgn (n : nat) : C := if Nat.even n then C1 else (- C1)%C.
(** number of particles to the right of site i *)
Definition occ_right (i : nat) (s : config) : nat := nsum (skipn (S i) s).

(** Action of a local operator on a basis state: new state and factor *)
Definition act1 (o : localop) (s : config) : config * C :=
  let x := nth (lo_idx o) s 0 in
  (put (lo_idx o) (nth x (lo_map o) 0) s,
   ((if lo_fermi o then sgn (occ_right (lo_idx o) s) else C1) * nth x (lo_els o) C0)%C).

(** Action of a product of operators, the rightmost first *)
Fixpoint act (ops : list localop) (s : config) : config * C :=
  match ops with
  | [] => (s, C1)
  | o :: r => let '(s1, c1) := act r s in
              let '(s2, c2) := act1 o s1 in (s2, (c2 * c1)%C)
  end.

(** well-formed local operators and configurations *)
Definition wf_op (lDim n : nat) (o : localop) : Prop :=
  lo_idx o < n /\ length (lo_map o) = lDim /\ length (lo_els o) = lDim
  /\ (forall x, In x (lo_map o) -> x < lDim)
  /\ (lo_fermi o = true -> lDim = 2)
  /\ (lo_diag o = true -> lo_map o = seq 0 lDim).
Definition wf_config (lDim n : nat) (s : config) : Prop :=
  length s = n /\ 0 < n /\ forall x, In x s -> x < lDim.

(** an operator string: optional prefactor and a product of local operators *)
Definition ostring (A : Type) := (option (pfun A) * list localop)%type.
Definition to_opstr {A} (st : ostring A) : opstr A :=
  match fst st with
  | Some p => EFun p :: map EOp (snd st)
  | None => map EOp (snd st)
  end.
Definition wf_string {A} (lDim n : nat) (st : ostring A) : Prop :=
  Forall (wf_op lDim n) (snd st) /\ (fst st = None -> snd st <> []).
Definition prefactor_is {A} (args : list A) (st : ostring A) (v : C) : Prop :=
  match fst st with None => v = C1 | Some p => call p args = Ok v end.

(** values of the factors, and the operators, among the arguments of OpStr(...) *)
Inductive factor_values {A} (args : list A) : list (oarg A) -> list C -> list localop -> Prop :=
| fv_nil : factor_values args [] [] []
| fv_num c l vs ops : factor_values args l vs ops -> factor_values args (ANum c :: l) (c :: vs) ops
| fv_fun p v l vs ops : call p args = Ok v -> factor_values args l vs ops -> factor_values args (AFun p :: l) (v :: vs) ops
| fv_op o l vs ops : factor_values args l vs ops -> factor_values args (AOp o :: l) vs (o :: ops).

(** sum of matrix element times function value *)
Definition contract (els : list (config * C)) (f : config -> C) : C :=
  csum (map (fun sm => (snd sm * f (fst sm))%C) els).

(** ** operators acting on wave functions *)
Definition wavefun := config -> C.
Definition msum (n : nat) (f : nat -> C) : C := csum (map f (seq 0 n)).

(** local operator with matrix M a b = <a|M|b> on site i: (M psi)(s) = sum_b <s_i|M|b> psi(s with b) *)
Definition on_site (lDim : nat) (M : nat -> nat -> C) (i : nat) (psi : wavefun) : wavefun :=
  fun s => msum lDim (fun b => (M (nth i s 0) b * psi (put i b s))%C).

(** Pauli matrices in the basis 0 = down, 1 = up *)
Definition pauli_x (a b : nat) : C := match a, b with 0, 1 | 1, 0 => C1 | _, _ => C0 end.
Definition pauli_y (a b : nat) : C := match a, b with 0, 1 => Ci | 1, 0 => (- Ci)%C | _, _ => C0 end.
Definition pauli_z (a b : nat) : C := match a, b with 0, 0 => (- C1)%C | 1, 1 => C1 | _, _ => C0 end.
Definition s_plus (a b : nat) : C := match a, b with 1, 0 => C1 | _, _ => C0 end.
Definition s_minus (a b : nat) : C := match a, b with 0, 1 => C1 | _, _ => C0 end.

(** basis state *)
Definition delta (s : config) : wavefun := fun t => if list_eq_dec Nat.eq_dec t s then C1 else C0.

(** a local operator of the code read as ket action: <a|o|b> = els b if a = map b,
    with the fermionic sign *)
Definition ket_op (lDim : nat) (o : localop) (psi : wavefun) : wavefun :=
  fun t => msum lDim (fun b =>
    ((if lo_fermi o then sgn (occ_right (lo_idx o) t) else C1)
     * (if nth b (lo_map o) 0 =? nth (lo_idx o) t 0 then nth b (lo_els o) C0 else C0)
     * psi (put (lo_idx o) b t))%C).
Fixpoint ket_ops (lDim : nat) (ops : list localop) (psi : wavefun) : wavefun :=
  match ops with [] => psi | o :: r => ket_op lDim o (ket_ops lDim r psi) end.

(** two lists of operator strings represent the same operator *)
Definition same_operator (lDim n : nat) (a b : list (opstr unit)) : Prop :=
  forall s, wf_config lDim n s ->
  exists ea eb, operator_elements lDim n a [] s = Ok ea /\ operator_elements lDim n b [] s = Ok eb
    /\ forall f, contract ea f = contract eb f.
Definition is_zero_operator (lDim n : nat) (a : list (opstr unit)) : Prop :=
  forall s, wf_config lDim n s ->
  exists ea, operator_elements lDim n a [] s = Ok ea /\ forall f, contract ea f = C0.

(** ** predefined operators by name, with the matrices their names stand for *)
Inductive opname := NId | NX | NY | NZ | NP | NM.
Definition op_of (o : opname) (i : nat) : localop :=
  match o with NId => Id i 2 | NX => Sx i | NY => Sy i | NZ => Sz i | NP => Sp i | NM => Sm i end.
Definition matrix_of (o : opname) : nat -> nat -> C :=
  match o with
  | NId => fun a b => if a =? b then C1 else C0
  | NX => pauli_x | NY => pauli_y | NZ => pauli_z | NP => s_plus | NM => s_minus
  end.
(** product of named operators in the written order, as an operator on wave functions *)
Fixpoint product_op (l : list (opname * nat)) (psi : wavefun) : wavefun :=
  match l with [] => psi | (o, i) :: r => on_site 2 (matrix_of o) i (product_op r psi) end.

(** ** expressions built with the Python operator * *)
Section Expr.
Context {A : Type}.
Inductive expr :=
| XNum (c : C) | XFun (f : list A -> result C) | XOp (o : localop) | XMul (a b : expr).
Fixpoint eval (e : expr) : result (value A) :=
  match e with
  | XNum c => Ok (VNum c)
  | XFun f => Ok (VFun (PUser f))
  | XOp o => Ok (VOp o)
  | XMul a b => do x <- eval a; do y <- eval b; pymul x y
  end.
(** the product of all scalar factors at the given arguments *)
Fixpoint coef (args : list A) (e : expr) : result C :=
  match e with
  | XNum c => Ok c
  | XFun f => f args
  | XOp _ => Ok C1
  | XMul a b => do x <- coef args a; do y <- coef args b; Ok (x * y)%C
  end.
(** the local operators in written order *)
Fixpoint ops_of (e : expr) : list localop :=
  match e with XOp o => [o] | XMul a b => ops_of a ++ ops_of b | _ => [] end.
(** number of scalar factors, products of plain numbers counting once *)
Fixpoint numeric (e : expr) : bool :=
  match e with XNum _ => true | XMul a b => numeric a && numeric b | _ => false end.
Fixpoint factors (e : expr) : nat :=
  match e with
  | XNum _ | XFun _ => 1
  | XOp _ => 0
  | XMul a b => if numeric a && numeric b then 1 else factors a + factors b
  end.
(** expressions in which every product involves an operator or is a product of numbers *)
Fixpoint well_typed (e : expr) : Prop :=
  match e with
  | XMul a b => well_typed a /\ well_typed b /\ (ops_of a <> [] \/ ops_of b <> [] \/ (numeric a = true /\ numeric b = true))
  | _ => True
  end.
End Expr.
Arguments expr : clear implicits.

(** ** the vector of prefactors *)
(** value expected at position i: the prefactor with index i if there is one, else [dflt] *)
Definition prefactor_at {A} (args : list A) (prefs : list (nat * pfun A)) (dflt : C) (i : nat) (v : C) : Prop :=
  (exists p, In (i, p) prefs /\ call p args = Ok v) \/ ((forall p, ~ In (i, p) prefs) /\ v = dflt).

(** ** sample shapes *)
Definition nprod (l : list nat) : nat := fold_right Nat.mul 1 l.
