(** Model of /repo/jVMC/nets/rbm.py and of the activation functions in
    /repo/jVMC/nets/activation_functions.py.  Floating point numbers are real numbers,
    except that a logarithm may be minus infinity. *)
From Coq Require Import List Reals Bool Arith.
From Verif Require Import Base Cplx BranchFree_Model Stats_Model.
Import ListNotations.
Local Open Scope R_scope.

(** a complex number or the logarithm of zero *)
Inductive xC := Fin (z : C) | NegInf.
(** sum of two such numbers (jnp.sum in rbm.py 38, 64) *)
Definition xadd (a b : xC) : xC := match a, b with Fin x, Fin y => Fin (x + y)%C | _, _ => NegInf end.
(** jnp.sum, rbm.py 38, 64 *)
Definition xsum (l : list xC) : xC := fold_right xadd (Fin C0) l.

(** [jnp.log1p], activation_functions.py 23 *)
Definition log1p (z : C) : xC :=
  if Req_EM_T (Cnorm2 (C1 + z)%C) 0 then NegInf else Fin (Clog (C1 + z)%C).

Section Act.
  (** [jnp.signbit]: true for negative, false for positive numbers; zero carries either sign *)
  Variable signbit : R -> bool.
  (** the argument made to have a non-negative real part, activation_functions.py 21-22 *)
  Definition log_cosh_arg (x : C) : C :=
    let sgn_x := if signbit (Re x) then -2 * 1 + 1 else -2 * 0 + 1 in
    (x * RtoC sgn_x)%C.
  (** activation_functions.py 20-23 *)
  Definition log_cosh (x : C) : xC :=
    let x := log_cosh_arg x in
    xadd (xadd (Fin x) (log1p (Cexp (RtoC (-2) * x)%C))) (Fin (- RtoC (ln 2))%C).

  (** [nn.Dense]: rows of [kernel] are the weights of one output; rbm.py 32-36 *)
  Definition dense (kernel : list (list C)) (bias : list C) (s : list C) : list C :=
    map2 Cadd (map (fun w => csum (map2 Cmul w s)) kernel) bias.
  (** [use_bias = bias]: without it the layer has no bias parameter, rbm.py 32, 58, 82 *)
  Definition bias_of (useBias : bool) (kernel : list (list C)) (b : list C) : list C :=
    if useBias then b else repeat C0 (length kernel).
  (** [2 * s - 1], rbm.py 38, 88 *)
  Definition spins (s : config) : list R := map (fun x => 2 * INR x - 1) s.

  (** CpxRBM, rbm.py 30-38 ([s] is flattened by ravel) *)
  Definition cpx_rbm (useBias : bool) (kernel : list (list C)) (b : list C) (s : config) : xC :=
    xsum (map log_cosh (dense kernel (bias_of useBias kernel b) (map RtoC (spins s)))).
  (** CpxRBM_Nospinflip, rbm.py 56-64 *)
  Definition cpx_rbm_nospinflip (useBias : bool) (kernel : list (list C)) (b : list C) (s : config) : xC :=
    xsum (map log_cosh (dense kernel (bias_of useBias kernel b) (map (fun x => RtoC (INR x)) s))).
End Act.

(** RBM, rbm.py 80-88: real weights; the layer acts on the last axis of s, which is not
    flattened: [s] is the list of its rows *)
Definition rbm (useBias : bool) (kernel : list (list R)) (b : list R) (s : list config) : R :=
  rsum (map (fun row => rsum (map2 (fun w c => ln (cosh (rsum (map2 Rmult w (spins row)) + c))) kernel
                                   (if useBias then b else repeat 0 (length kernel)))) s).

(** activation_functions.py 6-7 *)
Definition square (x : C) : C := (x * x)%C.
(** activation_functions.py 10-12 *)
Definition poly6 (x : C) : C :=
  let x := (x * x)%C in
  (((RtoC (22222222 / 1000000000) * x - RtoC (83333333 / 1000000000)) * x + RtoC (1 / 2)) * x)%C.
(** activation_functions.py 15-17 *)
Definition poly5 (x : C) : C :=
  let xsq := (x * x)%C in
  (((RtoC (133333333 / 1000000000) * xsq - RtoC (333333333 / 1000000000)) * xsq + C1) * x)%C.
