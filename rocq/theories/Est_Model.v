(** Model of the gradients of parametrised estimators in /repo/jVMC/stats.py, for the parameters of a
    variational state (vqs.py).  Trees as in Vqs_Model. *)
From Coq Require Import List Reals Bool Arith.
From Verif Require Import Base Cplx Stats_Model Vqs_Model.
Import ListNotations.

(** stats.py 110-133; [g] is the tree returned by jax.grad for a real function, [kinds] tells for each leaf whether
    it is real.  An empty tree raises IndexError. *)
Definition flat_grad (kinds : list bool) (g : tree) : result (list C) :=
  match kinds with
  | [] => Err IndexError
  | true :: _ => Ok (concat g)
  | false :: _ => Ok (two_blocks (fun z => RtoC (Re z)) (fun z => RtoC (- Im z)) g)
  end.
(** stats.py 185-188 for one configuration; [gr] and [gi] are the gradients of real and imaginary part *)
Definition estimator_grad (kinds : list bool) (gr gi : tree) : result (list C) :=
  do a <- flat_grad kinds gr;
  do b <- flat_grad kinds gi;
  Ok (map2 (fun x y => Cadd x (Cmul Ci y)) a b).
(** vqs.py 193-197: all leaves have the same type *)
Definition kinds_of (q : nqs) : list bool := map (fun _ => nq_real q) (nq_params q).

(** a vector as a function of its index; stats.py 231 adds vectors *)
Definition vec (l : list C) (k : nat) : C := nth k l C0.
(** stats.py 219-231 with the gradients of all samples computed before; the device layout is that of [configs].
    [est] gives value and gradient trees of the estimator, [psi] the gradient trees of log psi. *)
Section MeanAndGrad.
Context {X : Type}.
Variables (est : X -> C) (est_gr est_gi psi_gr psi_gi : X -> tree).
(** stats.py 219-231 *)
Definition nqs_mean_and_grad (q : nqs) (holomorphic : bool) (configs : layout X) (w : layout R) : result ((unit -> C) * (nat -> C)) :=
  if (length (nq_params q) =? 0)%nat then Err IndexError
  else mean_and_grad (lmap (fun s (_ : unit) => est s) configs)
         (lmap (fun s => vec (match estimator_grad (kinds_of q) (est_gr s) (est_gi s) with Ok l => l | Err _ => [] end)) configs)
         (lmap (fun s => vec (gradients (nq_real q) holomorphic (psi_gr s) (psi_gi s))) configs) w.
End MeanAndGrad.
