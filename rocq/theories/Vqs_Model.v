(** Model of /repo/jVMC/vqs.py.  A pytree of parameters is the list of its leaves in the
    order of tree_flatten, a leaf the list of its entries (arrays are ravelled; reshape
    only changes the shape).  Real parameters are complex numbers with imaginary part zero.
    Floating point numbers are real numbers. *)
From Coq Require Import List Reals Bool Arith.
From Verif Require Import Base Cplx Stats_Model.
Import ListNotations.

(** ** batched evaluation *)

(** [x.reshape((-1, b) + ...)] for a list whose length is a multiple of b; [n] rows *)
Fixpoint chunks {A} (n b : nat) (l : list A) : list (list A) :=
  match n with O => [] | S m => firstn b l :: chunks m b (skipn b l) end.
(** vqs.py 27-32; [zero] is the padding configuration.  b = 0 raises. *)
Definition create_batches {A} (zero : A) (configs : list A) (b : nat) : result (list (list A)) :=
  match b with
  | O => Err (UserError 0) (* ZeroDivisionError *)
  | _ => let append := b * ((length configs + b - 1) / b) - length configs in
         let padded := configs ++ repeat zero append in
         Ok (chunks (length padded / b) b padded)
  end.
(** vqs.py 35-44 (eval_batched), 242-251 (_eval), 256-268 (_get_gradients; [fun] is the flat
    gradient): scan over batches, vmap in a batch, reshape, slice *)
Definition eval_batched {A B} (zero : A) (batchSize : nat) (f : A -> B) (s : list A) : result (list B) :=
  do sb <- create_batches zero s batchSize;
  Ok (firstn (length s) (concat (map (map f) sb))).

(** ** parameters *)
Definition tree := list (list C).

(** attributes of NQS and the properties that read them, vqs.py 471-478; [nq_other] stands for the collections other than "params" *)
Record nqs := mk_nqs { nq_init : bool; nq_real : bool; nq_shapes : list nat; nq_params : tree; nq_other : nat }.

(** P[a:b] *)
Definition slice {A} (a b : nat) (P : list A) : list A := firstn (b - a) (skipn a P).
(** sum of two vectors with broadcasting *)
Definition broadcast_add (x y : list C) : result (list C) :=
  if length x =? length y then Ok (map2 Cadd x y)
  else match x, y with
       | [a], _ => Ok (map (Cadd a) y)
       | _, [b] => Ok (map (fun a => Cadd a b) x)
       | _, _ => Err TypeError
       end.
(** .reshape(shape) for an array of the given size *)
Definition reshape (size : nat) (x : list C) : result (list C) := if length x =? size then Ok x else Err TypeError.

(** vqs.py 430-444 (_param_unflatten); the loop *)
Fixpoint param_unflatten (realParams : bool) (shapes : list nat) (P : list R) (start : nat) : result tree :=
  match shapes with
  | [] => Ok []
  | s :: r =>
      if realParams then
        do leaf <- reshape s (map RtoC (slice start (start + s) P));
        do rest <- param_unflatten realParams r P (start + s);
        Ok (leaf :: rest)
      else
        do x <- broadcast_add (map RtoC (slice start (start + s) P))
                              (map (fun y => Cmul Ci (RtoC y)) (slice (start + s) (start + 2 * s) P));
        do leaf <- reshape s x;
        do rest <- param_unflatten realParams r P (start + 2 * s);
        Ok (leaf :: rest)
  end.

(** vqs.py 480-490 (params setter): other collections are kept *)
Definition set_params (q : nqs) (v : tree) : nqs := mk_nqs (nq_init q) (nq_real q) (nq_shapes q) v (nq_other q).

(** vqs.py 409-425; the argument is a vector or a (frozen) dictionary *)
Inductive pvalue := PVec (P : list R) | PDict (t : tree).
(** vqs.py 409-425 *)
Definition set_parameters (q : nqs) (P : pvalue) : result nqs :=
  if nq_init q then
    match P with
    | PDict t => Ok (set_params q t)
    | PVec v => do t <- param_unflatten (nq_real q) (nq_shapes q) v 0; Ok (set_params q t)
    end
  else Err RuntimeError.

(** vqs.py 449-466 *)
Definition flatten (realParams : bool) (t : tree) : list R :=
  if realParams then concat (map (map Re) t) else concat (map (fun p => map Re p ++ map Im p) t).
(** vqs.py 449-466: None if the network is not initialised *)
Definition get_parameters (q : nqs) : option (list R) :=
  if nq_init q then Some (flatten (nq_real q) (nq_params q)) else None.

(** vqs.py 384-404; tree_map of jax.lax.add, the trees have equal shapes *)
Definition update_parameters (q : nqs) (deltaP : list R) : result nqs :=
  do q1 <- (if nq_init q then Ok q else set_parameters q (PVec deltaP));
  do d <- param_unflatten (nq_real q1) (nq_shapes q1) deltaP 0;
  Ok (set_params q1 (map2 (map2 Cadd) (nq_params q1) d)).

(** ** gradients *)
(** [gr] and [gi] are the trees returned by jax.grad for the real and imaginary part of the network *)

(** vqs.py 46-51 *)
Definition flat_gradient (gr gi : tree) : list C := map2 (fun a b => Cadd a (Cmul Ci b)) (concat gr) (concat gi).
(** leaves [f(x), g(x)], flattened *)
Definition two_blocks (f g : C -> C) (t : tree) : list C := concat (map (fun x => map f x ++ map g x) t).
(** vqs.py 53-58 *)
Definition flat_gradient_cpx_nonholo (gr gi : tree) : list C :=
  let blocks := two_blocks (fun z => RtoC (Re z)) (fun z => RtoC (- Im z)) in
  map2 (fun a b => Cadd a (Cmul Ci b)) (blocks gr) (blocks gi).
(** vqs.py 66-69 *)
Definition flat_gradient_holo (gr gi : tree) : list C := two_blocks (fun z => z) (Cmul Ci) gr.
(** vqs.py 71-76 *)
Definition dict_gradient (gr gi : tree) : tree := map2 (map2 (fun a b => Cadd a (Cmul Ci b))) gr gi.
(** vqs.py 79-82 *)
Definition dict_gradient_real (gr gi : tree) : tree := gr.

(** vqs.py 198-204: Cauchy-Riemann check at the first sample.  [gr0], [gi0] are the gradients there *)
Definition cauchy_riemann_check (gr0 gi0 : tree) : bool :=
  let d := map2 (fun a b => Csub a (Cmul Ci b)) (concat gr0) (concat gi0) in
  if Rle_dec (sqrt (rsum (map Cnorm2 d)) / INR (length (concat gr0))) (/ 10 ^ 14) then true else false.

(** vqs.py 203-212: which function [gradients] uses *)
Definition gradients (realParams holomorphic : bool) (gr gi : tree) : list C :=
  if holomorphic then flat_gradient_holo gr gi
  else if realParams then flat_gradient gr gi else flat_gradient_cpx_nonholo gr gi.
(** vqs.py 292-316 with the choice of 203-212; 181: concatenation with the gradient times i *)
Definition gradients_dict (realParams holomorphic : bool) (gr gi : tree) : tree :=
  let g := if holomorphic then dict_gradient_real gr gi
           else if realParams then dict_gradient gr gi else dict_gradient_real gr gi in
  if holomorphic then map2 (fun a b => a ++ map (Cmul Ci) b) g g else g.
(** vqs.py 319-334: the loop, with P = jnp.arange(2*numParameters) *)
Fixpoint index_map (holomorphic : bool) (shapes : list nat) (P : list nat) (start : nat) : list (list nat) :=
  match shapes with
  | [] => []
  | s :: r => let w := if holomorphic then 2 * s else s in
              slice start (start + w) P :: index_map holomorphic r P (start + w)
  end.
(** vqs.py 319-334 *)
Definition grad_dict_to_vec_map (holomorphic : bool) (shapes : list nat) : list (list nat) :=
  index_map holomorphic shapes (seq 0 (2 * fold_right Nat.add 0 shapes)) 0.

(** ** sampling with given parameters (sampler.py) *)

(** result of a call together with the network afterwards *)
Definition call A := (nqs * result A)%type.

Section Sample.
(** everything else that is done with the network: it reads the network (parameters) and
    returns or raises; it does not assign to the network *)
Context {A B : Type}.
Variables (draw : nqs -> result A)              (* _get_samples_gen / evaluation of psi *)
          (markov : tree * nat -> result B)     (* _mc_init and the chains, with the collected parameters *)
          (coeffs : nqs -> B -> result A).      (* self.net(configs) *)

(** sampler.py 212-219 *)
Definition sample_gen (q : nqs) (parameters : option pvalue) : call A :=
  match parameters with
  | None => (q, draw q)
  | Some P =>
      let tmpP := nq_params q in
      match set_parameters q P with
      | Err e => (q, Err e)
      | Ok q1 => match draw q1 with
                 | Err e => (q1, Err e)
                 | Ok a => (set_params q1 tmpP, Ok a)
                 end
      end
  end.

(** sampler.py 252-287 *)
Definition sample_mcmc (q : nqs) (parameters : option pvalue) : call A :=
  match (match parameters with None => Ok q | Some P => set_parameters q P end) with
  | Err e => (q, Err e)
  | Ok q1 =>
      let params := (nq_params q1, nq_other q1) in
      let q2 := match parameters with None => q1 | Some _ => set_params q1 (nq_params q) end in
      match markov params with
      | Err e => (q2, Err e)
      | Ok configs =>
          let tmpP := nq_params q2 in
          let q3 := set_params q2 (fst params) in
          match coeffs q3 configs with
          | Err e => (q3, Err e)
          | Ok a => (set_params q3 tmpP, Ok a)
          end
      end
  end.

(** sampler.py 504-509; get_parameters returns a vector.  An uninitialised network makes
    set_parameters raise. *)
Definition sample_exact (q : nqs) (parameters : option pvalue) : call A :=
  match parameters with
  | None => (q, draw q)
  | Some P =>
      let tmpP := get_parameters q in
      match set_parameters q P with
      | Err e => (q, Err e)
      | Ok q1 => match draw q1 with
                 | Err e => (q1, Err e)
                 | Ok a => match tmpP with
                           | None => (q1, Err TypeError)
                           | Some v => match set_parameters q1 (PVec v) with
                                       | Err e => (q1, Err e)
                                       | Ok q2 => (q2, Ok a)
                                       end
                           end
                 end
      end
  end.
End Sample.
