(** Model of the class [SampledObs] in /repo/jVMC/stats.py.

    Arrays with device and batch dimension exist on every MPI rank; they are
    modelled together as a list (ranks) of lists (devices) of lists (batch).
    A sample with any number of trailing dimensions is a function from the
    (multi-)index to C.  Simplified: exact complex numbers; one common value of
    [mpi.global_sum] on all ranks (justified by [gsum_is_global_sum] in
    Stats_Proofs.v, which is about the model of mpi_wrapper.py). *)
From Coq Require Import ZArith List Reals Bool.
From Verif Require Import Base Cplx Mpi_Model.
Import ListNotations.

(** the axes of self._data and self._weights, stats.py 201-205, on all ranks *)
Definition layout (A : Type) := list (list (list A)).

(** elementwise function of such an array, e.g. stats.py 205 *)
Definition lmap {A B} (f : A -> B) : layout A -> layout B := map (map (map f)).

(** pointwise combination of two arrays (ranks, devices, batch) *)
Definition map2 {A B D} (f : A -> B -> D) (x : list A) (y : list B) : list D :=
  map (fun ab => f (fst ab) (snd ab)) (combine x y).
(** elementwise function of two such arrays, e.g. stats.py 205 *)
Definition lmap2 {A B D} (f : A -> B -> D) : layout A -> layout B -> layout D :=
  map2 (map2 (map2 f)).

(** mpi_wrapper.py 114-147 (value returned on every rank): batch sum, psum over
    devices, Allreduce over ranks *)
Definition gsum (x : layout C) : C := csum (map (fun r => csum (map csum r)) x).

(** stats.py 136-194: the attributes _weights, _data, _mean *)
Record sobs (I : Type) := mk_sobs { so_w : layout R; so_data : layout (I -> C); so_mean : I -> C }.
Arguments mk_sobs {I}. Arguments so_w {I}. Arguments so_data {I}. Arguments so_mean {I}.

(** stats.py 49 (_mean_helper) with [:, None, ...] of line 204: one number per device *)
Definition dev_mean {I} (obs : layout (I -> C)) (w : layout R) (i : I) : layout C :=
  map2 (map2 (fun d v => [csum (map2 (fun (x : I -> C) (p : R) => (RtoC p * x i)%C) d v)])) obs w.

(** stats.py 50 (_data_prep) *)
Definition data_prep {I} (obs : layout (I -> C)) (w : layout R) (m : I -> C) : layout (I -> C) :=
  lmap2 (fun (x : I -> C) (p : R) (i : I) => (RtoC (sqrt p) * (x i - m i))%C) obs w.

(** stats.py 147-205 (constructor without estimator): the added trailing
    dimension of scalar observations is the index type [unit] *)
Definition init {I} (obs : layout (I -> C)) (w : layout R) : sobs I :=
  let m := fun i => gsum (dev_mean obs w i) in
  mk_sobs w (data_prep obs w m) m.

(** stats.py 208-216 *)
Definition mean {I} (s : sobs I) : I -> C := so_mean s.

(** stats.py 51-57 (_covar_helper), 235-245 *)
Definition covar {I J} (a : sobs I) (b : sobs J) (ij : I * J) : C :=
  gsum (map2 (map2 (fun d1 d2 =>
          [csum (map2 (fun (x : I -> C) (y : J -> C) => (Cconj (x (fst ij)) * y (snd ij))%C) d1 d2)]))
        (so_data a) (so_data b)).

(** stats.py 248-252; real valued: [jnp.abs(.)**2] *)
Definition var {I} (a : sobs I) (i : I) : R :=
  Re (gsum (lmap (fun x : I -> C => RtoC (Cabs (x i) * Cabs (x i))) (so_data a))).

(** stats.py 68 (_covar_data_helper), 255-265.  [jnp.outer] of two vectors; the
    weights are those of the first object. *)
Definition covar_data {I J} (a : sobs I) (b : sobs J) : sobs (I * J) :=
  init (lmap2 (fun (xy : (I -> C) * (J -> C)) (p : R) (ij : I * J) =>
                 (Cconj (fst xy (fst ij)) * snd xy (snd ij) / RtoC p)%C)
              (lmap2 pair (so_data a) (so_data b)) (so_w a))
       (so_w a).

(** stats.py 58-67 (_covar_var_helper), 268-279 *)
Definition covar_var {I J} (a : sobs I) (b : sobs J) (ij : I * J) : R :=
  (Re (gsum (map2 (map2 (fun d12 w =>
          [csum (map2 (fun (xy : (I -> C) * (J -> C)) (p : R) =>
                   RtoC (Cabs (Cconj (fst xy (fst ij)) * snd xy (snd ij))%C
                         * Cabs (Cconj (fst xy (fst ij)) * snd xy (snd ij))%C / p)) d12 w)]))
        (lmap2 pair (so_data a) (so_data b)) (so_w a)))
   - Cabs (covar a b ij) * Cabs (covar a b ij))%R.

(** stats.py 69-74 (_trafo_helper_1): the argument of the user function, the
    whole batch of one device *)
Definition trafo_arg {I} (a : sobs I) : layout (I -> C) :=
  lmap2 (fun (x : I -> C) (p : R) (i : I) => (x i / RtoC (sqrt p) + so_mean a i)%C) (so_data a) (so_w a).

(** stats.py 282-290 without linearFun; the user function maps the batch array
    of a device to a batch array *)
Definition transform {I J} (f : list (I -> C) -> list (J -> C)) (a : sobs I) : sobs J :=
  init (map (map f) (trafo_arg a)) (so_w a).

(** [jnp.matmul(v, X)] for an array [X] of shape (batch, k, l): contraction over
    the index k of every sample *)
Definition matmul_batched {A L} (K : list nat) (v : A -> nat -> C) (X : list (nat * L -> C)) : list (A * L -> C) :=
  map (fun (x : nat * L -> C) al => csum (map (fun k => (v (fst al) k * x (k, snd al))%C) K)) X.

(** [jnp.matmul(v, X)] for an array [X] of shape (batch, k) and a matrix [v] given
    by its rows: contraction over the batch index; shape error unless the row
    length is the batch size *)
Definition matmul_flat {K} (v : list (list C)) (X : list (K -> C)) : result (list (K -> C)) :=
  if forallb (fun row => Nat.eqb (length row) (length X)) v
  then Ok (map (fun row k => csum (map2 (fun c (x : K -> C) => (c * x k)%C) row X)) v)
  else Err ShapeError.

(** stats.py 75-83 (_trafo_helper_2), 292 for observations of shape (batch, k, l) *)
Definition transform_linear {I A L} (K : list nat) (v : A -> nat -> C)
           (f : list (I -> C) -> list (nat * L -> C)) (a : sobs I) : sobs (A * L) :=
  init (map (map (fun X => matmul_batched K v (f X))) (trafo_arg a)) (so_w a).

(** stats.py 75-83, 292 for observations of shape (batch, k) *)
Definition transform_linear_flat {I K} (v : list (list C))
           (f : list (I -> C) -> list (K -> C)) (a : sobs I) : result (sobs K) :=
  do t <- mapM (mapM (fun X => matmul_flat v (f X))) (trafo_arg a);
  if forallb (fun tw => forallb (fun xy => Nat.eqb (length (fst xy)) (length (snd xy))) (combine (fst tw) (snd tw)))
             (combine t (so_w a))
  then Ok (init t (so_w a)) else Err ShapeError.

(** stats.py 84 (_select_helper), 295-307; the index array (after jax.numpy's
    resolution of negative or too large indices, the same for both gathers) is a
    function from new to old index *)
Definition select {I J} (ix : J -> I) (a : sobs I) : sobs J :=
  mk_sobs (so_w a) (lmap (fun (x : I -> C) j => x (ix j)) (so_data a)) (fun j => so_mean a (ix j)).

(** Python's slice(start, end, step).indices(n) *)
Section Slice.
Local Open Scope Z_scope.
(** one end of a Python slice; stats.py 85 *)
Definition slice_bound (lower upper n : Z) (x : option Z) (dflt : Z) : Z :=
  match x with
  | None => dflt
  | Some v => if v <? 0 then Z.max (v + n) lower else Z.min v upper
  end.
(** the indices of x[slice(start, end, step)], stats.py 85 *)
Definition slice_indices (start stop step : option Z) (n : Z) : result (list Z) :=
  let st := match step with None => 1 | Some v => v end in
  if st =? 0 then Err ValueError
  else
    let '(a, b, cnt) :=
      if 0 <? st then
        let a := slice_bound 0 n n start 0 in
        let b := slice_bound 0 n n stop n in
        (a, b, if a <? b then (b - a - 1) / st + 1 else 0)
      else
        let a := slice_bound (-1) (n - 1) n start (n - 1) in
        let b := slice_bound (-1) (n - 1) n stop (-1) in
        (a, b, if b <? a then (a - b - 1) / (- st) + 1 else 0) in
    Ok (map (fun k => a + Z.of_nat k * st) (seq 0 (Z.to_nat cnt))).
(** the entries at given indices, stats.py 85 *)
Definition pick {A} (l : list A) (ids : list Z) : list A :=
  flat_map (fun i => match nth_error l (Z.to_nat i) with Some x => [x] | None => [] end) ids.
(** x[slice(start, end, step)], stats.py 85 *)
Definition slice {A} (start stop step : option Z) (l : list A) : result (list A) :=
  do ids <- slice_indices start stop step (Z.of_nat (length l)); Ok (pick l ids).
End Slice.

(** stats.py 85 (_get_subset_helper): per-device slice *)
Definition get_subset {A} (start stop step : option Z) (x : layout A) : result (layout A) :=
  mapM (mapM (slice start stop step)) x.

(** stats.py 86 (_subset_mean_helper) with mean argument 0.0 *)
Definition subset_mean_helper {I} (d : layout (I -> C)) (w : layout R) (i : I) : layout C :=
  map2 (map2 (fun d v => [(csum (map2 (fun (x : I -> C) (p : R) => (RtoC (sqrt p) * x i)%C) d v) + C0)%C])) d w.

(** stats.py 310-329; [_subset_data_prep] is line 87 *)
Definition subset {I} (start stop step : option Z) (a : sobs I) : result (sobs I) :=
  do w1 <- get_subset start stop step (so_w a);
  let normalization := Re (gsum (lmap RtoC w1)) in
  do d1 <- get_subset start stop step (so_data a);
  let w2 := lmap (fun p => (p / normalization)%R) w1 in
  let d2 := lmap (fun (x : I -> C) i => (x i / RtoC (sqrt normalization))%C) d1 in
  let m := fun i => (gsum (subset_mean_helper d2 w2 i) + so_mean a i)%C in
  Ok (mk_sobs w2
        (lmap2 (fun (x : I -> C) (p : R) i => (x i + RtoC (sqrt p) * (so_mean a i - m i))%C) d2 w2)
        m).

(** stats.py 219-231.  [obs], [obsGrad], [psiGrad] are the values of the pmapped
    estimator, of its gradient (one entry per real parameter) and of
    [psi.gradients] on the configurations.  Line 228 inserts the new axis in
    front of the device axis ([None,...]), so the array passed to
    mpi.global_sum has leading dimension one; pmap over the configured devices
    raises ValueError unless there is exactly one device. *)
Definition mean_and_grad {K} (obs : layout (unit -> C)) (obsGrad psiGrad : layout (K -> C)) (w : layout R)
  : result ((unit -> C) * (K -> C)) :=
  let self := init obs w in
  if forallb (fun r => Nat.eqb (length r) 1) w then
    let obsGradMean := fun k => gsum (dev_mean obsGrad w k) in
    let pg := init (lmap (fun (g : K -> C) k => RtoC (2 * Re (g k))) psiGrad) w in
    Ok (so_mean self, fun k => (covar pg self (k, tt) + obsGradMean k)%C)
  else Err ValueError.
