(** Model of /repo/jVMC/nets/cnn.py.  Arrays have any number of axes: an array with spatial
    shape [n1; ...; nd] and a channel axis is a function of the multi-index and the channel.
    The leading batch axis of length one is left out.  Numbers are complex; the network with
    real parameters (class CNN) is the special case of real weights and activations. *)
From Coq Require Import ZArith List Reals Bool Arith.
From Verif Require Import Base Cplx BranchFree_Model Stats_Model Sym_Model.
Import ListNotations.

(** all multi-indices of an array, in row-major order; cnn.py 80, 148 *)
Fixpoint indices (shape : list nat) : list (list nat) :=
  match shape with [] => [[]] | n :: r => flat_map (fun i => map (cons i) (indices r)) (seq 0 n) end.

(** arrays with spatial axes and a channel axis, cnn.py 67, 135 *)
Record tensor := mkT { t_shape : list nat; t_chan : nat; t_at : list nat -> nat -> C }.

(** cnn.py 46-52 and 69-70, 114-120 and 137-138: [jnp.pad(x, [(0,0), (0,f-1)..., (0,0)], 'wrap')]
    repeats the array periodically *)
Definition pad_wrap (F : list nat) (x : tensor) : tensor :=
  mkT (map2 (fun n f => n + (f - 1)) (t_shape x) F) (t_chan x)
      (fun idx c => t_at x (map2 (fun i n => i mod n) idx (t_shape x)) c).
(** zeros around an array: lo before, hi after it; cnn.py 46-52 and 71-72 with lo = hi = f - 1 *)
Definition pad_zero (pads : list (nat * nat)) (x : tensor) : tensor :=
  mkT (map2 (fun n p => fst p + n + snd p) (t_shape x) pads) (t_chan x)
      (fun idx c => if forallb (fun b => b) (map2 (fun ip n => (fst (snd ip) <=? fst ip) && (fst ip <? fst (snd ip) + n)) (combine idx pads) (t_shape x))
                    then t_at x (map2 (fun i p => i - fst p) idx pads) c else C0).

(** parameters of a convolution: kernel (offset, input channel, output channel) and bias; cnn.py 74-76, 141-143 *)
Record conv_params := mkP { p_kernel : list nat -> nat -> nat -> C; p_bias : nat -> C }.

(** [nn.Conv] without padding: cnn.py 74-76 *)
Definition conv_valid (F strides : list nat) (features : nat) (use_bias : bool) (p : conv_params) (x : tensor) : tensor :=
  mkT (map2 (fun nf s => (fst nf - snd nf) / s + 1) (combine (t_shape x) F) strides) features
      (fun idx c' =>
         (csum (map (fun j => csum (map (fun c => p_kernel p j c c' * t_at x (map2 Nat.add (map2 Nat.mul idx strides) j) c)
                                        (seq 0 (t_chan x)))) (indices F))
          + if use_bias then p_bias p c' else C0)%C).
(** padding of lax for the default argument padding='SAME': output length ceil(n / s); cnn.py 141-143 *)
Definition same_pad (n f s : nat) : nat * nat :=
  let out := (n + s - 1) / s in
  let total := (out - 1) * s + f - n in
  (total / 2, total - total / 2).
(** [nn.Conv] with its default padding 'SAME': cnn.py 141-143 *)
Definition conv_same (F strides : list nat) (features : nat) (use_bias : bool) (p : conv_params) (x : tensor) : tensor :=
  let pads := map2 (fun nf s => same_pad (fst nf) (snd nf) s) (combine (t_shape x) F) strides in
  conv_valid F strides features use_bias p (pad_zero pads x).

(** pointwise activation, cnn.py 74, 141 *)
Definition act (f : C -> C) (x : tensor) : tensor := mkT (t_shape x) (t_chan x) (fun idx c => f (t_at x idx c)).

(** cnn.py 54-59, 122-127: the biases and activation functions of the layers; [channels] must not
    be empty (bias[0] raises IndexError), neither actFun if it is shorter than [channels] *)
Definition biases (channels : list nat) (bias firstLayerBias : bool) : list bool :=
  match repeat bias (length channels) with [] => [] | _ :: r => firstLayerBias :: r end.
(** cnn.py 57-59, 125-127 *)
Definition activations (channels : list nat) (actFun : list (C -> C)) : list (C -> C) :=
  actFun ++ repeat (last actFun (fun z => z)) (length channels - length actFun).
(** [zip(channels, activationFunctions, bias)] with the parameters of the layers; cnn.py 68, 136 *)
Definition layers (channels : list nat) (actFun : list (C -> C)) (bias firstLayerBias : bool) (ps : list conv_params)
    : list (nat * (C -> C) * bool * conv_params) :=
  combine (combine (combine channels (activations channels actFun)) (biases channels bias firstLayerBias)) ps.

(** cnn.py 67, 135: [2 * x - 1] with a channel axis *)
Definition input (shape : list nat) (x : list nat -> R) : tensor :=
  mkT shape 1 (fun idx _ => RtoC (2 * x idx - 1)).
(** cnn.py 78-80, 146-148: sum over all axes divided by the square root of the number of entries *)
Definition output (x : tensor) : C :=
  Cdiv (csum (map (fun idx => csum (map (t_at x idx) (seq 0 (t_chan x)))) (indices (t_shape x))))
       (RtoC (sqrt (INR (fold_right Nat.mul 1 (t_shape x) * t_chan x)))).

(** CNN.__call__, cnn.py 41-80 *)
Definition cnn_layer (F strides : list nat) (periodic : bool) (x : tensor) (l : nat * (C -> C) * bool * conv_params) : tensor :=
  let '(c, fn, b, p) := l in
  let x := if periodic then pad_wrap F x else pad_zero (map (fun f => (f - 1, f - 1)) F) x in
  act fn (conv_valid F strides c b p x).
(** cnn.py 41-80: all layers and the output *)
Definition cnn (F channels strides : list nat) (actFun : list (C -> C)) (bias firstLayerBias periodic : bool) (ps : list conv_params)
    (shape : list nat) (x : list nat -> R) : C :=
  output (fold_left (cnn_layer F strides periodic) (layers channels actFun bias firstLayerBias ps) (input shape x)).

(** CpxCNN.__call__, cnn.py 107-148 *)
Definition cpx_cnn_layer (F strides : list nat) (periodic : bool) (x : tensor) (l : nat * (C -> C) * bool * conv_params) : tensor :=
  let '(c, fn, b, p) := l in
  let x := if periodic then pad_wrap F x else x in
  act fn (conv_same F strides c b p x).
(** cnn.py 107-148: all layers and the output *)
Definition cpx_cnn (F channels strides : list nat) (actFun : list (C -> C)) (bias firstLayerBias periodic : bool) (ps : list conv_params)
    (shape : list nat) (x : list nat -> R) : C :=
  output (fold_left (cpx_cnn_layer F strides periodic) (layers channels actFun bias firstLayerBias ps) (input shape x)).

(** reshape of a flat array, cnn.py 185 *)
Fixpoint ravel (shape idx : list nat) : nat :=
  match shape, idx with n :: r, i :: t => i * fold_right Nat.mul 1 r + ravel r t | _, _ => 0 end.
(** cnn.py 185: the entry at a multi-index *)
Definition reshape (shape : list nat) (v : list R) (idx : list nat) : R := nth (ravel shape idx) v 0%R.
(** CpxCNNSym, cnn.py 176-192: the matrices act on the configuration itself (not on 2 s - 1);
    [net] is the inner network as a function of the flat array *)
Definition cnn_sym (orbit : list mat) (net : list R -> C) (s : config) : C :=
  Cdiv (csum (map (fun o => net (map IZR (mat_vec o (map Z.of_nat s)))) orbit)) (RtoC (INR (length orbit))).
