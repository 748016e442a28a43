(** Independent specification of convolutional networks. *)
From Coq Require Import ZArith List Reals Bool Arith.
From Verif Require Import Base Cplx Cnn_Model.
Import ListNotations.

(** positions of an array, and lists of all of them *)
Definition in_box (idx shape : list nat) : Prop := Forall2 lt idx shape.
Definition enumerates (l : list (list nat)) (shape : list nat) : Prop := NoDup l /\ forall idx, In idx l <-> in_box idx shape.

(** the array continued to all integer positions: periodically, or by zeros *)
Definition beyond (periodic : bool) (x : tensor) (z : list Z) (c : nat) : C :=
  if periodic then t_at x (map (fun p => Z.to_nat (fst p mod Z.of_nat (snd p))) (combine z (t_shape x))) c
  else if forallb (fun p => (0 <=? fst p)%Z && (fst p <? Z.of_nat (snd p))%Z) (combine z (t_shape x)) then t_at x (map Z.to_nat z) c else C0.
(** the pixel that the kernel entry [j] meets when the filter is at [idx]: idx * strides + j - off *)
Fixpoint pixel (strides off idx j : list nat) : list Z :=
  match strides, off, idx, j with
  | s :: strides, o :: off, i :: idx, k :: j => (Z.of_nat i * Z.of_nat s + Z.of_nat k - Z.of_nat o)%Z :: pixel strides off idx j
  | _, _, _, _ => []
  end.

(** [y] is the layer after [x]: a filter of size [F] is moved in steps [strides], starting [off] before the array, over all positions i
    with i * stride < length + extra; weighted sums over pixels and channels, bias if there is one, activation function *)
Definition conv_layer (periodic : bool) (F strides off extra : list nat) (channels : nat) (f : C -> C) (use_bias : bool) (p : conv_params) (x y : tensor) : Prop :=
  t_chan y = channels /\ length (t_shape y) = length (t_shape x)
  /\ (forall k i, k < length (t_shape x) -> (i < nth k (t_shape y) 0 <-> i * nth k strides 0 < nth k (t_shape x) 0 + nth k extra 0))
  /\ (forall l idx c', enumerates l F -> in_box idx (t_shape y) -> c' < channels ->
        t_at y idx c' = f ((csum (map (fun j => csum (map (fun c => p_kernel p j c c' * beyond periodic x (pixel strides off idx j) c) (seq 0 (t_chan x)))) l)
                            + if use_bias then p_bias p c' else C0)%C)).

(** the settings of a network: layer number l has the l-th activation function, later layers the last one; the first layer has its own choice of bias *)
Definition activation (actFun : list (C -> C)) (l : nat) (f : C -> C) : Prop :=
  nth_error actFun l = Some f \/ (length actFun <= l /\ nth_error actFun (length actFun - 1) = Some f).
Definition has_bias (bias firstLayerBias : bool) (l : nat) : bool := match l with O => firstLayerBias | S _ => bias end.

(** [n] layers from number [l] on *)
Inductive runs (layer : nat -> tensor -> tensor -> Prop) : nat -> tensor -> nat -> tensor -> Prop :=
| runs_end l x : runs layer l x 0 x
| runs_layer l x y n z : layer l x y -> runs layer (S l) y n z -> runs layer l x (S n) z.

(** a configuration as input: -1 and 1 in one channel *)
Definition is_input (shape : list nat) (x : list nat -> R) (t : tensor) : Prop :=
  t_shape t = shape /\ t_chan t = 1 /\ forall idx, in_box idx shape -> t_at t idx 0 = RtoC (2 * x idx - 1).
(** the sum over everything, divided by the square root of the number of entries *)
Definition is_result (y : tensor) (r : C) : Prop :=
  forall l, enumerates l (t_shape y) ->
    r = Cdiv (csum (map (fun idx => csum (map (t_at y idx) (seq 0 (t_chan y)))) l)) (RtoC (sqrt (INR (length l * t_chan y)))).

(** networks: layer number l of CNN; with zeros around, the filter is at all positions where it covers a pixel *)
Definition cnn_step (periodic : bool) (F strides channels : list nat) (actFun : list (C -> C)) (bias firstLayerBias : bool) (ps : list conv_params)
    (l : nat) (x y : tensor) : Prop :=
  exists f p, activation actFun l f /\ nth_error ps l = Some p
    /\ let around := map (fun n => if periodic then 0 else n - 1) F in
       conv_layer periodic F strides around around (nth l channels 0) f (has_bias bias firstLayerBias l) p x y.
(** centred filters: as many positions as pixels (for stride one), zeros around, half of them (rounded down) in front *)
Fixpoint in_front (strides F shape : list nat) : list nat :=
  match strides, F, shape with
  | s :: strides, f :: F, n :: shape => (((n + s - 1) / s - 1) * s + f - n) / 2 :: in_front strides F shape
  | _, _, _ => []
  end.
(** [y] is [x] continued periodically by filter size minus one *)
Definition continued (F : list nat) (x y : tensor) : Prop :=
  t_chan y = t_chan x /\ length (t_shape y) = length (t_shape x)
  /\ (forall k, k < length (t_shape x) -> nth k (t_shape y) 0 = nth k (t_shape x) 0 + nth k F 0 - 1)
  /\ forall idx c, in_box idx (t_shape y) -> t_at y idx c = beyond true x (map Z.of_nat idx) c.
(** layer number l of CpxCNN *)
Definition cpx_cnn_step (periodic : bool) (F strides channels : list nat) (actFun : list (C -> C)) (bias firstLayerBias : bool) (ps : list conv_params)
    (l : nat) (x y : tensor) : Prop :=
  exists f p w, activation actFun l f /\ nth_error ps l = Some p
    /\ (if periodic then continued F x w else w = x)
    /\ conv_layer false F strides (in_front strides F (t_shape w)) (map (fun _ => 0) F) (nth l channels 0) f (has_bias bias firstLayerBias l) p w y.
