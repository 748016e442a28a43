(** Model of /repo/jVMC/nets/ffn.py, /repo/jVMC/nets/initializers.py and of the recurrent cells in
    /repo/jVMC/nets/rnn1d_general.py and /repo/jVMC/nets/rnn2d_general.py.  Floating point numbers
    are real numbers; weights are given, i.e. the networks are initialised. *)
From Coq Require Import String Ascii DecimalString ZArith List Reals Bool Arith.
From Verif Require Import Base Cplx BranchFree_Model Stats_Model.
Import ListNotations.
Local Open Scope R_scope.

(** ** layers *)
(** parameters of nn.Dense (ffn.py 40): rows of the kernel are the weights of one output *)
Record dense_params := mk_dp { dp_kernel : list (list R); dp_bias : list R }.
(** [nn.Dense(features, use_bias)(s)] on a vector; ffn.py 40, 44; rnn1d_general.py 45-47, 220-227;
    rnn2d_general.py 48-50, 298-313 *)
Definition dense (use_bias : bool) (p : dense_params) (s : list R) : list R :=
  map2 Rplus (map (fun w => rsum (map2 Rmult w s)) (dp_kernel p))
             (if use_bias then dp_bias p else repeat 0 (List.length (dp_kernel p))).

(** ** FFN *)
(** ffn.py 29-31: one function for every layer and the output, the last one is repeated; [actFun[-1]]
    of an empty sequence raises IndexError *)
Definition ffn_activations {A} (layers : nat) (actFun : list A) : result (list A) :=
  match rev actFun with
  | [] => Err IndexError
  | l :: _ => Ok (actFun ++ repeat l (layers + 1 - List.length actFun))
  end.
(** ffn.py 38-41: [zip(self.layers, activationFunctions[:-1])]; [ps] are the parameters of the hidden layers *)
Fixpoint ffn_hidden (bias : bool) (ps : list dense_params) (fs : list (R -> R)) (s : list R) : list R :=
  match ps, fs with
  | p :: ps', f :: fs' => ffn_hidden bias ps' fs' (map f (dense bias p s))
  | _, _ => s
  end.
(** ffn.py 27-45; [s] is flattened (ravel), [out] are the parameters of the output layer with one unit *)
Definition ffn (bias : bool) (actFun : list (R -> R)) (ps : list dense_params) (out : dense_params) (s : config) : result R :=
  do fs <- ffn_activations (List.length ps) actFun;
  let s := map (fun x => 2 * INR x - 1) s in
  let s := ffn_hidden bias ps (removelast fs) s in
  Ok (rsum (map (last fs (fun x => x)) (dense bias out s))).

(** ** init_fn_args *)
(** comparison of strings by code points, used in initializers.py 14: [a >= b] is [str_leb b a] *)
Fixpoint str_leb (a b : string) : bool :=
  match a, b with
  | EmptyString, _ => true
  | String _ _, EmptyString => false
  | String x a', String y b' =>
      if (nat_of_ascii x <? nat_of_ascii y)%nat then true
      else if (nat_of_ascii y <? nat_of_ascii x)%nat then false else str_leb a' b'
  end.
(** [k[-4:] == "init"], initializers.py 17, 21 *)
Definition ends_with_init (k : string) : bool :=
  String.eqb (String.substring (String.length k - 4) 4 k) "init".
(** data types (global_defs.py 8-9) *)
Inductive dtype := TReal | TCpx | TSingle.
(** an initialisation function (initializers.py 18, 22), possibly with keyword argument dtype bound by functools.partial *)
Record init_fun := mk_if { if_id : nat; if_bound : option (option dtype) }.
(** keyword arguments for a flax layer, initializers.py 11-24: dtype, param_dtype (the value may be None) and initialisation functions *)
Record layer_args := mk_la { la_dtype : option dtype; la_param_dtype : option (option dtype); la_inits : list (string * init_fun) }.
(** initializers.py 10-24; [kwargs] are the functions handed over *)
Definition init_fn_args (flax_version : string) (dt : option dtype) (kwargs : list (string * init_fun)) : layer_args :=
  if str_leb "0.4.0" flax_version
  then mk_la dt (Some dt) (filter (fun kv => ends_with_init (fst kv)) kwargs)
  else mk_la dt None (map (fun kv => (fst kv, mk_if (if_id (snd kv)) (Some dt))) (filter (fun kv => ends_with_init (fst kv)) kwargs)).

(** initializers.py 27-30; [u1], [u2] are numbers from [0, 1), jax.nn.initializers.uniform() has scale 0.01 *)
Definition cplx_init (u1 u2 : R) : C := (1 / 100 * u1, 1 / 100 * u2).
(** initializers.py 33-40: one entry; [shape[-1]] and [shape[-2]] raise IndexError if there are less than two axes *)
Definition cplx_variance_scaling (shape : list nat) (u1 u2 : R) : result C :=
  match rev shape with
  | a :: b :: front =>
      let elems := fold_left Nat.mul (rev front) 1%nat in
      let w := sqrt (INR ((a + b) * elems)) in
      Ok (Cmul (RtoC (1 / w * u1)) (Cexp (0, 3141593 / 1000000 * u2)))
  | _ => Err IndexError
  end.

(** ** recurrent cells *)
(** a carry of one layer (rnn1d_general.py 117, 122) is an array of vectors (its rows) *)
Definition carry := list (list R).
(** sum of vectors, rnn1d_general.py 227 *)
Definition vec_add (x y : list R) : list R := map2 Rplus x y.

(** vanilla cells: rnn1d_general.py 219-229; rnn2d_general.py 294-314 *)
Definition rnn_cell_1d (actFun : R -> R) (p : dense_params) (c : carry) (state : list R) : carry * list R :=
  let newCarry := [vec_add (map actFun (dense false p (hd [] c))) state] in (newCarry, hd [] newCarry).
(** rnn2d_general.py 294-314 *)
Definition rnn_cell_2d (actFun : R -> R) (pH pV : dense_params) (cH cV : carry) (state : list R) : carry * list R :=
  let newCarry := [vec_add (map actFun (vec_add (dense false pH (hd [] cH)) (dense false pV (hd [] cV)))) state] in
  (newCarry, hd [] newCarry).

Section Flax.
(** nn.GRUCell and nn.OptimizedLSTMCell of flax: the new carry is returned with the output; GRU acts on an
    array of vectors, LSTM on a pair of vectors *)
Variables (gru : carry -> list R -> carry * carry) (lstm : list R * list R -> list R -> (list R * list R) * list R).
(** rnn1d_general.py 184-186 *)
Definition gru_cell_1d (c : carry) (state : list R) : carry * list R :=
  let '(current_carry, newR) := gru c state in (current_carry, hd [] newR).
(** rnn1d_general.py 193-195; the carry is unpacked into two vectors *)
Definition lstm_cell_1d (c : carry) (state : list R) : result (carry * list R) :=
  match c with
  | [a; b] => let '((a', b'), newR) := lstm (a, b) state in Ok ([a'; b'], newR)
  | _ => Err ValueError
  end.
(** sum of two dense layers on the rows of both carries: rnn2d_general.py 247-253, 263-269; the first layer has a bias *)
Definition mix_carries (pH pV : dense_params) (cH cV : carry) : carry :=
  map2 vec_add (map (dense true pH) cH) (map (dense false pV) cV).
(** rnn2d_general.py 246-255 *)
Definition gru_cell_2d (pH pV : dense_params) (cH cV : carry) (state : list R) : carry * list R :=
  let '(current_carry, newR) := gru (mix_carries pH pV cH cV) state in (current_carry, hd [] newR).
(** rnn2d_general.py 262-271 *)
Definition lstm_cell_2d (pH pV : dense_params) (cH cV : carry) (state : list R) : result (carry * list R) :=
  match mix_carries pH pV cH cV with
  | [a; b] => let '((a', b'), newR) := lstm (a, b) state in Ok ([a'; b'], newR)
  | _ => Err ValueError
  end.
End Flax.

(** ** stacks of cells *)
(** a cell module (rnn1d_general.py 128, rnn2d_general.py 136) by the number of arguments of its __call__ (without self) *)
Inductive cell :=
| Cell2 (f : carry -> list R -> result (carry * list R))
| Cell3 (f : carry -> carry -> list R -> result (carry * list R)).
(** calls with the wrong number of arguments raise TypeError: rnn1d_general.py 51, rnn2d_general.py 56 *)
Definition call2 (k : cell) (c : carry) (x : list R) : result (carry * list R) :=
  match k with Cell2 f => f c x | Cell3 _ => Err TypeError end.
(** rnn2d_general.py 56 *)
Definition call3 (k : cell) (cH cV : carry) (x : list R) : result (carry * list R) :=
  match k with Cell3 f => f cH cV x | Cell2 _ => Err TypeError end.

(** number of rows and columns of an array, for rnn1d_general.py 52 *)
Definition rows_cols (c : carry) : nat * nat := (List.length c, List.length (hd [] c)).
(** [newCarry.at[j].set(current_carry)], rnn1d_general.py 52, rnn2d_general.py 58, raises if the shapes differ.  Simplified: no broadcasting. *)
Definition set_carry (newCarry : list carry) (j : nat) (c : carry) : result (list carry) :=
  match nth_error newCarry j with
  | None => Ok newCarry
  | Some old => if (fst (rows_cols old) =? fst (rows_cols c))%nat && (snd (rows_cols old) =? snd (rows_cols c))%nat
                then Ok (firstn j newCarry ++ c :: skipn (S j) newCarry) else Err ValueError
  end.
(** [jnp.zeros_like(carry)], rnn1d_general.py 43, rnn2d_general.py 45 *)
Definition zeros_like (c : list carry) : list carry := map (map (map (fun _ => 0))) c.

(** rnn1d_general.py 50-53: the loop over [zip(carry, cells)]; [j] counts the iterations *)
Fixpoint stack_loop_1d (j : nat) (cs : list carry) (cells : list cell) (newCarry : list carry) (newR : list R) : result (list carry * list R) :=
  match cs, cells with
  | c :: cs', k :: cells' =>
      do r <- call2 k c newR;
      do newCarry <- set_carry newCarry j (fst r);
      stack_loop_1d (S j) cs' cells' newCarry (snd r)
  | _, _ => Ok (newCarry, newR)
  end.
(** RNNCellStack.__call__, rnn1d_general.py 42-53 *)
Definition stack_1d (actFun : R -> R) (p : dense_params) (cells : list cell) (cs : list carry) (newR : list R) : result (list carry * list R) :=
  stack_loop_1d 0 cs cells (zeros_like cs) (map actFun (dense false p newR)).

(** rnn2d_general.py 53-58 *)
Fixpoint stack_loop_2d (j : nat) (cHs cVs : list carry) (cells : list cell) (newCarry : list carry) (newR : list R) : result (list carry * list R) :=
  match cHs, cVs, cells with
  | cH :: cHs', cV :: cVs', k :: cells' =>
      do r <- call3 k cH cV newR;
      do newCarry <- set_carry newCarry j (fst r);
      stack_loop_2d (S j) cHs' cVs' cells' newCarry (snd r)
  | _, _, _ => Ok (newCarry, newR)
  end.
(** RNNCellStack.__call__, rnn2d_general.py 42-59 *)
Definition stack_2d (actFun : R -> R) (p : dense_params) (cells : list cell) (cHs cVs : list carry) (xH xV : list R) : result (list carry * list R) :=
  stack_loop_2d 0 cHs cVs cells (zeros_like cHs) (map actFun (dense false p (xH ++ xV))).

(** ** initial kernels of the recurrent networks *)
(** functions that make the initial entries of a kernel (rnn1d_general.py 39, 111, 114): variance_scaling(scale, "fan_avg", "uniform") of
    jax.nn.initializers with scale = initScale or with a fixed scale, and cplx_variance_scaling *)
Inductive init_src := ByInitScale | ByFixedScale (scale : R) | ByCplx.
(** [self.initFunction], rnn1d_general.py 109-114, rnn2d_general.py 114-119 *)
Definition initFunction (realValuedParams : bool) : init_src := if realValuedParams then ByInitScale else ByCplx.
(** one entry of a kernel (rnn1d_general.py 111, 114) with [m] inputs and [n] outputs from the random numbers [u1], [u2] in [0, 1).
    variance_scaling draws from a uniform distribution on [-a, a) with a = sqrt(3 scale / ((m + n) / 2)). *)
Definition initial_entry (src : init_src) (initScale : R) (m n : nat) (u1 u2 : R) : result C :=
  match src with
  | ByInitScale => Ok (RtoC (sqrt (3 * initScale / (INR (m + n) / 2)) * (2 * u1 - 1)))
  | ByFixedScale x => Ok (RtoC (sqrt (3 * x / (INR (m + n) / 2)) * (2 * u1 - 1)))
  | ByCplx => cplx_variance_scaling [m; n] u1 u2
  end.
(** a kernel (rnn1d_general.py 131-134): name, function, number of inputs and of outputs *)
Record kernel := mk_k { k_name : string; k_src : init_src; k_in : nat; k_out : nat }.
(** number of outputs of outputDense, rnn1d_general.py 133, rnn2d_general.py 140 *)
Definition output_features (inputDim : nat) (realValuedOutput : bool) : nat :=
  ((inputDim - 1) * (if realValuedOutput then 1 else 2))%nat.
(** kernels of RNN1DGeneral with vanilla cells: rnn1d_general.py 131 (RNNCellStack is not given initFun, the
    default is in line 39), 45-47, 119, 220-225, 132-134 *)
Definition kernels_1d (hiddenSize depth inputDim : nat) (realValuedOutput realValuedParams : bool) : list kernel :=
  mk_k "data_in_dense" (ByFixedScale (1 / 10)) inputDim hiddenSize
  :: repeat (mk_k "cell_carry_dense" (initFunction realValuedParams) hiddenSize hiddenSize) depth
  ++ [mk_k "outputDense" (initFunction realValuedParams) hiddenSize (output_features inputDim realValuedOutput)].
(** kernels of RNN2DGeneral with vanilla cells: rnn2d_general.py 139, 47-50, 127, 298-311, 140-145 *)
Definition kernels_2d (hiddenSize depth inputDim : nat) (realValuedOutput realValuedParams : bool) : list kernel :=
  mk_k "data_in_dense" (initFunction realValuedParams) (2 * inputDim) hiddenSize
  :: List.concat (repeat [mk_k "cell_carry_dense_H" (initFunction realValuedParams) hiddenSize hiddenSize;
                     mk_k "cell_carry_dense_V" (initFunction realValuedParams) hiddenSize hiddenSize] depth)
  ++ [mk_k "outputDense" (initFunction realValuedParams) hiddenSize (output_features inputDim realValuedOutput)].
