(** Model of the complete recurrent networks /repo/jVMC/nets/rnn1d_general.py and /repo/jVMC/nets/rnn2d_general.py
    with real parameters and a cell given by its name: cells and carries made by [setup], the cell stack of
    Net_Model and the output layer inside the scans of Rnn_Model.  An error in a cell ends the computation. *)
From Coq Require Import ZArith String List Reals Bool Arith.
From Verif Require Import Base Cplx BranchFree_Model Dist Sampler_Model Stats_Model Rnn_Model Net_Model.
Import ListNotations.
Local Open Scope R_scope.

(** all parameters a cell can have: kernels of the dense layers for horizontal and vertical carries, and the functions
    of flax's GRU and LSTM cells; rnn1d_general.py 180-229, rnn2d_general.py 242-314.  A cell of a given
    class uses some of them; in one dimension there is one carry and one dense layer. *)
Record cparams := mk_cp {
  cp_H : dense_params; cp_V : dense_params;
  cp_gru : carry -> list R -> carry * carry;
  cp_lstm : list R * list R -> list R -> (list R * list R) * list R }.
(** rnn1d_general.py 118-125 with 184-186, 193-195, 219-229 *)
Definition module_1d (actFun : R -> R) (p : cparams) (k : cell_class) : cell :=
  match k with
  | CRNN => Cell2 (fun c s => Ok (rnn_cell_1d actFun (cp_H p) c s))
  | CLSTM => Cell2 (lstm_cell_1d (cp_lstm p))
  | CGRU => Cell2 (fun c s => Ok (gru_cell_1d (cp_gru p) c s))
  end.
(** rnn2d_general.py 126-133 with 246-255, 262-271, 294-314 *)
Definition module_2d (actFun : R -> R) (p : cparams) (k : cell_class) : cell :=
  match k with
  | CRNN => Cell3 (fun a b s => Ok (rnn_cell_2d actFun (cp_H p) (cp_V p) a b s))
  | CLSTM => Cell3 (lstm_cell_2d (cp_lstm p) (cp_H p) (cp_V p))
  | CGRU => Cell3 (fun a b s => Ok (gru_cell_2d (cp_gru p) (cp_H p) (cp_V p) a b s))
  end.
(** [zero_carry], rnn1d_general.py 117, 122: the LSTM carry has two rows *)
Definition zero_carry_1d (name : string) (depth hiddenSize : nat) : list carry :=
  repeat (repeat (repeat 0 hiddenSize) (if (name =? "LSTM")%string then 2 else 1)) depth.
(** [zero_carry], rnn2d_general.py 125, 130 *)
Definition zero_carry_2d (name : string) (L depth hiddenSize : nat) : list (list carry) :=
  repeat (zero_carry_1d name depth hiddenSize) L.

Section Nets.
(** activation function, kernel of the input layer, parameters of the cells by their position, output layer *)
Variables (actFun : R -> R) (pin : dense_params) (cps : nat -> cparams) (pout : dense_params).
(** attributes, rnn1d_general.py 94-103, rnn2d_general.py 102-111 *)
Variables (name : string) (depth hiddenSize L inputDim : nat) (lpf : R) (realValuedOutput : bool).

(** [self.cells] of [setup], rnn1d_general.py 116-130, rnn2d_general.py 121-137 *)
Definition modules (mk : (R -> R) -> cparams -> cell_class -> cell) (cls : list (cell_class * option nat)) : list cell :=
  map (fun jk => mk actFun (cps (fst jk)) (fst (snd jk))) (combine (seq 0 (List.length cls)) cls).
(** [log_coeffs_to_log_probs(outputDense(out))], rnn1d_general.py 154, rnn2d_general.py 188-190 *)
Definition out_probs (out : list R) : list C :=
  log_coeffs_to_log_probs inputDim lpf realValuedOutput true (map RtoC (dense true pout out)).

(** ** one dimension *)
(** rnn1d_general.py 153-154, 174-175 *)
Definition step_1d (cells : list cell) (cp : list carry * list R) : result (list carry * list C) :=
  do r <- stack_1d actFun pin cells (fst cp) (snd cp); Ok (fst r, out_probs (snd r)).
(** rnn1d_general.py 149-156 *)
Fixpoint net1d_scan (cells : list cell) (cp : list carry * list R) (xs : list (list R)) : result (list C) :=
  match xs with
  | [] => Ok []
  | x :: r => do s <- step_1d cells cp;
              do t <- net1d_scan cells (fst s, x) r;
              Ok (select (snd s) x :: t)
  end.
(** [__call__], rnn1d_general.py 144-147 after [setup], 105-134 *)
Definition net1d_call (x : config) : result C :=
  do cls <- setup_cells_1d name depth hiddenSize;
  do probs <- net1d_scan (modules module_1d cls) (zero_carry_1d name depth hiddenSize, zeros inputDim) (map (one_hot inputDim) x);
  Ok (csum probs).
(** rnn1d_general.py 160-164, 170-177 *)
Fixpoint net1d_scan_sample (cells : list cell) (n : nat) (cp : list carry * list R) : dist (result config) :=
  match n with
  | O => ret (Ok [])
  | S k => match step_1d cells cp with
           | Err e => ret (Err e)
           | Ok s => sampleOut <~ categorical (map (fun z => Re z / lpf) (snd s));;
                     t <~ net1d_scan_sample cells k (fst s, one_hot inputDim sampleOut);;
                     ret (do l <- t; Ok (sampleOut :: l))
           end
  end.
(** [generate_sample], rnn1d_general.py 159-165 *)
Definition net1d_generate : dist (result config) :=
  match setup_cells_1d name depth hiddenSize with
  | Err e => ret (Err e)
  | Ok cls => net1d_scan_sample (modules module_1d cls) L (zero_carry_1d name depth hiddenSize, zeros inputDim)
  end.

(** ** two dimensions *)
(** rnn2d_general.py 187-190, 232-234 *)
Definition step_2d (cells : list cell) (cH cV : list carry) (xH xV : list R) : result (list carry * list C) :=
  do r <- stack_2d actFun pin cells cH cV xH xV; Ok (fst r, out_probs (snd r)).
(** rnn2d_general.py 183-191 *)
Fixpoint net2d_scan_H (cells : list cell) (c : list carry) (xs : list (list carry * (list R * list R))) : result (list (list carry * list C)) :=
  match xs with
  | [] => Ok []
  | x :: r => do s <- step_2d cells c (fst x) (fst (snd x)) (snd (snd x));
              do t <- net2d_scan_H cells (fst s) r;
              Ok (s :: t)
  end.
(** rnn2d_general.py 170-182 *)
Fixpoint net2d_scan_V (cells : list cell) (carry0 : list carry) (carry : list (list carry) * list (list R)) (xs : list (list (list R) * Z)) : result (list (list C)) :=
  match xs with
  | [] => Ok []
  | (line, b) :: r =>
      do out <- net2d_scan_H cells carry0
        (combine (reverse_line (fst carry) b)
          (combine (removelast (zeros inputDim :: reverse_line line b)) (reverse_line (snd carry) b)));
      do t <- net2d_scan_V cells carry0 (reverse_line (map fst out) b, line) r;
      Ok (map2 select (reverse_line (map snd out) b) line :: t)
  end.
(** [__call__], rnn2d_general.py 159-168 after [setup], 113-145; the horizontal scans start with [zero_carry[0]] *)
Definition net2d_call (x : list config) : result C :=
  do cls <- setup_cells_2d name depth hiddenSize;
  let zc := zero_carry_2d name L depth hiddenSize in
  do probs <- net2d_scan_V (modules module_2d cls) (nth 0 zc []) (zc, repeat (zeros inputDim) L)
                (combine (map (map (one_hot inputDim)) x) (direction L));
  Ok (csum (List.concat probs)).
(** rnn2d_general.py 228-237 *)
Fixpoint net2d_scan_H_sample (cells : list cell) (c : list carry * list R) (xs : list (list carry * list R)) : dist (result (list (list carry * nat))) :=
  match xs with
  | [] => ret (Ok [])
  | x :: r => match step_2d cells (fst c) (fst x) (snd c) (snd x) with
              | Err e => ret (Err e)
              | Ok s => sampleOut <~ categorical (map (fun z => Re z / lpf) (snd s));;
                        t <~ net2d_scan_H_sample cells (fst s, one_hot inputDim sampleOut) r;;
                        ret (do l <- t; Ok ((fst s, sampleOut) :: l))
              end
  end.
(** rnn2d_general.py 213-226 *)
Fixpoint net2d_scan_V_sample (cells : list cell) (carry0 : list carry) (carry : list (list carry) * list (list R)) (bs : list Z) : dist (result (list config)) :=
  match bs with
  | [] => ret (Ok [])
  | b :: r =>
      out <~ net2d_scan_H_sample cells (carry0, zeros inputDim)
               (combine (reverse_line (fst carry) b) (reverse_line (snd carry) b));;
      match out with
      | Err e => ret (Err e)
      | Ok o =>
          let configLine := reverse_line (map snd o) b in
          t <~ net2d_scan_V_sample cells carry0 (reverse_line (map fst o) b, map (one_hot inputDim) configLine) r;;
          ret (do l <- t; Ok (configLine :: l))
      end
  end.
(** [generate_sample], rnn2d_general.py 201-207 *)
Definition net2d_generate : dist (result (list config)) :=
  match setup_cells_2d name depth hiddenSize with
  | Err e => ret (Err e)
  | Ok cls =>
      let zc := zero_carry_2d name L depth hiddenSize in
      net2d_scan_V_sample (modules module_2d cls) (nth 0 zc []) (zc, repeat (zeros inputDim) L) (direction L)
  end.
End Nets.
