(** Model of the autoregressive networks /repo/jVMC/nets/rnn1d_general.py and
    /repo/jVMC/nets/rnn2d_general.py.
    The recurrent cell stack (rnn1d_general.py 22-55, rnn2d_general.py 23-61) and the output
    layer [outputDense] are arbitrary functions: the parameters are fixed while a network
    is evaluated.  Floating point numbers are real numbers, so there is no nan to be
    replaced by -35 (rnn1d_general.py 156, rnn2d_general.py 182).  Random numbers are
    idealised: calls with different keys are independent. *)
From Coq Require Import ZArith String List Reals Bool Arith.
From Verif Require Import Base Cplx BranchFree_Model Dist Sampler_Model Stats_Model.
Import ListNotations.
Local Open Scope R_scope.

(** [jax.nn.one_hot(x, inputDim)], rnn1d_general.py 145, 177; rnn2d_general.py 166, 228, 237 *)
Definition one_hot (inputDim x : nat) : list R :=
  map (fun k => if (k =? x)%nat then 1 else 0) (seq 0 inputDim).
(** [jnp.zeros(inputDim)], rnn1d_general.py 145, 162; rnn2d_general.py 165, 204, 218 *)
Definition zeros (inputDim : nat) : list R := repeat 0 inputDim.

(** [jax.nn.log_softmax] of a complex or real vector, rnn1d_general.py 142: the numerically
    motivated subtraction of the maximum is left out; it changes the value at most by a
    multiple of 2 pi i. *)
Definition log_softmax (a : list C) : list C :=
  map (fun z => (z - Clog (csum (map Cexp a)))%C) a.

(** rnn1d_general.py 136-142, rnn2d_general.py 147-153 *)
Definition log_coeffs_to_log_probs (inputDim : nat) (lpf : R) (realValuedOutput realValuedParams : bool)
    (logCoeffs : list C) : list C :=
  let phase := if negb realValuedOutput && realValuedParams
               then map (Cmul Ci) (C0 :: skipn (inputDim - 1) logCoeffs)
               else repeat C0 inputDim in
  let amp := C0 :: firstn (inputDim - 1) logCoeffs in
  map2 Cadd (map (Cscal lpf) (log_softmax amp)) phase.

(** [jnp.sum(logProb * x, axis=-1)] for a one-hot vector x, rnn1d_general.py 155, rnn2d_general.py 181 *)
Definition select (logProb : list C) (x : list R) : C := csum (map2 (fun z r => (z * RtoC r)%C) logProb x).

(** [jax.random.categorical(key, logits)]: index k with probability proportional to exp(logits[k]);
    rnn1d_general.py 176, rnn2d_general.py 235 *)
Definition categorical (logits : list R) : dist nat :=
  map (fun k => (exp (nth k logits 0) / rsum (map exp logits), k)) (seq 0 (length logits)).

(** ** RNN1DGeneral, rnn1d_general.py 58-177 *)
Section RNN1D.
  (** carry and output of the cell stack; outputDense; attributes of the class *)
  Context {St Out : Type} (rnnCell : St -> list R -> St * Out) (outputDense : Out -> list C)
          (zero_carry : St) (L inputDim : nat) (lpf : R) (realValuedOutput realValuedParams : bool).

  (** rnn1d_general.py 152-156; the scanned carry is the pair [(carry, prev)] *)
  Definition rnn_cell (cp : St * list R) (x : list R) : (St * list R) * C :=
    let '(newCarry, out) := rnnCell (fst cp) (snd cp) in
    let logProb := log_coeffs_to_log_probs inputDim lpf realValuedOutput realValuedParams (outputDense out) in
    ((newCarry, x), select logProb x).
  (** [nn.transforms.scan], rnn1d_general.py 149-151 *)
  Fixpoint scan_rnn (cp : St * list R) (xs : list (list R)) : list C :=
    match xs with
    | [] => []
    | x :: r => let '(cp', p) := rnn_cell cp x in p :: scan_rnn cp' r
    end.
  (** [probs] of [__call__], rnn1d_general.py 145 *)
  Definition rnn1d_probs (x : config) : list C :=
    scan_rnn (zero_carry, zeros inputDim) (map (one_hot inputDim) x).
  (** [__call__], rnn1d_general.py 144-147 *)
  Definition rnn1d_call (x : config) : C := csum (rnn1d_probs x).

  (** rnn1d_general.py 173-177 *)
  Definition rnn_cell_sample (cp : St * list R) : dist ((St * list R) * nat) :=
    let '(newCarry, out) := rnnCell (fst cp) (snd cp) in
    let logCoeffs := log_coeffs_to_log_probs inputDim lpf realValuedOutput realValuedParams (outputDense out) in
    sampleOut <~ categorical (map (fun z => Re z / lpf) logCoeffs);;
    ret ((newCarry, one_hot inputDim sampleOut), sampleOut).
  (** scan over the L keys, rnn1d_general.py 160-164 *)
  Fixpoint scan_sample (n : nat) (cp : St * list R) : dist config :=
    match n with
    | O => ret []
    | S k => r <~ rnn_cell_sample cp;; t <~ scan_sample k (fst r);; ret (snd r :: t)
    end.
  (** [generate_sample], rnn1d_general.py 159-165 *)
  Definition rnn1d_generate : dist config := scan_sample L (zero_carry, zeros inputDim).
  (** [sample], rnn1d_general.py 158-168: one key per element of the batch *)
  Definition rnn1d_sample (batchSize : nat) : dist (list config) :=
    mapD (fun _ => rnn1d_generate) (seq 0 batchSize).
End RNN1D.

(** ** RNN2DGeneral, rnn2d_general.py 64-237 *)
Section RNN2D.
  (** arguments of the cell: horizontal carry, vertical carry, left neighbour, upper neighbour;
      [zero_carry] holds one carry per column *)
  Context {St Out : Type} (rnnCell : St -> St -> list R -> list R -> St * Out) (outputDense : Out -> list C)
          (d0 : St) (zero_carry : list St) (L inputDim : nat) (lpf : R) (realValuedOutput realValuedParams : bool).

  (** rnn2d_general.py 156-157 *)
  Definition reverse_line {A} (line : list A) (b : Z) : list A := if Z.eqb b 1 then line else rev line.
  (** rnn2d_general.py 161-163, 196-199: [direction = ones; direction[1::2] = -1] *)
  Definition direction : list Z := map (fun i => if Nat.even i then 1%Z else (-1)%Z) (seq 0 L).
  (** [zero_carry[0]], rnn2d_general.py 174, 218 *)
  Definition zero_carry0 : St := nth 0 zero_carry d0.

  (** rnn2d_general.py 186-191 *)
  Definition rnn_cell_H (carry : St) (x : St * (list R * list R)) : St * (St * list C) :=
    let '(newCarry, out) := rnnCell carry (fst x) (fst (snd x)) (snd (snd x)) in
    let logCoeff := log_coeffs_to_log_probs inputDim lpf realValuedOutput realValuedParams (outputDense out) in
    (newCarry, (newCarry, logCoeff)).
  (** [nn.transforms.scan], rnn2d_general.py 183-185 *)
  Fixpoint scan_H (carry : St) (xs : list (St * (list R * list R))) : list (St * list C) :=
    match xs with
    | [] => []
    | x :: r => let '(c, o) := rnn_cell_H carry x in o :: scan_H c r
    end.
  (** rnn2d_general.py 173-182; the carry is (carries of the columns, previous row) *)
  Definition rnn_cell_V (carry : list St * list (list R)) (x : list (list R) * Z)
      : (list St * list (list R)) * list C :=
    let '(line, b) := x in
    let out := scan_H zero_carry0
      (combine (reverse_line (fst carry) b)
        (combine (removelast (zeros inputDim :: reverse_line line b)) (reverse_line (snd carry) b))) in
    let logProb := map2 select (reverse_line (map snd out) b) line in
    ((reverse_line (map fst out) b, line), logProb).
  (** scan over the rows, rnn2d_general.py 170-172 *)
  Fixpoint scan_V (carry : list St * list (list R)) (xs : list (list (list R) * Z)) : list (list C) :=
    match xs with
    | [] => []
    | x :: r => let '(c, o) := rnn_cell_V carry x in o :: scan_V c r
    end.
  (** [probs] of [__call__], rnn2d_general.py 160-167: one row of numbers per row of the lattice *)
  Definition rnn2d_probs (x : list config) : list (list C) :=
    scan_V (zero_carry, repeat (zeros inputDim) L)
           (combine (map (map (one_hot inputDim)) x) direction).
  (** [__call__], rnn2d_general.py 159-168 *)
  Definition rnn2d_call (x : list config) : C := csum (List.concat (rnn2d_probs x)).

  (** rnn2d_general.py 231-237; the keys are left out *)
  Definition rnn_cell_H_sample (carry : St * list R) (x : St * list R) : dist ((St * list R) * (St * nat)) :=
    let '(newCarry, out) := rnnCell (fst carry) (fst x) (snd carry) (snd x) in
    let logCoeffs := log_coeffs_to_log_probs inputDim lpf realValuedOutput realValuedParams (outputDense out) in
    sampleOut <~ categorical (map (fun z => Re z / lpf) logCoeffs);;
    ret ((newCarry, one_hot inputDim sampleOut), (newCarry, sampleOut)).
  (** [nn.transforms.scan], rnn2d_general.py 228-230 *)
  Fixpoint scan_H_sample (carry : St * list R) (xs : list (St * list R)) : dist (list (St * nat)) :=
    match xs with
    | [] => ret []
    | x :: r => o <~ rnn_cell_H_sample carry x;; t <~ scan_H_sample (fst o) r;; ret (snd o :: t)
    end.
  (** rnn2d_general.py 216-226 *)
  Definition rnn_cell_V_sample (carry : list St * list (list R)) (b : Z)
      : dist ((list St * list (list R)) * config) :=
    out <~ scan_H_sample (zero_carry0, zeros inputDim)
             (combine (reverse_line (fst carry) b) (reverse_line (snd carry) b));;
    let configLine := reverse_line (map snd out) b in
    ret ((reverse_line (map fst out) b, map (one_hot inputDim) configLine), configLine).
  (** scan over the rows, rnn2d_general.py 213-215 *)
  Fixpoint scan_V_sample (carry : list St * list (list R)) (bs : list Z) : dist (list config) :=
    match bs with
    | [] => ret []
    | b :: r => o <~ rnn_cell_V_sample carry b;; t <~ scan_V_sample (fst o) r;; ret (snd o :: t)
    end.
  (** [generate_sample], rnn2d_general.py 201-207 *)
  Definition rnn2d_generate : dist (list config) :=
    scan_V_sample (zero_carry, repeat (zeros inputDim) L) direction.
  (** [sample], rnn2d_general.py 193-211 *)
  Definition rnn2d_sample (batchSize : nat) : dist (list (list config)) :=
    mapD (fun _ => rnn2d_generate) (seq 0 batchSize).
End RNN2D.

(** ** choice of the cells, [setup] *)
(** arguments given to a constructor of a cell; the fields of the cell classes
    without default value must be given, otherwise the constructor raises TypeError *)
Inductive cell_class := CRNN | CLSTM | CGRU.
(** rnn1d_general.py 180-182, 189-191; rnn2d_general.py 242-244, 258-260: [features: int] has no default;
    rnn1d_general.py 198-217, rnn2d_general.py 274-292: all fields of RNNCell have one *)
Definition construct (c : cell_class) (features : option nat) : result (cell_class * option nat) :=
  match c, features with
  | CRNN, _ => Ok (c, None)
  | _, Some h => Ok (c, Some h)
  | _, None => Err TypeError
  end.
(** [[Cell(...) for _ in range(depth)]] *)
Fixpoint construct_n (n : nat) (c : cell_class) (features : option nat) : result (list (cell_class * option nat)) :=
  match n with
  | O => Ok []
  | S k => do a <- construct c features; do r <- construct_n k c features; Ok (a :: r)
  end.
(** rnn1d_general.py 105-131, for a cell given by its name: the ValueErrors are constructed but not
    raised (107, 127); an unknown name leaves [self.cells] undefined, which raises AttributeError in 132 *)
Definition setup_cells_1d (cell : string) (depth hiddenSize : nat) : result (list (cell_class * option nat)) :=
  if (cell =? "RNN")%string then construct_n depth CRNN None
  else if (cell =? "LSTM")%string then construct_n depth CLSTM (Some hiddenSize)
  else if (cell =? "GRU")%string then construct_n depth CGRU (Some hiddenSize)
  else Err AttributeError.
(** rnn2d_general.py 113-139: [GRUCell()] without features (133) *)
Definition setup_cells_2d (cell : string) (depth hiddenSize : nat) : result (list (cell_class * option nat)) :=
  if (cell =? "RNN")%string then construct_n depth CRNN None
  else if (cell =? "LSTM")%string then construct_n depth CLSTM (Some hiddenSize)
  else if (cell =? "GRU")%string then construct_n depth CGRU None
  else Err AttributeError.
