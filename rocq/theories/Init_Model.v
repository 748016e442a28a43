(** Model of [init_net], /repo/jVMC/util/util.py 26-88.  The description is a mutable dictionary: the
    model returns the description after the call together with the result.  The keys "type" and
    "parameters" of a network are assumed to be present. *)
From Coq Require Import String List Bool.
From Verif Require Import Base.
Import ListNotations.
Local Open Scope string_scope.

(** functions of nets/activation_functions.py 6-22, flax and jax *)
Inductive act_fun := Square | Poly5 | Poly6 | Elu | Relu | Tanh.
(** values of network parameters: strings, lists of strings, functions, tuples of functions, anything else *)
Inductive pval := PStr (s : string) | PList (l : list string) | PFun (f : act_fun) | PTuple (l : list act_fun) | POther (n : nat).

(** the dictionary activationFunctions, nets/activation_functions.py 25-32 *)
Definition activationFunctions : list (string * act_fun) :=
  [("square", Square); ("poly5", Poly5); ("poly6", Poly6); ("elu", Elu); ("relu", Relu); ("tanh", Tanh)].

(** [d[k]] and [k in d] of a dictionary, util.py 31, 47-59 *)
Fixpoint lookup {A} (k : string) (d : list (string * A)) : option A :=
  match d with
  | [] => None
  | (k', v) :: d' => if String.eqb k k' then Some v else lookup k d'
  end.
(** [d[k] = v] for a key that is present, util.py 50, 75 *)
Fixpoint update {A} (k : string) (v : A) (d : list (string * A)) : list (string * A) :=
  match d with
  | [] => []
  | (k', v') :: d' => if String.eqb k k' then (k', v) :: d' else (k', v') :: update k v d'
  end.

(** list comprehension of line 31 *)
Fixpoint act_list (l : list string) : result (list act_fun) :=
  match l with
  | [] => Ok []
  | fn :: l' => match lookup fn activationFunctions with
                | Some f => do r <- act_list l'; Ok (f :: r)
                | None => Err KeyError
                end
  end.

(** [get_activation_functions], util.py 28-33: functions and tuples of functions are no keys of the
    dictionary; other values are not strings (an unhashable value raises TypeError) *)
Definition get_activation_functions (v : pval) : result pval :=
  match v with
  | PList l => do r <- act_list l; Ok (PTuple r)
  | PStr s => match lookup s activationFunctions with Some f => Ok (PFun f) | None => Err KeyError end
  | PFun _ | PTuple _ | POther _ => Err KeyError
  end.

(** description of one network, util.py 47 *)
Record net_descr := mk_nd { nd_type : string; nd_params : list (string * pval) }.
(** the description, util.py 49, 54, 59, 66, 84; [d_entries] holds the keys of symmetries and factors *)
Record descr := mk_descr {
  d_net1 : option net_descr;
  d_net2 : option net_descr;
  d_entries : list (string * nat);     (* values stand for the factors *)
  d_batch : option nat }.

(** a network object: class and keyword arguments; util.py 35-47 *)
Record net := mk_net { n_type : string; n_params : list (string * pval) }.
(** util.py 35-43 *)
Definition netTypes : list string := ["RBM"; "FFN"; "CNN"; "RNN"; "RNN2D"; "CpxRBM"; "CpxCNN"].

(** an orbit: lattice dimension, linear size, symmetries, factors; util.py 61-64 *)
Record orbit := mk_orbit { o_dim : nat; o_L : nat; o_symms : list string; o_factors : list (string * option nat) }.
(** averaging functions of nets/sym_wrapper.py, util.py 82 *)
Inductive avg := Avg_Sep | Avg_Exp.
(** the state that is returned: inner network, orbit, averaging function, batch size, seed; util.py 83-84 *)
Record psi := mk_psi { p_net : net; p_orbit : orbit; p_avg : avg; p_batch : nat; p_seed : nat }.

Section Init.
(* the constructors of the network classes may refuse their keyword arguments *)
Variable construct : net -> result unit.
(* util.py 84-86: creating the state and evaluating it once *)
Variable evaluate : psi -> list nat -> result unit.

(** [get_net], util.py 45-47 *)
Definition get_net (d : net_descr) : result net :=
  if existsb (String.eqb (nd_type d)) netTypes
  then do _ <- construct (mk_net (nd_type d) (nd_params d)); Ok (mk_net (nd_type d) (nd_params d))
  else Err KeyError.

(** lines 49-50 and 73-75 for one network: description after the assignment *)
Definition replace_actFun (d : net_descr) : net_descr * result unit :=
  match lookup "actFun" (nd_params d) with
  | None => (d, Ok tt)
  | Some v => match get_activation_functions v with
              | Ok f => (mk_nd (nd_type d) (update "actFun" f (nd_params d)), Ok tt)
              | Err e => (d, Err e)
              end
  end.

(** lines 52-55 *)
Definition get_symms (d : descr) : list string :=
  filter (fun key => match lookup key (d_entries d) with Some _ => true | None => false end)
         ["translation"; "rotation"; "reflection"; "spinflip"].
(** lines 56-59; [None] is the default factor 1 *)
Definition get_factors (d : descr) (symms : list string) : list (string * option nat) :=
  map (fun key => ((key ++ "_factor")%string, lookup (key ++ "_factor") (d_entries d))) symms.

(** lines 61-64: get_orbit_1D (symmetries.py 191) has no keyword argument rotation_factor;
    get_orbit_2D_square (symmetries.py 114) accepts all four *)
Definition get_orbit (dims : list nat) (symms : list string) (factors : list (string * option nat)) : result orbit :=
  match dims with
  | [L] => if existsb (fun kv => String.eqb (fst kv) "rotation_factor") factors
           then Err TypeError else Ok (mk_orbit 1 L symms factors)
  | [L; _] => Ok (mk_orbit 2 L symms factors)
  | _ => Err UnboundLocalError                (* raised in line 83 *)
  end.

(** call of [TwoNets] with keyword arguments: fields of the dataclass, nets/two_nets_wrapper.py 8-9; flax adds parent and name *)
Definition two_nets (kwargs : list (string * net)) : result net :=
  if forallb (fun kv => existsb (String.eqb (fst kv)) ["nets"; "parent"; "name"]) kwargs
  then Ok (mk_net "TwoNets" []) else Err TypeError.

(** [isGenerator], lines 69, 80: the classes with a method [sample] (rnn1d_general.py 158,
    rnn2d_general.py 193) *)
Definition has_sample (n : net) : bool := existsb (String.eqb (n_type n)) ["RNN"; "RNN2D"].

(** an orbit that could not be built for lack of a branch (lines 61-64) is used in line 83 only *)
Definition deferred (r : result orbit) : result (result orbit) :=
  match r with Err UnboundLocalError => Ok r | Err e => Err e | Ok _ => Ok r end.

(** lines 82-88 *)
Definition finish (d : descr) (dims : list nat) (seed : nat) (orb : result orbit) (model : net) (isGenerator : bool) : result psi :=
  do orb' <- orb;
  match d_batch d with
  | None => Err KeyError
  | Some b =>
      let p := mk_psi model orb' (if isGenerator then Avg_Sep else Avg_Exp) b seed in
      do _ <- evaluate p dims; Ok p
  end.

(** [init_net], lines 26-88 *)
Definition init_net (d : descr) (dims : list nat) (seed : nat) : descr * result psi :=
  match d_net1 d with
  | None => (d, Err KeyError)
  | Some n1 =>
      let (n1', r1) := replace_actFun n1 in
      let d1 := mk_descr (Some n1') (d_net2 d) (d_entries d) (d_batch d) in
      match r1 with
      | Err e => (d1, Err e)
      | Ok _ =>
          let symms := get_symms d1 in
          match deferred (get_orbit dims symms (get_factors d1 symms)) with
          | Err e => (d1, Err e)
          | Ok orb =>
              match d_net2 d1 with
              | None => (d1, do model <- get_net n1'; finish d1 dims seed orb model (has_sample model))
              | Some n2 =>
                  let (n2', r2) := replace_actFun n2 in
                  let d2 := mk_descr (Some n1') (Some n2') (d_entries d1) (d_batch d1) in
                  (d2, do _ <- r2;
                       do model1 <- get_net n1';
                       do model2 <- get_net n2';
                       do model <- two_nets [("net1", model1); ("net2", model2)];
                       finish d2 dims seed orb model (has_sample model1))
              end
          end
      end
  end.

(** repeated calls with the same dictionary *)
Fixpoint init_calls (d : descr) (calls : list (list nat * nat)) : descr * list (result psi) :=
  match calls with
  | [] => (d, [])
  | (dims, seed) :: calls' =>
      let (d1, r) := init_net d dims seed in
      let (d2, rs) := init_calls d1 calls' in (d2, r :: rs)
  end.
End Init.
