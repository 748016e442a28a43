(** Model of how networks are put together and used by the samplers: the constructor of NQS,
    get_sampler_net and sample in /repo/jVMC/vqs.py, /repo/jVMC/nets/two_nets_wrapper.py, the
    sampling part of /repo/jVMC/nets/sym_wrapper.py, and constructor and direct sampling of
    MCSampler in /repo/jVMC/sampler.py.  Parameters are fixed; configurations are flattened. *)
From Coq Require Import ZArith List Reals Bool Arith.
From Verif Require Import Base Cplx Stats_Model BranchFree_Model Dist Sampler_Model Sym_Model.
Import ListNotations.

(** network objects: any other module with its logarithmic coefficients and, if it has a member
    "sample", the distribution of the samples; TwoNets (two_nets_wrapper.py 8-9); SymNet
    (sym_wrapper.py 38-40) *)
Inductive net : Type :=
| Plain (f : config -> C) (sample : option (dist config))
| TwoNets (nets : list net)
| SymNet (orbit : list (mat * C)) (avgFun : list C -> list C -> C) (inner : net).

(** ["sample" in dir(net)]: two_nets_wrapper.py 11-14 and sym_wrapper.py 42-45 define the member if the
    wrapped (first) network has it *)
Fixpoint has_sample (n : net) : bool :=
  match n with
  | Plain _ d => match d with Some _ => true | None => false end
  | TwoNets nets => match nets with a :: _ => has_sample a | [] => false end
  | SymNet _ _ i => has_sample i
  end.

(** [mapM] over a list of results *)
Fixpoint collect_results {A} (l : list (result A)) : result (list A) :=
  match l with
  | [] => Ok []
  | x :: r => do a <- x; do t <- collect_results r; Ok (a :: t)
  end.

(** [net.apply(params, s)]: two_nets_wrapper.py 19-21 (further networks are ignored, a missing one raises
    IndexError), sym_wrapper.py 50-61 *)
Fixpoint net_eval (n : net) (s : config) : result C :=
  match n with
  | Plain f _ => Ok (f s)
  | TwoNets nets => match nets with
                    | a :: b :: _ => do x <- net_eval a s; do y <- net_eval b s; Ok (Cadd x (Cmul Ci y))
                    | _ => Err IndexError
                    end
  | SymNet orbit avgFun i =>
      do res <- collect_results (map (fun of => net_eval i (sym_act (fst of) s)) orbit);
      Ok (avgFun res (map snd orbit))
  end.

(** [net.apply(params, n, key, method=net.sample)] for one sample: two_nets_wrapper.py 29-31,
    sym_wrapper.py 64-66; the orbit is not applied here *)
Fixpoint net_sample (n : net) : result (dist config) :=
  match n with
  | Plain _ (Some d) => Ok d
  | Plain _ None => Err AttributeError
  | TwoNets nets => match nets with a :: _ => net_sample a | [] => Err IndexError end
  | SymNet _ _ i => net_sample i
  end.

(** ** NQS *)
Record nqs := mk_nqs { v_net : net; v_isGenerator : bool }.
(** argument [net]: a network or an iterable of networks *)
Inductive net_arg := One (n : net) | Many (l : list net).

(** vqs.py 164-172; TwoNets looks at its first network when it is constructed (two_nets_wrapper.py 13) *)
Definition nqs_init (arg : net_arg) (orbit : option (list (mat * C))) (avgFun : list C -> list C -> C) : result nqs :=
  do n <- match arg with
          | One n => Ok n
          | Many [] => Err IndexError
          | Many l => Ok (TwoNets l)
          end;
  let n := match orbit with Some o => SymNet o avgFun n | None => n end in
  Ok (mk_nqs n (has_sample n)).

(** vqs.py 226-251 for one configuration *)
Definition nqs_call (v : nqs) (s : config) : result C := net_eval (v_net v) s.

(** vqs.py 337-354: only TwoNets has a member eval_real (two_nets_wrapper.py 24-26) *)
Definition sampler_net (v : nqs) (s : config) : result R :=
  do z <- match v_net v with
          | TwoNets (a :: _) => net_eval a s
          | TwoNets [] => Err IndexError
          | n => net_eval n s
          end;
  Ok (Re z).

(** vqs.py 356-375, the distribution of every sample; None if the network is no generator *)
Definition nqs_sample (v : nqs) : result (option (dist config)) :=
  if v_isGenerator v then do d <- net_sample (v_net v); Ok (Some d) else Ok None.

(** ** MCSampler *)
Record mcsampler := mk_mcs { m_psi : nqs; m_orbit : option (list (mat * C)); m_mu : R; m_prop : option (config -> dist config) }.

(** sampler.py 103-129: the orbit is taken from the outermost network; the network is evaluated on the
    initial states (all zero unless given) *)
Definition mcsampler_init (v : nqs) (updateProposer : option (config -> dist config)) (initState : config) (mu : R) : result mcsampler :=
  if negb (v_isGenerator v) && match updateProposer with None => true | _ => false end then Err RuntimeError
  else
    let orbit := match v_net v with SymNet o _ _ => Some o | _ => None end in
    do _ <- nqs_call v initState;
    if (if Rlt_dec mu 0 then true else if Rlt_dec 2 mu then true else false) then Err ValueError
    else Ok (mk_mcs v orbit mu updateProposer).

(** sampler.py 210-219 and 232-250: direct sampling, the distribution of every sample.  A network
    that is no generator is sampled with a Markov chain instead (None). *)
Definition direct_sample (m : mcsampler) : result (option (dist config)) :=
  do d <- nqs_sample (m_psi m);
  Ok (match d with
      | None => None
      | Some plain => Some (match m_orbit m with Some o => randomized_sample o plain | None => plain end)
      end).
