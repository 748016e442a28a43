(** Model of /repo/jVMC/operator/base.py 108-160 with the function arg_fun of
    /repo/jVMC/operator/branch_free.py 413-436, on several MPI ranks and for any number of
    prefactors.  OpBase_Model has the same on one rank with fewer than 50 prefactors. *)
From Coq Require Import List Reals Bool Arith.
From Verif Require Import Base Cplx Mpi_Model BranchFree_Model OpBase_Model.
Import ListNotations.

Section Ranks.
Context {A : Type} (lDim d : nat).

(** base.py 133-150 up to the call of arg_fun: its arguments prefactor and init, and the
    freshly compiled function if compile() was called *)
Definition request (o : opobj A) (args : list A)
  : result (list (nat * pfun A) * list C * option (compiled A)) :=
  if negb (ob_compiled o) || negb (match ob_argnum o with Some k => k =? length args | None => false end)
  then do c <- compile lDim (ob_ops o); Ok (c_pref c, map (fun _ => C1) (ob_ops o), Some c)
  else match ob_argfun o with None => Err AttributeError | Some (p, i) => Ok (p, i, None) end.

(** base.py 135-152 for a given outcome [v] of arg_fun: what the call returns and the
    attributes afterwards.  The stored function is replaced only if arg_fun returned. *)
Definition finish (o : opobj A) (args : list A)
    (rq : result (list (nat * pfun A) * list C * option (compiled A))) (v : result (list C)) (s : config)
  : result (list (config * C)) * opobj A :=
  match rq with
  | Err e => (Err e, o)
  | Ok (p, i, Some c) =>
      match v with
      | Err e => (Err e, mk_op (ob_ops o) true (Some (length args)) (Some (p, i)) (ob_pmapd o))
      | Ok pref => (run_pmapd d (Some c) pref s,
                    mk_op (ob_ops o) true (Some (length args)) (Some (p, i)) (Some c))
      end
  | Ok (p, i, None) =>
      match v with
      | Err e => (Err e, o)
      | Ok pref => (run_pmapd d (ob_pmapd o) pref s, o)
      end
  end.

(** branch_free.py 413-436 when every rank calls its own arg_fun: ranks with fewer than 50
    prefactors evaluate all of them; the others evaluate their share and meet in allgather
    (line 434).  A rank that raised, or that never arrives, leaves the others waiting. *)
Definition arg_fun_all (args : list A)
    (rqs : list (result (list (nat * pfun A) * list C * option (compiled A)))) : list (result (list C)) :=
  let m := length rqs in
  let parts := map (fun kr => match snd kr with
                              | Err e => Err e
                              | Ok (p, i, _) => arg_fun_rank p i args m (fst kr)
                              end) (combine (seq 0 m) rqs) in
  let all := collective (fun l : list (list C) => concat l) parts in
  map (fun kr => match snd kr with
                 | Err e => Err e
                 | Ok (p, i, _) => if length p <? 50 then arg_fun_serial p i args else nth (fst kr) all (Err Blocked)
                 end) (combine (seq 0 m) rqs).

(** The operator object of every rank; None stands for a rank that waits in allgather for
    ever and takes part in nothing any more. *)
Definition ranks := list (option (opobj A)).

(** base.py 108-152 (get_s_primes up to the call of the compiled function) on all ranks at
    once; [ss r] is the sample of rank r. *)
Definition get_s_primes_ranks (w : ranks) (args : list A) (ss : nat -> config)
  : list (result (list (config * C)) * option (opobj A)) :=
  let rqs := map (fun x => match x with None => Err Blocked | Some o => request o args end) w in
  let vs := arg_fun_all args rqs in
  map (fun kx => match snd kx with
                 | None => (Err Blocked, None)
                 | Some o =>
                     let '(r, o') := finish o args (request o args) (nth (fst kx) vs (Err Blocked)) (ss (fst kx)) in
                     (r, match r with Err Blocked => None | _ => Some o' end)
                 end) (combine (seq 0 (length w)) w).

(** histories of a program that is executed on all ranks (branch_free.py 329-343, base.py
    108-160) *)
Inductive revent := RAdd (s : opstr A) | REval (args : list A) (ss : nat -> config).
(** one call on all ranks (branch_free.py 329-343, base.py 108-160) *)
Definition rstep (w : ranks) (e : revent) : ranks :=
  match e with
  | RAdd s => map (option_map (fun o => add o s)) w
  | REval args ss => map snd (get_s_primes_ranks w args ss)
  end.
(** branch_free.py 319-327: a new operator on [m] ranks, and a history *)
Definition rrun (m : nat) (h : list revent) : ranks := fold_left rstep h (repeat (Some new_op) m).
End Ranks.
Arguments revent : clear implicits.
Arguments ranks : clear implicits.
