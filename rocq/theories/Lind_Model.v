(** One evaluation of samples, local values and log-derivatives for a network of probabilities of
    POVM outcomes with the exact sampler: /repo/jVMC/util/tdvp.py 268-281 as in
    /repo/tests/povm_test.py 40-50 and /repo/examples/ex5_dissipative_Lindblad.py 58-75, that is with
    [lDim=4], [logProbFactor=1] and a POVMOperator in the place of the Hamiltonian, for all MPI ranks.
    The network is real, its values are logarithms of (unnormalised) probabilities. *)
From Coq Require Import ZArith List Reals Bool.
From Verif Require Import Base Cplx Mpi_Model Stats_Model BranchFree_Model OpBase_Model Exact_Model PovmOp_Model Vmc_Model.
Import ListNotations.

Section Run.
Variable N : nat.                  (* number of sites of a chain *)
Variables commSize devices : Z.    (* MPI ranks, devices per rank *)
Variable lastNorm : R.             (* left by earlier calls of the sampler *)
Variable logp : config -> R.       (* values of the network *)
Variable gradp : config -> nat -> R.   (* its gradients *)
Variable mc : nat * list (list nat * (nat -> nat -> R)).   (* the compiled operator, povm.py 377-416 *)
Variable bs : nat.                 (* ElocBatchSize, 0 for values <= 0 *)

(** the array returned by the network, sampler.py 502; the real numbers as complex ones *)
Definition povm_logs (s : config) : C := RtoC (logp s).
(** the probabilities, sampler.py 504-522 with logProbFactor 1 *)
Definition povm_probs : layout R :=
  fst (exact_sample 1 lastNorm (map (map (fun d => (fst d, map povm_logs (snd d)))) (bases 4 N commSize devices))).
(** povm.py 362-374: the coupled configurations with the (real) matrix elements *)
Definition povm_elements (s : config) : list (config * C) := map (fun cw => (fst cw, RtoC (snd cw))) (get_s_primes mc s).
(** tdvp.py 273 on all ranks *)
Definition povm_local : result (layout C) :=
  mapM (fun sl => do o <- get_O_loc povm_elements (mk_state true povm_logs) N bs (fst sl) (Some (snd sl));
                  match o with Some o => Ok o | None => Err AttributeError end)
       (combine (configs 4 N commSize devices) (lmap povm_logs (configs 4 N commSize devices))).
(** tdvp.py 275 *)
Definition povm_obs : result (sobs unit) := do e <- povm_local; Ok (init (lmap (fun x (_ : unit) => x) e) povm_probs).
(** tdvp.py 279-281 *)
Definition povm_gradients : sobs nat := init (lmap (fun s k => RtoC (gradp s k)) (configs 4 N commSize devices)) povm_probs.
End Run.
