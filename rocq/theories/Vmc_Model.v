(** One evaluation of samples, local energies and log-derivatives with the exact sampler, as in
    /repo/jVMC/util/tdvp.py 268-281: the parts of sampler.py, vqs.py, operator/ and stats.py that are
    modelled elsewhere put together for all MPI ranks.  The wave function is logarithmic; its batched
    evaluation is the evaluation sample by sample (theorem C38). *)
From Coq Require Import ZArith List Reals Bool.
From Verif Require Import Base Cplx Mpi_Model Stats_Model BranchFree_Model OpBase_Model Exact_Model.
Import ListNotations.

Section Run.
Context {A : Type}.
Variable lDim : Z.                 (* local dimension *)
Variable N : nat.                  (* number of sites of a chain *)
Variables commSize devices : Z.    (* MPI ranks, devices per rank *)
Variable lastNorm : R.             (* left by earlier calls of the sampler *)
Variable psi : config -> C.        (* log psi(s) *)
Variable grads : config -> nat -> C.   (* psi.gradients(s) *)
Variable ops : list (opstr A).     (* the strings added to a BranchFreeOperator *)
Variable args : list A.            (* arguments of get_O_loc *)
Variable bs : nat.                 (* ElocBatchSize, 0 for values <= 0 *)

(** sampler.py 413-432 on all ranks *)
Definition bases : list (list (Z * list config)) :=
  map (fun r => get_basis (Z.of_nat r) commSize N lDim devices) (seq 0 (Z.to_nat commSize)).
(** the array of configurations returned by the sampler, sampler.py 520-522 *)
Definition configs : layout config := map (map snd) bases.
(** the array of log-amplitudes, sampler.py 502, 520-522 *)
Definition logpsis : layout C := lmap psi configs.
(** the probabilities, sampler.py 504-522; logProbFactor is 1/2 *)
Definition probs : layout R :=
  fst (exact_sample (/ 2) lastNorm (map (map (fun d => (fst d, map psi (snd d)))) bases)).

(** operator/base.py 133-152: the compiled function on one configuration *)
Definition elements (s : config) : result (list (config * C)) := operator_elements (Z.to_nat lDim) N ops args s.
(** the list of elements where the function does not raise, operator/base.py 133-152 *)
Definition elements_or_nil (s : config) : list (config * C) := match elements s with Ok e => e | Err _ => [] end.

(** tdvp.py 273 on all ranks; the compiled function must not raise, and [SampledObs] fails on None *)
Definition local_energies : result (layout C) :=
  do _ <- mapM (mapM (mapM elements)) configs;
  mapM (fun sl => do o <- get_O_loc elements_or_nil (mk_state true psi) N bs (fst sl) (Some (snd sl));
                  match o with Some o => Ok o | None => Err AttributeError end)
       (combine configs logpsis).

(** tdvp.py 275: SampledObs(Eloc, p) *)
Definition energy_obs : result (sobs unit) :=
  do e <- local_energies; Ok (init (lmap (fun x (_ : unit) => x) e) probs).
(** tdvp.py 279-281 *)
Definition gradient_obs : sobs nat := init (lmap grads configs) probs.
End Run.
