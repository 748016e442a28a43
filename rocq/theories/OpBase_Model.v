(** Model of /repo/jVMC/operator/base.py. *)
From Coq Require Import ZArith List Reals Bool Arith.
From Verif Require Import Base Cplx Mpi_Model Stats_Model BranchFree_Model.
Import ListNotations.

(** ** compaction of the matrix elements *)

(** base.py 96: [jnp.abs(x) > 1e-6] *)
Definition threshold : R := (/ 1000000)%R.
(** base.py 96 *)
Definition is_nonzero (m : C) : bool := if Rlt_dec threshold (Cabs m) then true else false.

(** [jnp.sort] on indices *)
Fixpoint insert (x : nat) (l : list nat) : list nat :=
  match l with [] => [x] | y :: r => if x <=? y then x :: l else y :: insert x r end.
(** [jnp.sort] as used after base.py 96 *)
Fixpoint sort (l : list nat) : list nat :=
  match l with [] => [] | x :: r => insert x (sort r) end.

(** base.py 95-101: the scan; [i] is c[1] and [last] the entry m.shape[0]-1 *)
Fixpoint find_scan (last i : nat) (m : list C) : list nat * nat :=
  match m with
  | [] => ([], 0)
  | x :: r => let '(ch, n) := find_scan last (S i) r in
              if is_nonzero x then (i :: ch, S n) else (last :: ch, n)
  end.
(** base.py 91-103 (_find_nonzero): indices and number of nonzero elements *)
Definition find_nonzero (m : list C) : list nat * nat :=
  let '(ch, n) := find_scan (length m - 1) 0 m in (sort ch, n).

(** base.py 105-114 (set_zero_to_zero); [idx] is truncated by the caller *)
Definition set_zero_to_zero (m : list C) (idx : list nat) (num : nat) : list C :=
  map (fun ki => if fst ki <? num then gather1 C0 m (snd ki) else (C0 * gather1 C0 m (snd ki))%C)
      (combine (seq 0 (length idx)) idx).

(** base.py 154-157: [els] holds for each device and sample the configurations and
    matrix elements returned by the compiled function.  [jnp.max] of an empty
    array raises. *)
Definition compact (els : list (list (list (config * C)))) : result (list (list (list (config * C)))) :=
  match concat els with
  | [] => Err ValueError
  | l =>
      let mx := list_max (map (fun e => snd (find_nonzero (map snd e))) l) in
      Ok (map (map (fun e =>
            let '(idx, num) := find_nonzero (map snd e) in
            let idx := firstn mx idx in
            combine (map (gather1 [] (map fst e)) idx) (set_zero_to_zero (map snd e) idx num))) els)
  end.

(** ** local estimators *)

(** A variational state as far as the operator sees it: the flag [logarithmic] and
    the value of [psi(s)].  Simplified: the logarithm of a vanishing amplitude
    (-inf) is not modelled. *)
Record state := mk_state { st_log : bool; st_val : config -> C }.

(** base.py 162-164 (_get_O_loc) for one sample: matrix elements with ln psi(s') *)
Definition O_loc1 (m : list (C * C)) (logPsiS : C) : C :=
  csum (map (fun x => (fst x * Cexp (snd x - logPsiS))%C) m).

(** One evaluation of get_s_primes, psi on the configurations and
    get_O_loc_unbatched (base.py 188-212).  [logged] tells whether lines 190/257 (logarithm for a
    non-logarithmic psi) are executed.  [op] is the compiled function. *)
Definition eval_batch (op : config -> list (config * C)) (psi : state) (logged : bool)
    (batch : list (list config)) (logPsiS : list (list C)) : result (list (list C)) :=
  do els <- compact (map (map op) batch);
  let lp := fun s' => if logged && negb (st_log psi) then Clog (st_val psi s') else st_val psi s' in
  Ok (map2 (map2 (fun e y => O_loc1 (map (fun sm => (snd sm, lp (fst sm))) e) y)) els logPsiS).

(** [jax.lax.dynamic_slice_in_dim] on every device: the start is clamped *)
Definition dslice {B} (start size : nat) (d : list (list B)) : list (list B) :=
  map (fun l => firstn size (skipn (Nat.min start (length l - size)) l)) d.
(** [jax.lax.dynamic_update_slice] on every device *)
Definition dupdate {B} (beg : nat) (dst src : list (list B)) : list (list B) :=
  map2 (fun a b => let s := Nat.min beg (length a - length b) in
                   firstn s a ++ b ++ skipn (s + length b) a) dst src.

(** base.py 14-18 (expand_batch) *)
Definition expand_batch {B} (zero : B) (size : nat) (d : list (list B)) : list (list B) :=
  map (fun l => l ++ repeat zero (size - length l)) d.

(** base.py 234-242: batch size, number of batches and remainder *)
Definition rebatch (n bs : nat) : nat * nat * nat :=
  if 0 <? n mod bs
  then let bs' := n / (n / bs + 1) in (bs', n / bs', n mod bs')
  else (bs, n / bs, n mod bs).

(** base.py 244-263: the loop over full batches.  Oloc is None before the first batch. *)
Fixpoint batch_loop (op : config -> list (config * C)) (psi : state) (samples : list (list config))
    (logPsiS : list (list C)) (bs : nat) (todo : list nat) (oloc : option (list (list C)))
  : result (option (list (list C))) :=
  match todo with
  | [] => Ok oloc
  | b :: r =>
      do ob <- eval_batch op psi true (dslice (b * bs) bs samples) (dslice (b * bs) bs logPsiS);
      let cur := match oloc with Some o => o | None => map (map (fun _ => C0)) samples end in
      batch_loop op psi samples logPsiS bs r (Some (dupdate (b * bs) cur ob))
  end.

(** base.py 214-278 (get_O_loc_batched); [nsites] is the number of sites of the
    zero configurations used for padding; the result None stands for Python's None
    (no samples).  Line 272 calls psi(sp) without the logarithm. *)
Definition get_O_loc_batched (op : config -> list (config * C)) (psi : state) (nsites : nat)
    (samples : list (list config)) (logPsiS : list (list C)) (batchSize : nat)
  : result (option (list (list C))) :=
  let n := match samples with [] => 0 | l :: _ => length l end in
  let '(bs, nb, rem) := rebatch n batchSize in
  do oloc <- batch_loop op psi samples logPsiS bs (seq 0 nb) None;
  if 0 <? rem then
    let batch := expand_batch (repeat 0 nsites) bs (dslice (nb * bs) rem samples) in
    let lpb := expand_batch C0 bs (dslice (nb * bs) (n mod bs) logPsiS) in
    do ob <- eval_batch op psi false batch lpb;
    match oloc with
    | Some o => Ok (Some (dupdate (nb * bs) o (dslice 0 rem ob)))
    | None => Err TypeError
    end
  else Ok oloc.

(** base.py 166-192 (get_O_loc); ElocBatchSize 0 stands for values <= 0 *)
Definition get_O_loc (op : config -> list (config * C)) (psi : state) (nsites elocBatchSize : nat)
    (samples : list (list config)) (logPsiS : option (list (list C)))
  : result (option (list (list C))) :=
  let lps := match logPsiS with Some l => l | None => map (map (st_val psi)) samples end in
  if 0 <? elocBatchSize
  then get_O_loc_batched op psi nsites samples lps elocBatchSize
  else do o <- eval_batch op psi true samples lps; Ok (Some o).

(** base.py 287-317 (get_estimator_function) for an operator whose compile() returns
    a pair of functions, applied to one configuration; [lp] is net.apply at the
    parameters *)
Definition op_estimator (op : config -> list (config * C)) (lp : config -> C) (s : config) : C :=
  csum (map (fun sm => (snd sm * Cexp (lp (fst sm) - lp s))%C) (op s)).

(** ** compile once: the operator object *)

(** base.py 61-65, 133-150 and branch_free.py 322-343: the attributes ops, compiled,
    compiled_argnum, arg_fun and _get_s_primes_pmapd of a BranchFreeOperator.
    One rank, fewer than 50 prefactors. *)
Record opobj (A : Type) := mk_op {
  ob_ops : list (opstr A); ob_compiled : bool; ob_argnum : option nat;
  ob_argfun : option (list (nat * pfun A) * list C); ob_pmapd : option (compiled A) }.
Arguments mk_op {A}. Arguments ob_ops {A}. Arguments ob_compiled {A}. Arguments ob_argnum {A}.
Arguments ob_argfun {A}. Arguments ob_pmapd {A}.

Section Obj.
Context {A : Type} (lDim d : nat).

(** branch_free.py 319-327, base.py 61-68 *)
Definition new_op : opobj A := mk_op [] false None None None.
(** branch_free.py 329-343 (add, __iadd__) *)
Definition add (o : opobj A) (s : opstr A) : opobj A :=
  mk_op (ob_ops o ++ [s]) false (ob_argnum o) (ob_argfun o) (ob_pmapd o).

(** base.py 152: call of the stored function *)
Definition run_pmapd (f : option (compiled A)) (pref : list C) (s : config) : result (list (config * C)) :=
  match f with
  | None => Err TypeError
  | Some c => get_s_primes_fun d (c_rows c) (c_diag c) pref s
  end.

(** base.py 133-152 (get_s_primes up to the call of the compiled function) *)
Definition get_s_primes (o : opobj A) (args : list A) (s : config) : result (list (config * C)) * opobj A :=
  if negb (ob_compiled o) || negb (match ob_argnum o with Some k => k =? length args | None => false end) then
    match compile lDim (ob_ops o) with
    | Err e => (Err e, o)
    | Ok c =>
        let init := map (fun _ => C1) (ob_ops o) in
        let o1 := mk_op (ob_ops o) true (Some (length args)) (Some (c_pref c, init)) (ob_pmapd o) in
        match arg_fun_serial (c_pref c) init args with
        | Err e => (Err e, o1)
        | Ok pref => (run_pmapd (Some c) pref s,
                      mk_op (ob_ops o) true (Some (length args)) (Some (c_pref c, init)) (Some c))
        end
    end
  else
    match ob_argfun o with
    | None => (Err AttributeError, o)
    | Some (prefs, init) =>
        match arg_fun_serial prefs init args with
        | Err e => (Err e, o)
        | Ok pref => (run_pmapd (ob_pmapd o) pref s, o)
        end
    end.

(** histories *)
Inductive event := Add (s : opstr A) | Eval (args : list A) (s : config).
(** one call of add or get_s_primes (branch_free.py 329-343, base.py 108-160) *)
Definition step (o : opobj A) (e : event) : opobj A :=
  match e with Add s => add o s | Eval args s => snd (get_s_primes o args s) end.
(** a new operator after a history of calls (branch_free.py 329-343, base.py 108-160) *)
Definition run (h : list event) : opobj A := fold_left step h new_op.
End Obj.
Arguments event : clear implicits.
