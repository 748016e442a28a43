(** Model of the class POVMOperator and of the registry of the class POVM in
    /repo/jVMC/operator/povm.py. *)
From Coq Require Import String List Reals Bool Arith.
From Verif Require Import Base Cplx.
Import ListNotations.

(** a sequence of POVM outcomes, as handled by the compiled function of povm.py 351-432 *)
Definition config := list nat.
(** a square array with its dimension; entries outside are not used *)
Definition sized := (nat * (nat -> nat -> R))%type.

(** ** operator dictionaries *)
(** the dictionary passed to [add]: "name", "strength", "sites" and the entry "id" that [add] writes,
    povm.py 351-360.  Sites are tuples of non-negative integers. *)
Record op := mk_op { op_name : string; op_strength : R; op_sites : list nat; op_id : nat }.
(** dictionaries are objects on a heap; several operators can hold the same one *)
Definition heap := nat -> op.
(** o["id"] = i, povm.py 351-360 *)
Definition set_id (o : op) (i : nat) : op := mk_op (op_name o) (op_strength o) (op_sites o) i.
(** [POVMOperator.add], povm.py 343-360: [ops] is the list [self.ops], empty at first *)
Definition add (h : heap) (ops : list nat) (p : nat) : heap * list nat :=
  (fun q => if q =? p then set_id (h p) (length ops + 1) else h q, ops ++ [p]).

(** several operator objects: operator k adds the dictionary p, povm.py 351-360 *)
Definition add_to (w : heap * (nat -> list nat)) (e : nat * nat) : heap * (nat -> list nat) :=
  let '(h, ops) := add (fst w) (snd w (fst e)) (snd e) in
  (h, fun k => if k =? fst e then ops else snd w k).

(** ** helpers of compile *)
(** comparison of tuples *)
Definition tuple_eqb (a b : list nat) : bool := if list_eq_dec Nat.eq_dec a b then true else false.
(** [x in t] *)
Definition mem (x : nat) (l : list nat) : bool := existsb (Nat.eqb x) l.
(** [max] of a list, ValueError if it is empty *)
Definition py_max (l : list nat) : result nat :=
  match l with [] => Err ValueError | _ => Ok (list_max l) end.
(** a function applied to all entries; the first exception ends the loop (povm.py 362-432) *)
Fixpoint mapM {A B} (f : A -> result B) (l : list A) : result (list B) :=
  match l with [] => Ok [] | x :: l => do y <- f x; do r <- mapM f l; Ok (y :: r) end.
(** a loop that updates a value and may raise (povm.py 362-432) *)
Fixpoint foldM {A S} (f : S -> A -> result S) (l : list A) (s : S) : result S :=
  match l with [] => Ok s | x :: l => do s' <- f s x; foldM f l s' end.
(** [jnp.kron(op_matrix, jnp.eye(4))], povm.py 415 *)
Definition kron_eye (x : sized) : sized :=
  (fst x * 4, fun i j => if (i mod 4 =? j mod 4) then snd x (i / 4) (j / 4) else 0%R).
(** povm.py 414-415 *)
Fixpoint pad_matrix (k : nat) (x : sized) : sized :=
  match k with 0 => x | S k => pad_matrix k (kron_eye x) end.
(** [self.povm.operators[name]] *)
Fixpoint get_item {A} (d : list (string * A)) (k : string) : result A :=
  match d with [] => Err KeyError | (k', v) :: d => if String.eqb k k' then Ok v else get_item d k end.
(** povm.py 411-416: one term; adding arrays of different dimension raises.  Simplified: a 1x1 array would be
    broadcast. *)
Definition add_term (operators : list (string * sized)) (m j : nat) (acc : nat -> nat -> R) (o : op) : result (nat -> nat -> R) :=
  do x <- get_item operators (op_name o);
  let y := pad_matrix (m - j - 1) x in
  if fst y =? 4 ^ m then Ok (fun a b => (acc a b + op_strength o * snd y a b)%R) else Err ShapeError.
(** povm.py 410-416 *)
Definition neighbour_op_comp (operators : list (string * sized)) (m : nat) (same : list (list op)) : result (nat -> nat -> R) :=
  foldM (fun acc jops => foldM (add_term operators m (fst jops)) (snd jops) acc) (combine (seq 0 (length same)) same) (fun _ _ => 0%R).

(** povm.py 423-425: [empty_idx]; the candidates repeat after max_site + 1 steps, so that the loop of line 424 never
    ends if the fuel max_site + 1 is used up *)
Fixpoint find_free (fuel max_site e : nat) (indices : list nat) : result nat :=
  match fuel with
  | 0 => Err Diverges
  | S f => if mem e indices then find_free f max_site ((e + 1) mod (max_site + 1)) indices else Ok e
  end.
(** povm.py 422-426; k is the number of missing indices *)
Fixpoint pad_indices (k max_site : nat) (indices : list nat) : result (list nat) :=
  match k with
  | 0 => Ok indices
  | S k => do e <- find_free (max_site + 1) max_site ((last indices 0 + 1) mod (max_site + 1)) indices;
           pad_indices k max_site (indices ++ [e])
  end.

Section Compile.
  (** [povm.operators] and the iteration order of Python sets, povm.py 400-401; the argument lists the elements as inserted *)
  Variables (operators : list (string * sized)) (order : list (list nat) -> list (list nat)).
  (** state of the loops: [ops_ordered], and the lists [siteCouplings] and [matEls] as pairs *)
  Definition cstate := (list (list op) * list (list nat * (nat -> nat -> R)))%type.

  (** povm.py 404-405 *)
  Definition ops_same (n : nat) (ordered : list (list op)) (indices : list nat) : list (list op) :=
    map (fun k => filter (fun o => tuple_eqb (op_sites o) (firstn (k + 1) indices)) (nth k ordered [])) (seq 0 (n + 1)).
  (** povm.py 406 *)
  Definition used_ids (same : list (list op)) : list (list nat) := map (map op_id) same.
  (** povm.py 419-420: the entry k of [used_op_ids] is looked up for every operator of the k-th list *)
  Definition remove_used (m : nat) (used : list (list nat)) (ordered : list (list op)) : result (list (list op)) :=
    mapM (fun k => match nth k ordered [] with
                   | [] => Ok []
                   | l => if k <? length used then Ok (filter (fun o => negb (mem (op_id o) (nth k used []))) l) else Err IndexError
                   end) (seq 0 m).
  (** body of the loop over the index tuples, povm.py 401-428 *)
  Definition visit (m max_site n : nat) (st : cstate) (indices : list nat) : result cstate :=
    let '(ordered, out) := st in
    let same := ops_same n ordered indices in
    do w <- neighbour_op_comp operators m same;
    do ordered' <- remove_used m (used_ids same) ordered;
    do padded <- pad_indices (m - length indices) max_site indices;
    Ok (ordered', out ++ [(padded, w)]).
  (** povm.py 400-428: one interaction order *)
  Definition level (m max_site : nat) (st : cstate) (n : nat) : result cstate :=
    foldM (visit m max_site n) (order (map op_sites (nth n (fst st) []))) st.
  (** povm.py 393-428: one local Hilbert space *)
  Definition site_loop (m max_site : nat) (ops : list op) (out : list (list nat * (nat -> nat -> R))) (idx : nat)
      : result (list (list nat * (nat -> nat -> R))) :=
    let ordered := map (fun n => filter (fun o => (nth 0 (op_sites o) 0 =? idx) && (length (op_sites o) =? n + 1)) ops) (seq 0 m) in
    do st <- foldM (level m max_site) (rev (seq 0 m)) (ordered, out);
    Ok (snd st).
  (** [compile], povm.py 376-432: max_int_size and the list of site couplings and matrix elements *)
  Definition compile (h : heap) (addrs : list nat) : result (nat * list (list nat * (nat -> nat -> R))) :=
    let ops := map h addrs in
    do m <- py_max (map (fun o => length (op_sites o)) ops);
    do ms <- mapM (fun o => py_max (op_sites o)) ops;
    do max_site <- py_max ms;
    do out <- foldM (site_loop m max_site ops) (seq 0 (max_site + 1)) [];
    Ok (m, out).
End Compile.

(** ** connected configurations *)
(** [itertools.product([0, 1, 2, 3], repeat=m)], povm.py 385-387 *)
Fixpoint product4 (m : nat) : list (list nat) :=
  match m with 0 => [[]] | S m => flat_map (fun x => map (cons x) (product4 m)) [0; 1; 2; 3] end.
(** position of a multi-index in an array reshaped to (4,)*m, povm.py 427 *)
Definition flat_index (l : list nat) : nat := fold_left (fun acc x => 4 * acc + x) l 0.
(** [s.at[i].set(v)] *)
Fixpoint set_nth (i v : nat) (s : config) : config :=
  match s, i with [], _ => [] | _ :: s, 0 => v :: s | x :: s, S i => x :: set_nth i v s end.
(** [OffdConfig.at[:, siteCoupling].set(values)] for one row, povm.py 366 *)
Fixpoint set_sites (s : config) (l vals : list nat) : config :=
  match l, vals with i :: l, v :: vals => set_sites (set_nth i v s) l vals | _, _ => s end.
(** povm.py 363-367 *)
Definition apply_on_single (m : nat) (s : config) (cw : list nat * (nat -> nat -> R)) : list (config * R) :=
  let stateIndices := map (fun i => nth i s 0) (fst cw) in
  map (fun b => (set_sites s (fst cw) b, snd cw (flat_index stateIndices) (flat_index b))) (product4 m).
(** [_get_s_primes], povm.py 362-374 *)
Definition get_s_primes (mc : nat * list (list nat * (nat -> nat -> R))) (s : config) : list (config * R) :=
  flat_map (apply_on_single (fst mc) s) (snd mc).

(** ** the registry of operator names *)
Section Registry.
  Context {V : Type}.
  (** [d[k] = v] *)
  Fixpoint dict_set (d : list (string * V)) (k : string) (v : V) : list (string * V) :=
    match d with [] => [(k, v)] | (k', v') :: d => if String.eqb k k' then (k', v) :: d else (k', v') :: dict_set d k v end.
  (** [{**a, **b}] *)
  Definition dict_merge (a b : list (string * V)) : list (string * V) := fold_left (fun d kv => dict_set d (fst kv) (snd kv)) b a.
  (** [name in d], povm.py 277-289 *)
  Definition has_key (d : list (string * V)) (k : string) : bool := existsb (fun kv => String.eqb k (fst kv)) d.
  (** attributes of the class POVM, povm.py 261-275 *)
  Record registry := mk_reg { unitaries : list (string * V); dissipators : list (string * V); imaginaries : list (string * V); operators : list (string * V) }.
  (** [_update_operators], povm.py 274-275 *)
  Definition update_operators (r : registry) : registry :=
    mk_reg (unitaries r) (dissipators r) (imaginaries r) (dict_merge (dict_merge (unitaries r) (dissipators r)) (imaginaries r)).
  (** [set_standard_povm_operators], povm.py 261-272 *)
  Definition standard (u d : list (string * V)) : registry := update_operators (mk_reg u d [] []).
  (** [_check_name_availabilty], povm.py 277-289 *)
  Definition check_name (r : registry) (name : string) : result unit :=
    if has_key (unitaries r) name then Err ValueError
    else if has_key (dissipators r) name then Err ValueError
    else if has_key (imaginaries r) name then Err ValueError
    else if has_key (operators r) name then Err ValueError
    else Ok tt.
  (** the three methods of povm.py 291-304 *)
  Inductive kind := KUnitary | KDissipator | KImaginary.
  (** [add_unitary], [add_dissipator], [add_imaginary], povm.py 291-304; the second component is the outcome of the call *)
  Definition register (r : registry) (c : kind * string * V) : registry * result unit :=
    let '(k, name, omega) := c in
    match check_name r name with
    | Err e => (r, Err e)
    | Ok _ =>
        (update_operators
           match k with
           | KUnitary => mk_reg (dict_set (unitaries r) name omega) (dissipators r) (imaginaries r) (operators r)
           | KDissipator => mk_reg (unitaries r) (dict_set (dissipators r) name omega) (imaginaries r) (operators r)
           | KImaginary => mk_reg (unitaries r) (dissipators r) (dict_set (imaginaries r) name omega) (operators r)
           end, Ok tt)
    end.
  (** [povm.operators[name] = omega] from outside the class, the case foreseen by povm.py 287-289 *)
  Definition set_directly (r : registry) (name : string) (omega : V) : registry :=
    mk_reg (unitaries r) (dissipators r) (imaginaries r) (dict_set (operators r) name omega).
End Registry.
