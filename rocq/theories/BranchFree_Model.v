(** Model of /repo/jVMC/operator/branch_free.py. *)
From Coq Require Import ZArith List Reals Bool Arith.
From Verif Require Import Base Cplx Mpi_Model.
Import ListNotations.

(** A basis configuration, flattened: the local states. *)
Definition config := list nat.

(** branch_free.py 279-295: the entries of the dictionary.  "fermionic" missing
    in the dictionary is the same as False (lines 381-388). *)
Record localop := mk_lo {
  lo_idx : nat; lo_map : list nat; lo_els : list C; lo_diag : bool; lo_fermi : bool }.

(** branch_free.py 17-33 *)
Definition Id (idx lDim : nat) : localop :=
  mk_lo idx (seq 0 lDim) (map (fun _ => C1) (seq 0 lDim)) true false.
(** branch_free.py 36-51 *)
Definition Sx (idx : nat) := mk_lo idx [1; 0] [C1; C1] false false.
(** branch_free.py 54-69 *)
Definition Sy (idx : nat) := mk_lo idx [1; 0] [Ci; (- Ci)%C] false false.
(** branch_free.py 72-87 *)
Definition Sz (idx : nat) := mk_lo idx [0; 1] [(- C1)%C; C1] true false.
(** branch_free.py 90-105 *)
Definition Sp (idx : nat) := mk_lo idx [1; 0] [C1; C0] false false.
(** branch_free.py 108-123 *)
Definition Sm (idx : nat) := mk_lo idx [0; 0] [C0; C1] false false.
(** branch_free.py 128-146 *)
Definition number (idx : nat) := mk_lo idx [0; 1] [C0; C1] true false.
(** branch_free.py 150-168 *)
Definition creation (idx : nat) := mk_lo idx [1; 0] [C1; C0] false true.
(** branch_free.py 172-190 *)
Definition annihilation (idx : nat) := mk_lo idx [1; 0] [C0; C1] false true.

Section Args.
(** positional arguments of prefactor functions (e.g. time) *)
Context {A : Type}.

(** Python callables that occur as prefactors: a user function, a partial
    application of [_id_prefactor] to a value (branch_free.py 195-197) and a
    partial application of [_prod_fun] to the keyword arguments f1, f2 (199-200) *)
Inductive pfun :=
| PUser (f : list A -> result C)
| PConst (c : C)
| PProd (f1 f2 : pfun).

(** Calling such a callable with positional arguments.  [_prod_fun(f1, f2, *args)]
    with f1, f2 bound as keywords receives the first positional argument for f1
    as well: TypeError.  Only the call without arguments works. *)
Fixpoint call (p : pfun) (args : list A) : result C :=
  match p with
  | PUser f => f args
  | PConst c => Ok c
  | PProd f1 f2 =>
      match args with
      | [] => do a <- call f1 []; do b <- call f2 []; Ok (a * b)%C
      | _ :: _ => Err TypeError
      end
  end.

(** entries of an operator string: local operators and callables *)
Inductive elem := EFun (p : pfun) | EOp (o : localop).
(** an OpStr is a tuple of such entries, branch_free.py 228 *)
Definition opstr := list elem.

(** arguments of the constructor: operators, callables, other objects (numbers) *)
Inductive oarg := AOp (o : localop) | AFun (p : pfun) | ANum (c : C).

(** branch_free.py 225-226: [factors[0] = partial(_prod_fun, f1=factors[0], f2=factors.pop())] *)
Fixpoint fold_factors (f0 : pfun) (rest_rev : list pfun) : pfun :=
  match rest_rev with
  | [] => f0
  | p :: r => fold_factors (PProd f0 p) r
  end.

(** branch_free.py 207-228 (OpStr.__new__; __init__ does nothing more) *)
Definition OpStr (args : list oarg) : opstr :=
  let factors := flat_map (fun a => match a with AFun p => [p] | ANum c => [PConst c] | AOp _ => [] end) args in
  let ops := flat_map (fun a => match a with AOp o => [EOp o] | _ => [] end) args in
  match factors with
  | [] => ops
  | f0 :: r => EFun (fold_factors f0 (rev r)) :: ops
  end.

(** an OpStr taken apart into arguments again, as in OpStr(a, *op), branch_free.py 212-228 *)
Definition args_of (s : opstr) : list oarg :=
  map (fun e => match e with EFun p => AFun p | EOp o => AOp o end) s.

(** values of expressions *)
Inductive value := VNum (c : C) | VFun (p : pfun) | VOp (o : localop) | VStr (s : opstr).

(** branch_free.py 241-255 (OpStr.__rmul__) for a number or callable *)
Definition str_rmul (a : pfun) (s : opstr) : result opstr :=
  match s with
  | [] => Err IndexError
  | EFun p :: r => Ok (OpStr (args_of (EFun (PProd a p) :: r)))
  | EOp o :: r => Ok (OpStr (args_of (EFun a :: EOp o :: r)))
  end.

(** branch_free.py 231-239 (OpStr.__mul__) *)
Definition str_mul (s : opstr) (other : value) : result opstr :=
  let o := match other with
           | VStr t => t
           | VNum c => OpStr [ANum c]
           | VFun p => OpStr [AFun p]
           | VOp l => OpStr [AOp l]
           end in
  match o with
  | [] => Err IndexError
  | EFun p :: r => do t <- str_rmul p s; Ok (OpStr (args_of t ++ args_of r))
  | EOp l :: r => Ok (OpStr (args_of s ++ args_of (EOp l :: r)))
  end.

(** The Python operator * on these values: numbers multiply, two callables or a
    number and a callable do not support *, branch_free.py 297-308 for LocalOp.
    Simplified: numbers are Python numbers (a numpy scalar on the left would try
    to convert its right operand to an array first). *)
Definition pymul (x y : value) : result value :=
  match x, y with
  | VNum a, VNum b => Ok (VNum (a * b)%C)
  | VNum _, VFun _ | VFun _, VNum _ | VFun _, VFun _ => Err TypeError
  | VOp o, VOp o' => Ok (VStr (OpStr [AOp o; AOp o']))
  | VOp o, VStr t => Ok (VStr (OpStr (AOp o :: args_of t)))
  | VOp o, VNum c => Ok (VStr (OpStr [AOp o; ANum c]))
  | VOp o, VFun p => Ok (VStr (OpStr [AOp o; AFun p]))
  | VNum c, VOp o => do s <- str_rmul (PConst c) (OpStr [AOp o]); Ok (VStr s)
  | VFun p, VOp o => do s <- str_rmul p (OpStr [AOp o]); Ok (VStr s)
  | VNum c, VStr t => do s <- str_rmul (PConst c) t; Ok (VStr s)
  | VFun p, VStr t => do s <- str_rmul p t; Ok (VStr s)
  | VStr s, v => do t <- str_mul s v; Ok (VStr t)
  end.

(** branch_free.py 258-276 *)
Definition scal_opstr (a : value) (op : value) : result value :=
  match op with
  | VStr t => pymul a (VStr (OpStr (args_of t)))
  | _ => Err RuntimeError
  end.

(** ** compile *)

(** local operators of a string without a leading callable (tmpLen, k0) *)
Definition has_prefactor (s : opstr) : bool := match s with EFun _ :: _ => true | _ => false end.
(** branch_free.py 373-376 and 360-362 *)
Definition k0 (s : opstr) : nat := if has_prefactor s then 1 else 0.

(** branch_free.py 359-365 *)
Definition max_len (ops : list opstr) : nat :=
  fold_left (fun m s => let l := length s - k0 s in if m <? l then l else m) ops 0.

(** branch_free.py 379-400: entry k of the row of string [s]; an entry that is
    not a local operator (a callable after position 0) raises when indexed with
    a string key *)
Definition row_entry (lDim : nat) (s : opstr) (k : nat) : result localop :=
  if (S k + k0 s) <=? length s then
    match nth_error s (length s - k - 1) with
    | Some (EOp o) => Ok o
    | _ => Err TypeError
    end
  else Ok (Id 0 lDim).

(** branch_free.py 378-400: the row of string [s] *)
Definition row (lDim : nat) (maxl : nat) (s : opstr) : result (list localop) :=
  mapM (row_entry lDim s) (seq 0 maxl).

(** the flag isDiagonal (378, 382-383): the padding does not touch it *)
Definition row_is_diag (s : opstr) : bool :=
  forallb (fun e => match e with EOp o => lo_diag o | EFun _ => true end) (skipn (k0 s) s).

(** result of compile: idxC, mapC, matElsC, fermiC as rows of local operators,
    the list diag, and the prefactors with their string index.
    branch_free.py 345-411.  Simplified: all local operators have the same local
    dimension (otherwise jnp.array raises on the ragged list). *)
Record compiled := mk_comp {
  c_rows : list (list localop); c_diag : list nat; c_pref : list (nat * pfun) }.

(** branch_free.py 345-411 *)
Definition compile (lDim : nat) (ops : list opstr) : result compiled :=
  if existsb (fun s : opstr => match s with [] => true | _ => false end) ops then Err IndexError   (* op[0] in line 362 *)
  else
  do rows <- mapM (row lDim (max_len ops)) ops;
  Ok (mk_comp rows
        (filter (fun o => row_is_diag (nth o ops [])) (seq 0 (length ops)))
        (flat_map (fun os => match snd os with EFun p :: _ => [(fst os, p)] | _ => [] end)
                  (combine (seq 0 (length ops)) ops))).

(** ** prefactors *)

(** numpy assignment [res[i] = v] *)
Fixpoint set_nth {B} (l : list B) (i : nat) (v : B) : result (list B) :=
  match l, i with
  | [], _ => Err IndexError
  | _ :: r, O => Ok (v :: r)
  | a :: r, S j => do r' <- set_nth r j v; Ok (a :: r')
  end.

(** branch_free.py 415-418 and the loop 430-431: evaluate and store *)
Fixpoint store_all (offset : nat) (prefs : list (nat * pfun)) (args : list A) (res : list C) : result (list C) :=
  match prefs with
  | [] => Ok res
  | (i, f) :: r =>
      do v <- call f args;
      do res' <- set_nth res (i - offset) v;
      store_all offset r args res'
  end.

(** branch_free.py 413-418: the serial branch (fewer than 50 prefactors).  [init]
    is the array of ones created in compile and reused by every call; all
    positions that are ever written are rewritten by every call. *)
Definition arg_fun_serial (prefs : list (nat * pfun)) (init : list C) (args : list A) : result (list C) :=
  store_all 0 prefs args init.

(** branch_free.py 420-431: the part of one rank before allgather *)
Definition pref_idx (prefs : list (nat * pfun)) (k : nat) : result nat :=
  match nth_error prefs k with Some (i, _) => Ok i | None => Err IndexError end.

(** branch_free.py 413-434 *)
Definition arg_fun_rank (prefs : list (nat * pfun)) (init : list C) (args : list A) (commSize rank : nat)
  : result (list C) :=
  let N := length prefs in
  let nEls := (N + commSize - 1) / commSize in
  let myStart := nEls * rank in
  let myEnd := Nat.min (myStart + nEls) N in
  do firsts <- mapM (fun r => do i <- pref_idx prefs (nEls * r); Ok (i - 1)) (seq 1 (commSize - 1));
  do lasts <- mapM (fun r => do i <- pref_idx prefs (Nat.min (nEls * (r + 1)) (N - 1)); Ok (i - 1))
                   (seq 0 (commSize - 1));
  let first := nth rank (0 :: firsts) 0 in
  let last := nth rank (lasts ++ [length init]) 0 in
  let res := firstn (last - first) (skipn first init) in
  store_all first (firstn (myEnd - myStart) (skipn myStart prefs)) args res.

(** branch_free.py 413-434 on all ranks: the threshold is 50 prefactors *)
Definition arg_fun (prefs : list (nat * pfun)) (init : list C) (args : list A) (commSize : nat)
  : list (result (list C)) :=
  if length prefs <? 50
  then map (fun _ => arg_fun_serial prefs init args) (seq 0 commSize)
  else collective (fun parts : list (list C) => concat parts)
         (map (arg_fun_rank prefs init args commSize) (seq 0 commSize)).
End Args.
Arguments pfun : clear implicits.
Arguments elem : clear implicits.
Arguments opstr : clear implicits.
Arguments oarg : clear implicits.
Arguments value : clear implicits.
Arguments compiled : clear implicits.

(** ** action on a configuration *)

(** jax gather clamps the index *)
Definition gather1 {B} (d : B) (l : list B) (i : nat) : B := nth (Nat.min i (length l - 1)) l d.
(** jax scatter drops updates out of range *)
Fixpoint scatter1 {B} (l : list B) (i : nat) (v : B) : list B :=
  match l, i with
  | [], _ => []
  | _ :: r, O => v :: r
  | a :: r, S j => a :: scatter1 r j v
  end.

(** branch_free.py 452: row [idx] of the (d x d) mask, ones to the right of the
    diagonal; d is the last dimension of the sample shape *)
Definition mask_row (d idx : nat) : list Z :=
  map (fun j => if (Nat.min idx (d - 1) <? j) then 1%Z else 0%Z) (seq 0 d).

(** numpy broadcasting of two one-dimensional arrays *)
Definition broadcast2 {B D E} (f : B -> D -> E) (x : list B) (y : list D) : result (list E) :=
  if length x =? length y then Ok (map (fun ab => f (fst ab) (snd ab)) (combine x y))
  else match x, y with
       | [a], _ => Ok (map (f a) y)
       | _, [b] => Ok (map (fun a => f a b) x)
       | _, _ => Err ShapeError
       end.

(** branch_free.py 462-465: the sign factor
    prod((1-2f) (2 f mask + (1-2f)) config + (1-|config|)) *)
Definition sign_factor (d : nat) (fermi : bool) (idx : nat) (c : config) : result Z :=
  let f := if fermi then 1%Z else 0%Z in
  do t <- broadcast2 (fun m x => ((1 - 2 * f) * (2 * f * m + (1 - 2 * f)) * Z.of_nat x
                                  + (1 - Z.abs (Z.of_nat x)))%Z) (mask_row d idx) c;
  Ok (big 1%Z Z.mul t).

(** branch_free.py 455-469 (apply_fun) *)
Definition apply_fun (d : nat) (cm : config * C) (o : localop) : result (config * C) :=
  let '(c, m) := cm in
  do sg <- sign_factor d (lo_fermi o) (lo_idx o) c;
  let x := gather1 0 c (lo_idx o) in
  Ok (scatter1 c (lo_idx o) (gather1 0 (lo_map o) x),
      (m * gather1 C0 (lo_els o) x * RtoC (IZR sg))%C).

(** branch_free.py 472-477 (apply_multi): scan *)
Fixpoint apply_multi (d : nat) (cm : config * C) (ops : list localop) : result (config * C) :=
  match ops with
  | [] => Ok cm
  | o :: r => do cm' <- apply_fun d cm o; apply_multi d cm' r
  end.

(** branch_free.py 482-484: merging of the diagonal strings *)
Definition merge_diag (diag : list nat) (m : list C) : list C :=
  match diag with
  | d0 :: ((_ :: _) as rest) =>
      let total := csum (map (gather1 C0 m) (d0 :: rest)) in
      fold_left (fun l i => scatter1 l i C0) rest (scatter1 m d0 total)
  | _ => m
  end.

(** branch_free.py 443-486, for a flattened configuration [s] whose sample shape
    has last dimension [d]; [pref] is the vector args[0] of prefactors *)
Definition get_s_primes_fun (d : nat) (rows : list (list localop)) (diag : list nat) (pref : list C) (s : config)
  : result (list (config * C)) :=
  if length pref =? length rows then
    do cms <- mapM (fun rp => apply_multi d (s, snd rp) (fst rp)) (combine rows pref);
    Ok (combine (map fst cms) (merge_diag diag (map snd cms)))
  else Err ValueError.

(** compile, arg_fun and the compiled function together, on one rank
    (fewer than 50 prefactors, or one rank) *)
Definition operator_elements {A} (lDim d : nat) (ops : list (opstr A)) (args : list A) (s : config)
  : result (list (config * C)) :=
  do c <- compile lDim ops;
  do pref <- arg_fun_serial (c_pref c) (map (fun _ => C1) ops) args;
  get_s_primes_fun d (c_rows c) (c_diag c) pref s.
