(** Model of /repo/jVMC/util/output_manager.py.

    A HDF5 file is a partial function from paths to groups and data sets.  Simplified: numbers are
    real; names that start with a slash are taken relative to the group; attributes, chunking and
    compression are left out; opening and closing the file does not fail. *)
From Coq Require Import String Ascii ZArith List Reals Bool.
From Verif Require Import Base Mpi_Model.
Import ListNotations.
Local Open Scope string_scope.

(** ** HDF5 files: what h5py does in output_manager.py 30-32, 40-68, 76-96, 104-125, 136-143, 162-180 *)

(** components of a HDF5 path, empty ones are dropped; the paths in output_manager.py 43-68 *)
Definition path := list string.
(** empty components are dropped, as in "/" + groupname of output_manager.py 43-68 *)
Definition push (h : string) (t : path) : path := if String.eqb h "" then t else h :: t.
(** a path is cut at the slashes; output_manager.py 43-68 *)
Fixpoint components (s : string) : string * path :=
  match s with
  | EmptyString => ("", [])
  | String c r => let '(h, t) := components r in
                  if Ascii.eqb c "/"%char then ("", push h t) else (String c h, t)
  end.
(** the components of a path of output_manager.py 43-68 *)
Definition parse (s : string) : path := let '(h, t) := components s in push h t.

(** comparison of paths, all look-ups in output_manager.py 30-180 *)
Fixpoint path_eqb (p q : path) : bool :=
  match p, q with
  | [], [] => true
  | a :: p, b :: q => String.eqb a b && path_eqb p q
  | _, _ => false
  end.
(** p is a prefix of q; for the groups created on the way by output_manager.py 32, 167, 180 *)
Fixpoint prefixb (p q : path) : bool :=
  match p, q with
  | [], _ => true
  | a :: p, b :: q => String.eqb a b && prefixb p q
  | _, _ => false
  end.

(** an array that is passed to be written; [Bare] is a value without attribute shape (a Python
    number, say); the attribute is used in output_manager.py 64, 67, 92, 95, 121, 124 *)
Inductive value := Arr (shape : list nat) (entry : list nat -> R) | Bare.
(** data set of rows of the given shape; maxshape is (None,) + d_max, output_manager.py 46, 64, 82, 92, 110, 121 *)
Record dataset := mk_data { d_max : list nat; d_shape : list nat; d_rows : list (list nat -> R) }.
(** [Fixed]: data set that cannot be resized, output_manager.py 167, 180 *)
Inductive node := Group | Data (d : dataset) | Fixed (shape : list nat) (entry : list nat -> R).
(** data sets have no members, output_manager.py 43-68 *)
Definition is_leaf (n : option node) : bool := match n with Some (Data _) | Some (Fixed _ _) => true | _ => false end.
(** the file opened in output_manager.py 30 and 40 *)
Definition file := path -> option node.
(** an empty file, h5py.File(fn, 'w'), output_manager.py 16, 30 *)
Definition empty_file : file := fun p => match p with [] => Some Group | _ => None end.

(** state: file, currentGroup, append ('a' or 'w'), output_manager.py 12-18 *)
Record state := mk_state { st_file : file; st_group : string; st_append : bool }.
(** a write to the file, output_manager.py 43-68 *)
Definition set_file (s : state) (f : file) : state := mk_state f (st_group s) (st_append s).
(** computations that read and change the state and may raise; the file keeps what was written
    (the with-statement closes the file, output_manager.py 30, 40, 76, 104, 162, 173) *)
Definition io A := state -> state * result A.
(** a statement of output_manager.py that does not raise *)
Definition ret {A} (a : A) : io A := fun s => (s, Ok a).
(** an exception raised in output_manager.py 30-180 *)
Definition raise {A} (e : exn) : io A := fun s => (s, Err e).
(** statements of output_manager.py one after the other; an exception ends them *)
Definition bind_io {A B} (x : io A) (k : A -> io B) : io B :=
  fun s => let '(s', r) := x s in match r with Ok a => k a s' | Err e => (s', Err e) end.
Notation "'exec' x <- a ; b" := (bind_io a (fun x => b)) (at level 200, x pattern, a at level 100, b at level 200).
(** for loops, e.g. output_manager.py 43-68 *)
Fixpoint for_each {A} (l : list A) (body : A -> io unit) : io unit :=
  match l with [] => ret tt | a :: l => exec _ <- body a; for_each l body end.

(** name in f[group], output_manager.py 31, 42, 45, 58, 62, 78, 81, 90, 106, 109, 119, 164, 176; iteration
    over a data set does not find a string *)
Definition member (group name : string) : io bool := fun s =>
  (s, match st_file s (parse group) with
      | None => Err KeyError
      | Some Group => Ok (match st_file s (parse group ++ parse name)%list with Some _ => true | None => false end)
      | Some _ => Ok false
      end).
(** f.create_group, f.create_dataset: missing groups above are created, existing names refused;
    output_manager.py 32, 43, 46, 60, 64, 79, 82, 92, 107, 110, 121, 165, 167, 177, 180 *)
Definition create (p : path) (n : node) : io unit := fun s =>
  match st_file s p with
  | Some _ => (s, Err ValueError)
  | None =>
      if existsb (fun k => is_leaf (st_file s (firstn k p))) (seq 0 (length p))
      then (s, Err ValueError)
      else (set_file s (fun q => if path_eqb q p then Some n
                                 else if prefixb q p then match st_file s q with None => Some Group | x => x end
                                 else st_file s q), Ok tt)
  end.
(** f[name] for a data set that is resized or read, output_manager.py 48-50, 66-68, 84-86, 94-96,
    112-114, 123-125, 137, 143; only data sets made with a maxshape can be resized *)
Definition get_data (p : path) : io dataset := fun s =>
  (s, match st_file s p with None => Err KeyError | Some Group => Err AttributeError | Some (Fixed _ _) => Err TypeError | Some (Data d) => Ok d end).
(** assignment to a data set, output_manager.py 67-68, 95-96, 124-125 *)
Definition put_data (p : path) (d : dataset) : io unit := fun s =>
  (set_file s (fun q => if path_eqb q p then Some (Data d) else st_file s q), Ok tt).

(** indices and shapes, output_manager.py 67, 95, 124 *)
Fixpoint inside (shape idx : list nat) : bool :=
  match shape, idx with
  | [], [] => true
  | n :: sh, i :: idx => Nat.ltb i n && inside sh idx
  | _, _ => false
  end.
(** a shape within the maximal shape, resize in output_manager.py 49, 67, 85, 95, 113, 124 *)
Fixpoint fits (shape max : list nat) : bool :=
  match shape, max with
  | [], [] => true
  | n :: sh, m :: mx => Nat.leb n m && fits sh mx
  | _, _ => false
  end.
(** equal shapes, output_manager.py 67-68, 95-96, 124-125 *)
Definition shape_eqb (a b : list nat) : bool := fits a b && fits b a.
(** what is left of a row after a change of shape by resize (67, 95, 124); new entries are zero *)
Definition cut (old new : list nat) (r : list nat -> R) : list nat -> R :=
  if shape_eqb old new then r else fun idx => if inside old idx && inside new idx then r idx else 0%R.
(** dataset.resize((len + 1,) + shape), output_manager.py 49, 67, 85, 95, 113, 124 *)
Definition grow (d : dataset) (shape : list nat) : result dataset :=
  if negb (Nat.eqb (length shape) (length (d_max d))) then Err TypeError
  else if negb (fits shape (d_max d)) then Err ValueError
  else Ok (mk_data (d_max d) shape (map (cut (d_shape d) shape) (d_rows d) ++ [fun _ => 0%R])%list).
(** dataset[-1] = value, output_manager.py 50, 68, 86, 96, 114, 125 *)
Definition set_last (d : dataset) (v : list nat -> R) : dataset :=
  mk_data (d_max d) (d_shape d) (removelast (d_rows d) ++ [v])%list.

(** value.shape and the values, output_manager.py 64-68 *)
Definition shape_of (v : value) : io (list nat) := match v with Arr sh _ => ret sh | Bare => raise AttributeError end.
(** the values, output_manager.py 64-68 *)
Definition entries_of (v : value) : list nat -> R := match v with Arr _ e => e | Bare => fun _ => 0%R end.
(** a computation without access to the file, e.g. output_manager.py 140 *)
Definition lift {A} (r : result A) : io A := fun s => (s, r).

(** The code repeated in output_manager.py 42-43, 57-59, 78-79, 106-107: create a group unless it exists *)
Definition ensure_group (dir name : string) : io unit :=
  exec b <- member dir name; if b : bool then ret tt else create (parse (dir ++ "/" ++ name)) Group.
(** The code repeated in lines 45-50, 61-68, 81-86, 90-96, 109-114, 119-125: create an empty data set
    unless it exists, make room for one more row, write it *)
Definition append_value (dir name : string) (v : value) : io unit :=
  let p := parse (dir ++ "/" ++ name) in
  exec b <- member dir name;
  exec _ <- (if b : bool then ret tt else exec sh <- shape_of v; create p (Data (mk_data sh sh [])));
  exec d <- get_data p;
  exec sh <- shape_of v;
  exec d' <- lift (grow d sh);
  exec _ <- put_data p d';
  put_data p (set_last d' (entries_of v)).
(** the time, stored in a data set without maxshape for further dimensions, output_manager.py 46-50 *)
Definition number (x : R) : value := Arr [] (fun _ => x).

(** ** OutputManager *)
Section Rank.
  Variable rank : nat.
  (** if mpi.rank == 0, output_manager.py 29, 38, 72, 100 *)
  Definition on_root (x : io unit) : io unit := if Nat.eqb rank 0 then x else ret tt.

  (** output_manager.py 24-34 *)
  Definition set_group (group : string) : io unit := fun s =>
    let s := if String.eqb group "/" then s else mk_state (st_file s) ("/" ++ group) (st_append s) in
    let '(s, r) := on_root (fun s => let s := if st_append s then s else set_file s empty_file in
                                     (exec b <- member "/" (st_group s); if b : bool then ret tt else create (parse (st_group s)) Group) s) s in
    match r with
    | Err e => (s, Err e)
    | Ok _ => (mk_state (st_file s) (st_group s) true, Ok tt)
    end.
  (** output_manager.py 10-22; [f] is the file found on disk (empty if there is none) *)
  Definition init (f : file) (group : string) (append : bool) : state * result unit :=
    set_group group (mk_state f "/" append).

  (** output_manager.py 36-68; dictionaries are lists of pairs *)
  Definition write_observables (time : R) (kwargs : list (string * list (string * value))) : io unit :=
    on_root (fun s =>
      let g := st_group s in
      (exec _ <- ensure_group g "observables";
       exec _ <- append_value (g ++ "/observables") "times" (number time);
       for_each kwargs (fun ko => for_each (snd ko) (fun nv =>
         exec _ <- ensure_group (g ++ "/observables") (fst ko);
         append_value (g ++ "/observables/" ++ fst ko) (fst nv) (snd nv)))) s).
  (** output_manager.py 70-96 *)
  Definition write_metadata (time : R) (kwargs : list (string * value)) : io unit :=
    on_root (fun s =>
      let g := st_group s in
      (exec _ <- ensure_group g "metadata";
       exec _ <- append_value (g ++ "/metadata") "times" (number time);
       for_each kwargs (fun nv => append_value (g ++ "/metadata") (fst nv) (snd nv))) s).
  (** output_manager.py 98-125 *)
  Definition write_network_checkpoint (time : R) (weights : value) : io unit :=
    on_root (fun s =>
      let g := st_group s in
      (exec _ <- ensure_group g "network_checkpoints";
       exec _ <- append_value (g ++ "/network_checkpoints") "times" (number time);
       append_value (g ++ "/network_checkpoints") "checkpoints" weights) s).
  (** output_manager.py 156-167; [data] is np.array(data) *)
  Definition write_error_data (name : string) (shape : list nat) (data : list nat -> R) (mpiRank : nat) : io unit :=
    if Nat.eqb rank mpiRank then
      exec _ <- ensure_group "/" "error_data"; create (parse ("/" ++ "error_data" ++ "/" ++ name)) (Fixed shape data)
    else ret tt.
  (** output_manager.py 169-180; the data have a shape *)
  Definition write_dataset (name : string) (shape : list nat) (data : list nat -> R) (groupname : string) (mpiRank : nat) : io unit :=
    if Nat.eqb rank mpiRank then
      exec _ <- (if String.eqb groupname "/" then ret tt else ensure_group "/" groupname);
      create (parse ("/" ++ groupname ++ "/" ++ name)) (Fixed shape data)
    else ret tt.
End Rank.

(** *** get_network_checkpoint *)

(** np.argmin, the first smallest entry; output_manager.py 140 *)
Fixpoint argmin_from (i best : nat) (m : R) (l : list R) : nat :=
  match l with
  | [] => best
  | x :: l => if Rlt_dec x m then argmin_from (S i) i x l else argmin_from (S i) best m l
  end.
(** np.argmin, output_manager.py 140 *)
Definition argmin (l : list R) : result Z :=
  match l with [] => Err ValueError | x :: l => Ok (Z.of_nat (argmin_from 1 0 x l)) end.
(** x[idx] with a Python index, output_manager.py 143-144 *)
Definition py_index {A} (l : list A) (idx : Z) : result A :=
  let i := if (idx <? 0)%Z then (idx + Z.of_nat (length l))%Z else idx in
  if (i <? 0)%Z then Err IndexError
  else match nth_error l (Z.to_nat i) with Some a => Ok a | None => Err IndexError end.
(** a row as a vector, output_manager.py 143 (the weights have one dimension; the first is used otherwise) *)
Definition vector (shape : list nat) (r : list nat -> R) : list R := map (fun i => r [i]) (seq 0 (hd 0 shape)).
(** output_manager.py 133-145: what rank 0 reads; [time] is -1 if not given *)
Definition read_checkpoint (s : state) (time : R) (idx : Z) : result (R * list R) :=
  let dir := st_group s ++ "/network_checkpoints" in
  do dt <- snd (get_data (parse (dir ++ "/times")) s);
  let times := map (fun r => r []) (d_rows dt) in
  do idx <- (if Rle_dec 0 time then argmin (map (fun x => Rabs (x - time)) times) else Ok idx);
  do dw <- snd (get_data (parse (dir ++ "/checkpoints")) s);
  do w <- py_index (d_rows dw) idx;
  do t <- py_index times idx;
  Ok (t, vector (d_shape dw) w).

(** continue with the value of a program, output_manager.py 152-154 *)
Fixpoint prog_map {F A B} (f : A -> B) (p : @prog F A) : @prog F B :=
  match p with
  | Done r => Done (do a <- r; Ok (f a))
  | Call c m k => Call c m (fun l => prog_map f (k l))
  end.
(** output_manager.py 127-154, program of one rank *)
Definition get_network_checkpoint (s : state) (time : R) (idx : Z) (rank : nat) : prog (R * list R) :=
  if Nat.eqb rank 0 then
    match read_checkpoint s time idx with
    | Err e => Done (Err e)
    | Ok (t, w) => Call (CBcast 0) (MBuf [t]) (fun _ =>
                     prog_map (fun w' => (t, w')) (bcast_unknown_size rank 0 (Some (mk_array Float64 w))))
    end
  else
    Call (CBcast 0) MNone (fun r =>
      match r with
      | [MBuf [t]] => prog_map (fun w => (t, w)) (bcast_unknown_size rank 0 None)
      | _ => Done (Err TypeError)
      end).
(** all ranks execute output_manager.py 127-154 *)
Definition run_checkpoint (ranks : nat) (s : state) (time : R) (idx : Z) : list (result (R * list R)) :=
  run 4 (map (get_network_checkpoint s time idx) (seq 0 ranks)).

(** ** timings *)

(** the dictionary of a name, output_manager.py 185; "newest" is t_newest *)
Record timing := mk_timing { t_total : R; t_last_total : R; t_newest : R; t_count : nat; t_init : R }.
(** self.timings, output_manager.py 22, 184-185 *)
Definition timings := list (string * timing).
(** output_manager.py 185, 194, 205 *)
Definition new_timing : timing := mk_timing 0 0 0 0 0.
(** self.timings[name], output_manager.py 184-209 *)
Fixpoint t_get (name : string) (d : timings) : option timing :=
  match d with [] => None | (k, v) :: d => if String.eqb k name then Some v else t_get name d end.
(** assignment to self.timings[name], output_manager.py 184-209 *)
Fixpoint t_set (name : string) (v : timing) (d : timings) : timings :=
  match d with
  | [] => [(name, v)]
  | (k, w) :: d => if String.eqb k name then (k, v) :: d else (k, w) :: t_set name v d
  end.
(** output_manager.py 184-185, 193-194, 204-205: a new dictionary if there is none *)
Definition t_entry (name : string) (d : timings) : timing := match t_get name d with Some t => t | None => new_timing end.
(** output_manager.py 182-187; [clock]: time.perf_counter() *)
Definition start_timing (name : string) (clock : R) (d : timings) : timings :=
  let t := t_entry name d in t_set name (mk_timing (t_total t) (t_last_total t) (t_newest t) (t_count t) clock) d.
(** output_manager.py 203-210 *)
Definition add_timing (name : string) (elapsed : R) (d : timings) : timings :=
  let t := t_entry name d in t_set name (mk_timing (t_total t + elapsed) (t_last_total t) elapsed (S (t_count t)) (t_init t)) d.
(** output_manager.py 189-201 *)
Definition stop_timing (name : string) (clock : R) (d : timings) : timings :=
  let t := t_entry name d in
  let elapsed := (clock - t_init t)%R in
  t_set name (mk_timing (t_total t + elapsed) (t_last_total t) elapsed (S (t_count t)) (t_init t)) d.
(** output_manager.py 212-222: numbers printed by rank 0 and dictionary afterwards *)
Definition print_timings (d : timings) : list (string * R) * timings :=
  (map (fun kt => (fst kt, (t_total (snd kt) - t_last_total (snd kt))%R)) d,
   map (fun kt => let t := snd kt in (fst kt, mk_timing (t_total t) (t_total t) (t_newest t) (t_count t) (t_init t))) d).
