(** Vocabulary for the statements about output files and timings. *)
From Coq Require Import String Ascii ZArith List Reals Bool.
From Verif Require Import Base Output_Model.
Import ListNotations.
Local Open Scope string_scope.

(** a name without slash *)
Fixpoint no_slash (s : string) : Prop := match s with EmptyString => True | String c r => c <> "/"%char /\ no_slash r end.
Definition simple (s : string) : Prop := s <> "" /\ no_slash s.
(** one or more names separated by slashes *)
Fixpoint join (p : path) : string := match p with [] => "" | [a] => a | a :: p => a ++ "/" ++ join p end.
Definition below (p q : path) : Prop := exists r, q = (p ++ r)%list.

(** only groups have members *)
Definition well_formed (f : file) : Prop :=
  f [] = Some Group /\ forall p r, r <> [] -> f (p ++ r)%list <> None -> f p = Some Group.

(** f' has everything that f has; data sets may have gained rows *)
Definition preserved (f f' : file) : Prop :=
  forall p n, f p = Some n ->
    match n with
    | Data d => exists d' more, f' p = Some (Data d') /\ d_rows d' = (d_rows d ++ more)%list /\ d_shape d' = d_shape d
    | n => f' p = Some n
    end.
(** every data set has the shape announced by [sh], and the values passed have it, too (or none at all) *)
Definition uniform (sh : path -> list nat) (f : file) : Prop := forall p d, f p = Some (Data d) -> d_max d = sh p /\ d_shape d = sh p.
Definition conforms (shape : list nat) (v : value) : Prop := match v with Arr s _ => s = shape | Bare => True end.

(** a call of write_observables: time and dictionary of dictionaries *)
Definition obs_call := (R * list (string * list (string * value)))%type.
(** the dictionary entry for key, name *)
Definition contains (c : obs_call) (key name : string) (v : value) : Prop := exists d, In (key, d) (snd c) /\ In (name, v) d.
(** a legal call: keyword arguments and dictionaries have no name twice, names are simple, "times" is
    not used, the values have the shape [sh key name] *)
Definition legal (sh : string -> string -> list nat) (c : obs_call) : Prop :=
  NoDup (map fst (snd c))
  /\ forall key d, In (key, d) (snd c) -> simple key /\ key <> "times" /\ NoDup (map fst d)
     /\ forall name v, In (name, v) d -> simple name /\ exists e, v = Arr (sh key name) e.
Fixpoint write_all (cs : list obs_call) (s : state) : state * result unit :=
  match cs with
  | [] => (s, Ok tt)
  | c :: cs => let '(s', r) := write_observables 0 (fst c) (snd c) s in
               match r with Ok _ => write_all cs s' | Err e => (s', Err e) end
  end.
(** does a call give a value for key, name? *)
Definition mentions (key name : string) (c : obs_call) : bool :=
  existsb (fun kd => String.eqb (fst kd) key && existsb (fun nv => String.eqb (fst nv) name) (snd kd)) (snd c).
(** row k of a data set is the number / the array *)
Definition row_is (f : file) (p : path) (k : nat) (shape : list nat) (e : list nat -> R) : Prop :=
  exists d r, f p = Some (Data d) /\ d_shape d = shape /\ nth_error (d_rows d) k = Some r /\ forall idx, inside shape idx = true -> r idx = e idx.
Definition row_count (f : file) (p : path) (n : nat) : Prop := exists d, f p = Some (Data d) /\ length (d_rows d) = n.

(** the same for metadata *)
Definition legal_metadata (sh : string -> list nat) (c : R * list (string * value)) : Prop :=
  NoDup (map fst (snd c)) /\ forall name v, In (name, v) (snd c) -> simple name /\ name <> "times" /\ exists e, v = Arr (sh name) e.
Fixpoint write_all_metadata (cs : list (R * list (string * value))) (s : state) : state * result unit :=
  match cs with
  | [] => (s, Ok tt)
  | c :: cs => let '(s', r) := write_metadata 0 (fst c) (snd c) s in
               match r with Ok _ => write_all_metadata cs s' | Err e => (s', Err e) end
  end.

(** checkpoints *)
Fixpoint write_checkpoints (cs : list (R * list R)) (s : state) : state * result unit :=
  match cs with
  | [] => (s, Ok tt)
  | c :: cs => let '(s', r) := write_network_checkpoint 0 (fst c) (Arr [length (snd c)] (fun idx => nth (hd 0 idx) (snd c) 0%R)) s in
               match r with Ok _ => write_checkpoints cs s' | Err e => (s', Err e) end
  end.

(** histories of output calls; exceptions are caught by the caller, who carries on *)
Inductive op :=
| SetGroup (g : string)
| Observables (time : R) (kwargs : list (string * list (string * value)))
| Metadata (time : R) (kwargs : list (string * value))
| Checkpoint (time : R) (weights : value)
| ErrorData (name : string) (shape : list nat) (data : list nat -> R) (mpiRank : nat)
| Dataset (name : string) (shape : list nat) (data : list nat -> R) (groupname : string) (mpiRank : nat).
Definition execute (rank : nat) (o : op) : io unit :=
  match o with
  | SetGroup g => set_group rank g
  | Observables t kw => write_observables rank t kw
  | Metadata t kw => write_metadata rank t kw
  | Checkpoint t w => write_network_checkpoint rank t w
  | ErrorData n sh d r => write_error_data rank n sh d r
  | Dataset n sh d g r => write_dataset rank n sh d g r
  end.
Fixpoint history (rank : nat) (l : list op) (s : state) : state :=
  match l with [] => s | o :: l => history rank l (fst (execute rank o s)) end.
(** calls that write to the current group *)
Definition to_group (o : op) : Prop := match o with Observables _ _ | Metadata _ _ | Checkpoint _ _ => True | _ => False end.
(** every value has the shape that [sh] demands at the path it is written to *)
Definition conforming (sh : path -> list nat) (g : path) (o : op) : Prop :=
  match o with
  | Observables _ kw => sh (g ++ ["observables"; "times"])%list = [] /\
      forall key d name v, In (key, d) kw -> In (name, v) d -> conforms (sh (g ++ ["observables"] ++ parse key ++ parse name)%list) v
  | Metadata _ kw => sh (g ++ ["metadata"; "times"])%list = [] /\ forall name v, In (name, v) kw -> conforms (sh (g ++ ["metadata"] ++ parse name)%list) v
  | Checkpoint _ w => sh (g ++ ["network_checkpoints"; "times"])%list = [] /\ conforms (sh (g ++ ["network_checkpoints"; "checkpoints"])%list) w
  | _ => True
  end.
Fixpoint conforming_history (sh : path -> list nat) (rank : nat) (l : list op) (s : state) : Prop :=
  match l with
  | [] => True
  | o :: l => conforming sh (parse (st_group s)) o /\ conforming_history sh rank l (fst (execute rank o s))
  end.

(** timing calls *)
Inductive event := Start (name : string) (clock : R) | Stop (name : string) (clock : R) | Add (name : string) (elapsed : R) | Print.
Definition perform (d : timings) (e : event) : timings :=
  match e with
  | Start n c => start_timing n c d
  | Stop n c => stop_timing n c d
  | Add n x => add_timing n x d
  | Print => snd (print_timings d)
  end.
(** clock of the latest start of a name *)
Fixpoint started (name : string) (h : list event) : option R :=      (* h: latest event first *)
  match h with
  | [] => None
  | Start n c :: h => if String.eqb n name then Some c else started name h
  | _ :: h => started name h
  end.
(** measurements of a name, latest first; a stop measures the time since the latest start *)
Fixpoint measured (name : string) (h : list event) : list R :=
  match h with
  | [] => []
  | Stop n c :: h => if String.eqb n name then match started name h with Some s => [(c - s)%R] | None => [] end ++ measured name h else measured name h
  | Add n x :: h => if String.eqb n name then x :: measured name h else measured name h
  | _ :: h => measured name h
  end%list.
(** every stop comes after a start *)
Fixpoint well_timed (h : list event) : Prop :=
  match h with
  | [] => True
  | Stop n c :: h => started n h <> None /\ well_timed h
  | _ :: h => well_timed h
  end.
Definition sum (l : list R) : R := fold_right Rplus 0%R l.
(** the dictionary after a history (latest event first) and the sum of the numbers printed for a name *)
Fixpoint after (h : list event) : timings := match h with [] => [] | e :: h => perform (after h) e end.
Definition of_name (name : string) (l : list (string * R)) : R := sum (map snd (filter (fun p => String.eqb (fst p) name) l)).
Fixpoint printed (name : string) (h : list event) : R :=
  match h with
  | [] => 0%R
  | Print :: h => (of_name name (fst (print_timings (after h))) + printed name h)%R
  | _ :: h => printed name h
  end.
