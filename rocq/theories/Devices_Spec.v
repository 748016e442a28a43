(** What is selected, independent of the global variables of the code. *)
From Coq Require Import List Arith.
From Verif Require Import Devices_Model.
Import ListNotations.

(** the devices a selection names *)
Inductive names_devices : selection -> list device -> Prop :=
| names_one d : names_devices (One d) [d]
| names_several ds : names_devices (Several ds) ds.

(** the last selection of a session that starts with all devices selected *)
Inductive selected (all : list device) : list event -> list device -> Prop :=
| sel_none es : (forall s, ~ In (Select s) es) -> selected all es all
| sel_last es1 s ds es2 : names_devices s ds -> (forall s', ~ In (Select s') es2) ->
    selected all (es1 ++ Select s :: es2) ds.

(** every selection names at least one device *)
Definition non_empty (es : list event) : Prop := ~ In (Select (Several [])) es.
