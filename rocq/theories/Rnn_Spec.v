(** Independent specification for the autoregressive networks. *)
From Coq Require Import List Reals Arith.
From Verif Require Import Base Cplx BranchFree_Model Dist Sampler_Spec.
Import ListNotations.

(** a dense layer with real weights returns real numbers; it has [features] of them *)
Definition real_layer {Out} (features : nat) (dense : Out -> list C) : Prop :=
  forall o, length (dense o) = features /\ Forall (fun z => Im z = 0%R) (dense o).

(** probability of an outcome that is a list of rows, of a list of samples *)
Definition rows_eq_dec : forall s t : list config, {s = t} + {s <> t} := list_eq_dec config_eq_dec.
Definition PrRows (m : dist (list config)) (t : list config) : R :=
  E m (fun s => if rows_eq_dec s t then 1%R else 0%R).
Definition PrBatch {A} (dec : forall s t : A, {s = t} + {s <> t}) (m : dist (list A)) (ts : list A) : R :=
  E m (fun ss => if list_eq_dec dec ss ts then 1%R else 0%R).

(** a square lattice: L rows of L sites with [lDim] local states *)
Definition square_configs (lDim L : nat) : list (list config) := tuples (all_configs lDim L) L.

(** columns of row r that a zig-zag path (even rows from left to right, odd rows from right to
    left) has visited when it is at column c *)
Definition visited (r c c' : nat) : Prop := if Nat.even r then c' <= c else c <= c'.
